(** C54: the sum of all that is added to a component of the current, and what it should be.
    Nothing here is code of /repo. *)
From Coq Require Import Reals.
From Verif Require Import Base RSum DepositModel CurrentModel.
Local Open Scope R_scope.

(** the sum of the additions to component d *)
Definition total (d : dim3) (l : list entry) : R := rsum (map (fun e => if dim3_eqb (fst (fst e)) d then snd e else 0) l).

(** the velocity of the particle: the one given in invariant directions, else that of the displacement *)
Definition velocity (g : cgrid) (inv : V3 bool) (v xm xp : V3 R) (d : dim3) : R :=
  if get3 inv d then get3 v d else (get3 xp d - get3 xm d) * get3 (cg_dx g) d / cg_dt g.
