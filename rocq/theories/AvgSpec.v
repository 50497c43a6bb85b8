(** C60, C61: the current of a moving particle, averaged over the time step.
    Nothing here is code of /repo. *)
From Coq Require Import Reals.
From Coquelicot Require Import Coquelicot.
From Verif Require Import Base FieldModel DepositSpec CurrentModel.
Local Open Scope R_scope.

(** the straight path of a particle from x by v in one time step, in units of the spacing *)
Definition path (x v : V3 R) (t : R) : V3 R := gen3 (fun e => get3 x e + t * get3 v e).

(** is x in the cell k *)
Definition inside (k : Z) (x : R) : R := if Rle_dec (IZR k) x then if Rlt_dec x (IZR k + 1) then 1 else 0 else 0.

(** how much of a particle at x counts for component d at index n: on the staggered grid a
    component has the full weight for the cell in its own direction and the hat function in the
    others; there is only index 0 in invariant directions *)
Definition weight (inv : V3 bool) (d : dim3) (n : V3 Z) (x : V3 R) : R :=
  let one := fun e => if get3 inv e then (if (get3 n e =? 0)%Z then 1 else 0)
                      else if dim3_eqb e d then inside (get3 n e) (get3 x e) else hat (get3 x e - IZR (get3 n e)) in
  one D0 * one D1 * one D2.

(** the current at time t (0 to 1) of the step: charge times velocity times weight *)
Definition current_at (g : cgrid) (q : R) (inv : V3 bool) (x v : V3 R) (d : dim3) (n : V3 Z) (t : R) : R :=
  q * cg_fnqs g * (get3 v d * get3 (cg_dx g) d / cg_dt g) * weight inv d n (path x v t).

(** l adds to component d the current averaged over the step *)
Definition averages (g : cgrid) (q : R) (inv : V3 bool) (x v : V3 R) (l : list entry) (d : dim3) : Prop :=
  forall n, exists a, is_RInt (current_at g q inv x v d n) 0 1 a /\ forall J, cadd_all J l d n = J d n + a.

(** the displacement in one step, in units of the spacing: by the velocity in invariant directions,
    where the particle has no coordinate *)
Definition displacement (g : cgrid) (inv : V3 bool) (vel xm xp : V3 R) : V3 R :=
  gen3 (fun e => if get3 inv e then get3 vel e * cg_dt g / get3 (cg_dx g) e else get3 xp e - get3 xm e).

(** where a particle at x with velocity v is after the step *)
Definition arrival (g : cgrid) (v x : V3 R) : V3 R := gen3 (fun e => get3 x e + cg_dt g * get3 v e / get3 (cg_dx g) e).
