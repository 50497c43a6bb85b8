(** Fields at a plane wall, on the staggered grid. *)
From Coq Require Import Reals.
From Verif Require Import Base FieldModel FieldSpec.
Local Open Scope R_scope.

(** a side of the patch in some direction *)
Inductive side := Lo | Hi.

(** where the wall is, for n cells *)
Definition wall_at (s : side) (n : Z) : Z := match s with Lo => 0 | Hi => n end.

(** component e of E and J lies half way between nodes in direction e only, that of H in the other directions only *)
Definition between (q : qty) (d e : dim3) : bool := match q with QH => negb (dim3_eqb d e) | _ => dim3_eqb d e end.

(** mirror image of index y: y + 1/2 for y if half way between nodes *)
Definition image (half : bool) (w y : Z) : Z := if half then (2 * w - 1 - y)%Z else (2 * w - y)%Z.

(** the first index beyond the wall *)
Definition beyond (half : bool) (s : side) (n : Z) : Z := match s with Lo => -1 | Hi => if half then n else n + 1 end%Z.

(** the parities at a perfect conductor: tangential E odd, normal E even, normal H odd, tangential H even *)
Definition conductor_sign (q : qty) (d e : dim3) : R :=
  match q with QE => if dim3_eqb d e then 1 else -1 | _ => if dim3_eqb d e then -1 else 1 end.

(** positions along the wall, with two layers of ghost points above and some below (two in x) *)
Definition beside (g : fgrid) (d : dim3) (from : Z) (i : V3 Z) : Prop :=
  forall e, e <> d -> if get3 (invar g) e then get3 i e = 0%Z
                      else ((match e with D0 => -2 | _ => from end)%Z <= get3 i e < get3 (ldims g) e + 2)%Z.

(** the first layer beyond the wall in terms of the last one before it *)
Definition parity (sign : qty -> dim3 -> dim3 -> R) (g : fgrid) (q : qty) (d : dim3) (s : side) (from : Z) (f : pf) : Prop :=
  forall e i, beside g d from i ->
    let n := get3 (ldims g) d in
    let y := beyond (between q d e) s n in
    f q e (set3 i d y) = sign q d e * f q e (set3 i d (image (between q d e) (wall_at s n) y)).

(** a tangential component vanishes on the wall *)
Definition tangential_zero (g : fgrid) (q : qty) (d : dim3) (s : side) (f : pf) : Prop :=
  forall e i, e <> d -> beside g d (-2) i -> f q e (set3 i d (wall_at s (get3 (ldims g) d))) = 0.
