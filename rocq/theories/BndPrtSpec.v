(** Vocabulary for the boundary processing and exchange of particles. *)
From Coq Require Import Reals.
From Flocq Require Import Core.
From Verif Require Import Base BndPrtModel.
Local Open Scope R_scope.

(** l is what remains of m when some elements are left out (same order) *)
Inductive sublist {A} : list A -> list A -> Prop :=
| sub_nil : sublist [] []
| sub_skip x l m : sublist l m -> sublist l (x :: m)
| sub_cons x l m : sublist l m -> sublist (x :: l) (x :: m).

(** removes particles *)
Definition removing (b : bnd_prt) : Prop := b = PRT_OPEN \/ b = PRT_ABSORBING.

(** the cell of a position, whatever the rounding *)
Definition cell_of (a : arith) (dxi x : R) : Z := Zfloor (rnd a (x * dxi)).

(** the position is beyond an open or absorbing side of the domain *)
Definition beyond_open (a : arith) (g : pgeom) (x : V3 R) : Prop := exists d,
  ((cell_of a (get3 (pg_dxi g) d) (get3 x d) < 0)%Z /\ get3 (pg_at_lo g) d = true /\ removing (get3 (pg_lo g) d)) \/
  ((get3 (pg_ld g) d <= cell_of a (get3 (pg_dxi g) d) (get3 x d))%Z /\ get3 (pg_at_hi g) d = true /\ removing (get3 (pg_hi g) d)).

(** all components in a cell of the patch *)
Definition in_cells (a : arith) (g : pgeom) (x : V3 R) : Prop :=
  forall d, (0 <= cell_of a (get3 (pg_dxi g) d) (get3 x d) < get3 (pg_ld g) d)%Z.

(** the patch is the domain's last one at this side, and the side reflects particles *)
Definition reflects_lo (g : pgeom) (d : dim3) : Prop := get3 (pg_at_lo g) d = true /\ get3 (pg_lo g) d = PRT_REFLECTING.
Definition reflects_hi (g : pgeom) (d : dim3) : Prop := get3 (pg_at_hi g) d = true /\ get3 (pg_hi g) d = PRT_REFLECTING.

(** particles leave through this side to the neighbouring patch *)
Definition passes_lo (g : pgeom) (d : dim3) : Prop := get3 (pg_at_lo g) d = false \/ get3 (pg_lo g) d = PRT_PERIODIC.
Definition passes_hi (g : pgeom) (d : dim3) : Prop := get3 (pg_at_hi g) d = false \/ get3 (pg_hi g) d = PRT_PERIODIC.

(** patch of positive size, with the cells of the index type *)
Definition wf_geom (g : pgeom) : Prop :=
  (forall d, 0 < get3 (pg_ld g) d)%Z /\ (c0 (pg_ld g) * c1 (pg_ld g) * c2 (pg_ld g) < 2 ^ 31)%Z.

(** spacing, number of cells and size of the patch fit exactly *)
Definition exact_geom (g : pgeom) : Prop :=
  forall d, 0 < get3 (pg_dxi g) d /\ get3 (pg_ps g) d * get3 (pg_dxi g) d = IZR (get3 (pg_ld g) d).

(** what has to happen in one direction, in exact arithmetic, with a particle at x (momentum u)
    which is not removed: new position and momentum, and direction it goes to *)
Inductive exact_move (g : pgeom) (d : dim3) (x u : R) : R -> R -> Z -> Prop :=
| move_stay : 0 <= x < get3 (pg_ps g) d -> exact_move g d x u x u 0
| move_pass_lo : x < 0 -> passes_lo g d -> exact_move g d x u (x + get3 (pg_ps g) d) u (-1)
| move_pass_hi : get3 (pg_ps g) d <= x -> passes_hi g d -> exact_move g d x u (x - get3 (pg_ps g) d) u 1
| move_mirror_lo : x < 0 -> reflects_lo g d -> exact_move g d x u (- x) (- u) 0
| move_mirror_hi : get3 (pg_ps g) d < x -> reflects_hi g d -> exact_move g d x u (2 * get3 (pg_ps g) d - x) (- u) 0
| move_wall : x = get3 (pg_ps g) d -> reflects_hi g d -> exact_move g d x u (get3 (pg_ps g) d * (1 - / 1000000)) (- u) 0.

(** less than one patch width outside of the patch *)
Definition near (g : pgeom) (x : V3 R) : Prop := forall d, - get3 (pg_ps g) d < get3 x d < 2 * get3 (pg_ps g) d.

(** within the patch *)
Definition inside (g : pgeom) (x : V3 R) : Prop := forall d, 0 <= get3 x d < get3 (pg_ps g) d.

(** at most 2^30 cells in each direction *)
Definition small_geom (g : pgeom) : Prop := forall d, (get3 (pg_ld g) d <= 2 ^ 30)%Z.

(** rounding to the nearest number with prec bits and smallest exponent emin (ties by choice);
    there is no largest number *)
Definition nearest (prec emin : Z) (choice : Z -> bool) : R -> R := round radix2 (FLT_exp emin prec) (Znearest choice).
Definition representable (prec emin : Z) : R -> Prop := generic_format radix2 (FLT_exp emin prec).

(** the numbers describing the patch fit together as far as rounding allows: size is
    representable, the inverse spacing is not extreme, size times inverse spacing is not larger than
    the number of cells by more than one part in 2^22, and no representable position beyond
    the size has a cell of the patch *)
Definition float_geom (prec emin : Z) (choice : Z -> bool) (g : pgeom) : Prop := forall d,
  let ps := get3 (pg_ps g) d in let dxi := get3 (pg_dxi g) d in let ld := get3 (pg_ld g) d in
  (ld <= 2 ^ 24)%Z /\ representable prec emin ps /\ bpow radix2 (emin + 30) <= dxi <= bpow radix2 (- emin - 30) /\
  ps * dxi <= IZR ld * (1 + / 4194304) /\
  forall x, representable prec emin x -> ps < x -> (ld <= Zfloor (nearest prec emin choice (x * dxi)))%Z.

(** less than 15/16 of the patch size outside of the patch *)
Definition near_float (g : pgeom) (x : V3 R) : Prop := forall d, - (15 / 16) * get3 (pg_ps g) d <= get3 x d <= 31 / 16 * get3 (pg_ps g) d.
