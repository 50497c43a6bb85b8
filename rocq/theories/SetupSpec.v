(** What the initial particles should be. *)
From Coq Require Import Reals.
From Flocq Require Import Core.
From Verif Require Import Base Arr RSum SetupModel.
Local Open Scope R_scope.

(** a patch with positive spacing and extent: xe is ld cells from xb *)
Definition wf_geom (g : sgeom) : Prop :=
  forall d, 0 < get3 (sg_dx g) d /\ (0 < get3 (sg_ld g) d)%Z /\ get3 (sg_xe g) d = get3 (sg_xb g) d + IZR (get3 (sg_ld g) d) * get3 (sg_dx g) d.

(** a cell of the patch *)
Definition is_cell (g : sgeom) (c : V3 Z) : Prop := forall d, (0 <= get3 c d < get3 (sg_ld g) d)%Z.

(** random offsets reach all of the cell, from its center or from its lower corner *)
Definition offsets_ok (s : setup_prm) (off : V3 Z -> Z -> Z -> dim3 -> R) : Prop :=
  forall c k n d, match st_center s with CC => - / 2 <= off c k n d < / 2 | NC => 0 <= off c k n d < 1 end.

(** the cell a particle is in *)
Definition in_cell (g : sgeom) (c : V3 Z) (p : sprt) : bool :=
  forallb (fun d => (Zfloor (get3 (sp_x p) d / get3 (sg_dx g) d) =? get3 c d)%Z) dims3.

(** the particles in a cell; those of one kind *)
Definition prts_in (g : sgeom) (c : V3 Z) (prts : list sprt) : list sprt := filter (in_cell g c) prts.
Definition of_kind (k : Z) (prts : list sprt) : list sprt := filter (fun p => (sp_kind p =? k)%Z) prts.

(** their charge (times weight) *)
Definition charge_of (prts : list sprt) : R := rsum (map sp_qw prts).

(** what is asked for in a cell: density and kind of each population *)
Definition asked (s : setup_prm) (init : init_t) (g : sgeom) (c : V3 Z) (pop : Z) : R * Z :=
  init pop (cell_pos (st_center s) g c) c (if (pop <? alen (st_q s))%Z then pop else 0%Z).

(** the density asked for of one kind *)
Definition density_of (s : setup_prm) (init : init_t) (g : sgeom) (c : V3 Z) (k : Z) : R :=
  rsum (map (fun pop => if (snd (asked s init g c pop) =? k)%Z then fst (asked s init g c pop) else 0) (zrange 0 (st_npop s))).

(** the charge of a kind *)
Definition q_of (s : setup_prm) (k : Z) : R := match aget (st_q s) k with Some q => q | None => 0 end.

(** the number of macro-particles for a given density and random number: none for none, else the nearest number but at
    least one; or (fractional) one of the two neighbouring numbers, the upper one with probability the fractional part *)
Definition count_ok (s : setup_prm) (u density : R) (n : Z) : Prop :=
  let x := density * st_ppud s in
  (density = 0 -> n = 0%Z) /\
  (density <> 0 -> st_frac s = false -> (1 <= n)%Z /\ (/ 2 <= x -> x - / 2 < IZR n <= x + / 2) /\ (x < / 2 -> n = 1%Z)) /\
  (density <> 0 -> st_frac s = true -> n = (Zfloor x + (if Rle_bool (1 - (x - IZR (Zfloor x))) u then 1 else 0))%Z).

(** the charges are integers, given by z *)
Definition integer_charges (s : setup_prm) (z : Z -> Z) : Prop := forall k q, aget (st_q s) k = Some q -> q = IZR (z k).

(** a bound on the size of the numbers that come up for a population *)
Definition bound (s : setup_prm) (a : R * Z) : R := (1 + Rabs (q_of s (snd a))) * (fst a * st_ppud s + 1).
