(** Folding of moments at reflecting walls: src/include/add_ghosts_reflecting.hxx and maybe_add_ghosts_boundary of
    src/include/fields_item.hxx.  One patch; real numbers for floating point numbers.  None: an access outside of the
    storage. *)
From Coq Require Import Reals.
From Verif Require Import Base FieldModel GhostModel.
Local Open Scope Z_scope.

(** [mres_gt(i, j, k, m, p)] for the patch p, by component and storage index (the arguments of add_ghosts_reflecting.hxx:8-9) *)
Definition moments := Z -> V3 Z -> R.

(** the storage has the ghost points on both sides: extents ldims - 2 ib (fields3d.hxx:343-344) *)
Definition in_storage (ldims ib i : V3 Z) : bool :=
  forallb (fun d => (0 <=? get3 i d) && (get3 i d <? get3 ldims d - 2 * get3 ib d)) dims3.

(** [mres_gt(idx - ib, m, p) += mres_gt(idx_reflected - ib, m, p)], add_ghosts_reflecting.hxx:26-35 *)
Definition add_one (ldims ib : V3 Z) (u : moments) (m : Z) (idx refl : V3 Z) : option moments :=
  let at_ x := gen3 (fun d => get3 x d - get3 ib d) in
  if in_storage ldims ib (at_ refl) && in_storage ldims ib (at_ idx)
  then Some (fun m' i => if (m' =? m) && v3_eqb i (at_ idx) then (u m i + u m (at_ refl))%R else u m' i)
  else None.

(** the loops, add_ghosts_reflecting.hxx:21-38; 59-76, 103-120, 147-164 differ in the bounds and in idx_reflected only *)
Definition add_reflected (ldims ib : V3 Z) (mb me : Z) (idx_begin idx_end : V3 Z) (refl : V3 Z -> V3 Z) (u : moments) : option moments :=
  fold_left (fun o '(m, idx) => match o with Some u => add_one ldims ib u m idx (refl idx) | None => None end)
            (loop4 mb me idx_begin idx_end) (Some u).

(** add_ghosts_reflecting_lo_cc, 7-38 *)
Definition add_ghosts_reflecting_lo_cc (ldims ib : V3 Z) (d : dim3) (mb me : Z) : moments -> option moments :=
  let idx_begin := set3 ib d 0 in
  let idx_end := set3 (gen3 (fun e => get3 ldims e - get3 ib e)) d (- get3 ib d) in
  add_reflected ldims ib mb me idx_begin idx_end (fun idx => set3 idx d (- get3 idx d - 1)).

(** add_ghosts_reflecting_hi_cc, 40-71 *)
Definition add_ghosts_reflecting_hi_cc (ldims ib : V3 Z) (d : dim3) (mb me : Z) : moments -> option moments :=
  let idx_begin := set3 ib d (get3 ldims d + get3 ib d) in
  let idx_end := set3 (gen3 (fun e => get3 ldims e - get3 ib e)) d (get3 ldims d) in
  add_reflected ldims ib mb me idx_begin idx_end (fun idx => set3 idx d (2 * get3 ldims d - get3 idx d - 1)).

(** unused_ghost, 81 and 124: [!!ib[e]] *)
Definition unused_ghost (ib : V3 Z) (e : dim3) : Z := if get3 ib e =? 0 then 0 else 1.

(** add_ghosts_reflecting_lo_nc, 73-114 *)
Definition add_ghosts_reflecting_lo_nc (ldims ib : V3 Z) (d : dim3) (mb me : Z) : moments -> option moments :=
  let idx_begin := set3 (gen3 (fun e => get3 ib e + unused_ghost ib e)) d 1 in
  let idx_end := set3 (gen3 (fun e => get3 ldims e - get3 ib e)) d (1 - get3 ib d - unused_ghost ib d) in
  add_reflected ldims ib mb me idx_begin idx_end (fun idx => set3 idx d (- get3 idx d)).

(** add_ghosts_reflecting_hi_nc, 116-157 *)
Definition add_ghosts_reflecting_hi_nc (ldims ib : V3 Z) (d : dim3) (mb me : Z) : moments -> option moments :=
  let idx_begin := set3 (gen3 (fun e => get3 ib e + unused_ghost ib e)) d (get3 ldims d + get3 ib d + unused_ghost ib d) in
  let idx_end := set3 (gen3 (fun e => get3 ldims e - get3 ib e)) d (get3 ldims d) in
  add_reflected ldims ib mb me idx_begin idx_end (fun idx => set3 idx d (2 * get3 ldims d - get3 idx d)).

(** centering::Centering, src/include/centering.hxx:12-18 (EC and FC are not used with moments) *)
Inductive centering := CC | NC.

(** grid.atBoundaryLo, grid.atBoundaryHi, src/include/grid.hxx:114-118 *)
Definition atBoundaryLo (off : V3 Z) (d : dim3) : bool := get3 off d =? 0.
(** as above, grid.hxx:115-118 *)
Definition atBoundaryHi (off ldims gdims : V3 Z) (d : dim3) : bool := get3 off d + get3 ldims d =? get3 gdims d.

(** maybe_add_ghosts_boundary, fields_item.hxx:37-68; refl_lo and refl_hi: the sides with BND_PRT_REFLECTING *)
Definition maybe_add_ghosts_boundary (off ldims gdims : V3 Z) (refl_lo refl_hi : V3 bool) (ib : V3 Z) (mb me : Z) (c : centering) (u : moments) : option moments :=
  let lo := match c with CC => add_ghosts_reflecting_lo_cc | NC => add_ghosts_reflecting_lo_nc end in
  let hi := match c with CC => add_ghosts_reflecting_hi_cc | NC => add_ghosts_reflecting_hi_nc end in
  let all (side : dim3 -> bool) (f : dim3 -> moments -> option moments) (o : option moments) :=
    fold_left (fun o d => match o with Some u => if side d then f d u else Some u | None => None end) dims3 o in
  all (fun d => atBoundaryHi off ldims gdims d && get3 refl_hi d) (fun d => hi ldims ib d mb me)
    (all (fun d => atBoundaryLo off d && get3 refl_lo d) (fun d => lo ldims ib d mb me) (Some u)).
