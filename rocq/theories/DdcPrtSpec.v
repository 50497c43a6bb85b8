(** What the exchange of particles has to do, in terms of "which patch is the neighbour"
    only. *)
From Verif Require Import Base Arr DomainModel.
Local Open Scope Z_scope.

(** number of patches of process r *)
Definition patches_of (dm : domain) (r : Z) : Z := match nr_patches dm r with Some n => n | None => 0 end.

(** the number of prescribed patch counts, if any, is the number of processes *)
Definition processes (prescribed : option (list Z)) (size : Z) : Prop :=
  match prescribed with Some l => alen l = size | None => True end.

(** the patch buffer (process, patch, direction) is meant for; None: there is none *)
Definition dest (dm : domain) (s : Z * Z * V3 Z) : option (Z * Z) :=
  let '(r, p, dir) := s in
  if (c0 dir =? 0) && (c1 dir =? 0) && (c2 dir =? 0) then None
  else match get_neighbor_rank_patch dm r p dir with Some o => o | None => None end.

(** all buffers of all processes *)
Definition buffers (dm : domain) (size : Z) : list (Z * Z * V3 Z) :=
  flat_map (fun r => flat_map (fun p => flat_map (fun k => flat_map (fun j => map (fun i => (r, p, v3 i j k))
    (zrange (-1) 2)) (zrange (-1) 2)) (zrange (-1) 2)) (zrange 0 (patches_of dm r))) (zrange 0 size).

Definition pair_eqb (a b : Z * Z) : bool := (fst a =? fst b) && (snd a =? snd b).

(** those meant for patch p of process r *)
Definition meant_for (dm : domain) (r p : Z) (s : Z * Z * V3 Z) : bool :=
  match dest dm s with Some q => pair_eqb q (r, p) | None => false end.

(** those meant for anyone *)
Definition delivered (dm : domain) (s : Z * Z * V3 Z) : bool := match dest dm s with Some _ => true | None => false end.

(** contents of a buffer; sb gives, for each process, the buffers of its patches by 9 z + 3 y + x,
    each of x, y, z counted from -1 *)
Definition contents {P} (sb : Z -> list (Z -> list P)) (s : Z * Z * V3 Z) : list P :=
  let '(r, p, dir) := s in
  match aget (sb r) p with Some b => b (9 * (c2 dir + 1) + 3 * (c1 dir + 1) + (c0 dir + 1)) | None => [] end.

(** every process has as many particle buffers as patches *)
Definition per_patch {A} (dm : domain) (size : Z) (l : Z -> list A) : Prop := forall r, 0 <= r < size -> alen (l r) = patches_of dm r.
