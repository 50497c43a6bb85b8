(** What a file of particles has to be. *)
From Verif Require Import Base Arr DomainModel DomainSpec DdcPrtSpec.
Local Open Scope Z_scope.

Section Spec.
  Context {P T S : Type}.
  Variables (cellpos : P -> V3 Z) (kindof : P -> Z) (written : patch_info -> P -> T).
  Variables (selector : S -> P -> bool * S) (selector0 : S).
  Variables (dm : domain) (size : Z) (mprts : Z -> list (list P)).

  (** the particles selected, if they are shown to the selector in turn *)
  Fixpoint chosen (s : S) (l : list P) : list P * S :=
    match l with
    | [] => ([], s)
    | q :: l => let '(r, s') := chosen (snd (selector s q)) l in (if fst (selector s q) then q :: r else r, s')
    end.
  Fixpoint chosen_patches (s : S) (ll : list (list P)) : list (list P) :=
    match ll with [] => [] | l :: ll => fst (chosen s l) :: chosen_patches (snd (chosen s l)) ll end.

  (** the cell of the whole domain a particle is in: one on the upper side of its patch is in the last
      cell *)
  Definition global_cell (info : patch_info) (q : P) : V3 Z :=
    gen3 (fun d => get3 (pi_off info) d + Z.min (get3 (cellpos q) d) (get3 (pi_ldims info) d - 1)).

  Definition in_cell (g : V3 Z) (k : Z) (info : patch_info) (q : P) : bool :=
    forallb (fun d => get3 (global_cell info q) d =? get3 g d) dims3 && (kindof q =? k).

  (** what is to be found in the file about cell g and kind k: the selected particles, wherever
      they are *)
  Definition expected (g : V3 Z) (k : Z) : list T :=
    flat_map (fun r => flat_map (fun p =>
      match get_local_patch_info dm r p, aget (chosen_patches selector0 (mprts r)) p with
      | Some info, Some l => map (written info) (filter (in_cell g k info) l)
      | _, _ => []
      end) (zrange 0 (patches_of dm r))) (zrange 0 size).

  (** all particles are in their patches and of a known kind *)
  Definition particles_ok (nr_kinds : Z) : Prop :=
    forall r p info l q, 0 <= r < size -> get_local_patch_info dm r p = Some info -> aget (mprts r) p = Some l -> In q l ->
      (forall d, 0 <= get3 (cellpos q) d <= get3 (pi_ldims info) d) /\ 0 <= kindof q < nr_kinds.

  (** a cell of the region *)
  Definition in_region (lo hi g : V3 Z) : Prop := forall d, get3 lo d <= get3 g d < get3 hi d.

  (** element [k][z][y][x] of a data set of the extents of the region, the last index being the fastest *)
  Definition entry (lo hi : V3 Z) (t : list (option Z)) (g : V3 Z) (k : Z) : option (option Z) :=
    aget t (c0 g - c0 lo + (c0 hi - c0 lo) * (c1 g - c1 lo + (c1 hi - c1 lo) * (c2 g - c2 lo + (c2 hi - c2 lo) * k))).

  (** records b to e - 1 *)
  Definition slice (f : list T) (b e : Z) : list T := firstn (Z.to_nat (e - b)) (skipn (Z.to_nat b) f).

  (** The tables say for every cell of the region and every kind which records are about it; these are the ones
      expected; and every record is about one cell and kind. *)
  Definition good_file (lo hi : V3 Z) (nr_kinds : Z) (f : list T) (tb te : list (option Z)) : Prop :=
    (forall g k, in_region lo hi g -> 0 <= k < nr_kinds -> exists b e,
       entry lo hi tb g k = Some (Some b) /\ entry lo hi te g k = Some (Some e) /\
       0 <= b <= e /\ e <= alen f /\ slice f b e = expected g k) /\
    (forall i, 0 <= i < alen f -> exists g k b e, in_region lo hi g /\ 0 <= k < nr_kinds /\
       entry lo hi tb g k = Some (Some b) /\ entry lo hi te g k = Some (Some e) /\ b <= i < e /\
       forall g' k' b' e', in_region lo hi g' -> 0 <= k' < nr_kinds ->
         entry lo hi tb g' k' = Some (Some b') -> entry lo hi te g' k' = Some (Some e') -> b' <= i < e' -> g' = g /\ k' = k).
End Spec.

(** every n-th element, starting from the first *)
Definition every_nth {P} (n : Z) (l : list P) : list P :=
  flat_map (fun i => match aget l i with Some q => if i mod n =? 0 then [q] else [] | None => [] end) (zrange 0 (alen l)).

(** a cell of the patch is in the region *)
Definition overlaps (lo hi : V3 Z) (info : patch_info) : Prop :=
  exists g, in_patch (pi_off info) (pi_ldims info) g /\ in_region lo hi g.

(** the region does not start in the middle of a patch of process 0 *)
Definition starts_at_patches (dm : domain) (lo hi : V3 Z) : Prop :=
  forall p info d, 0 <= p < patches_of dm 0 -> get_local_patch_info dm 0 p = Some info -> overlaps lo hi info -> get3 lo d <= get3 (pi_off info) d.
