(** What a checkpoint is to preserve. *)
From Verif Require Import Base Arr DomainModel StorageModel RestartModel.
Local Open Scope Z_scope.

(** position of the value of component m at cell (i, j, k), ghost cells included, in the storage of a patch *)
Definition field_pos (ld ibn : V3 Z) (m i j k : Z) : Z :=
  (i + c0 ibn) + (c0 ld + 2 * c0 ibn) * ((j + c1 ibn) + (c1 ld + 2 * c1 ibn) * ((k + c2 ibn) + (c2 ld + 2 * c2 ibn) * m)).
Definition field_size (ld ibn : V3 Z) (n_comps : Z) : Z :=
  (c0 ld + 2 * c0 ibn) * (c1 ld + 2 * c1 ibn) * (c2 ld + 2 * c2 ibn) * n_comps.

(** the data of a process that has the patches of the domain: at least one, and for each of them its place, a
    list of particles, and the values of the fields *)
Definition proc_ok {T} (dm : domain) (ld ibn : V3 Z) (n_comps r : Z) (s : @proc T) : Prop :=
  exists n, nr_patches dm r = Some n /\ 0 < n /\ alen (s_patches s) = n /\ alen (s_prts s) = n /\ alen (s_flds s) = n /\
  (forall p q info, aget (s_patches s) p = Some q -> get_local_patch_info dm r p = Some info -> p_off q = pi_off info) /\
  Forall (fun f => alen f = field_size ld ibn n_comps) (s_flds s).

(** the cell is one of the patch *)
Definition inner (ld : V3 Z) (i j k : Z) : Prop := 0 <= i < c0 ld /\ 0 <= j < c1 ld /\ 0 <= k < c2 ld.

(** s' has the same patches, the same particles in the same order, and the same fields in the cells of the patches *)
Definition restored {T} (ld ibn : V3 Z) (n_comps : Z) (s s' : @proc T) : Prop :=
  map (fun p => (p_off p, p_xb p, p_xe p)) (s_patches s') = map (fun p => (p_off p, p_xb p, p_xe p)) (s_patches s) /\
  s_prts s' = s_prts s /\
  Forall2 (fun f f' => alen f' = alen f /\
     forall m i j k, 0 <= m < n_comps -> inner ld i j k -> aget f' (field_pos ld ibn m i j k) = aget f (field_pos ld ibn m i j k))
    (s_flds s) (s_flds s').
