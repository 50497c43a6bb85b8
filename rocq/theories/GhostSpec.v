(** What filling and adding ghost points have to do, in terms of global points only. *)
From Coq Require Import Reals.
From Verif Require Import Base Arr DomainModel DomainSpec DdcPrtSpec.
Local Open Scope Z_scope.

(** point x of patch p of process r *)
Definition place := (Z * Z * V3 Z)%type.

(** its global index in direction d *)
Definition global_idx (dm : domain) (a : place) (d : dim3) : Z :=
  let '(r, p, x) := a in match get_local_patch_info dm r p with Some info => get3 (pi_off info) d + get3 x d | None => 0 end.

(** two places denote the same point of space; periodic directions wrap around *)
Definition same_pointb (dm : domain) (a b : place) : bool :=
  forallb (fun d => if get3 (dm_periodic dm) d then (global_idx dm a d - global_idx dm b d) mod get3 (dm_gdims dm) d =? 0
                    else global_idx dm a d =? global_idx dm b d) dims3.
Definition same_point (dm : domain) (a b : place) : Prop := same_pointb dm a b = true.

(** size of the patch *)
Definition size_of (dm : domain) (a : place) : V3 Z :=
  let '(r, p, _) := a in match get_local_patch_info dm r p with Some info => pi_ldims info | None => v3 0 0 0 end.

(** points of a patch: its own points, and with ibn ghost points on each side *)
Definition box (lo hi : V3 Z) : list (V3 Z) :=
  flat_map (fun k => flat_map (fun j => map (fun i => v3 i j k) (zrange (c0 lo) (c0 hi))) (zrange (c1 lo) (c1 hi))) (zrange (c2 lo) (c2 hi)).
Definition own_points (dm : domain) (r p : Z) : list (V3 Z) := box (v3 0 0 0) (size_of dm (r, p, v3 0 0 0)).
Definition all_points (dm : domain) (ibn : V3 Z) (r p : Z) : list (V3 Z) :=
  box (gen3 (fun d => - get3 ibn d)) (gen3 (fun d => get3 (size_of dm (r, p, v3 0 0 0)) d + get3 ibn d)).

(** the place is one of a patch's own points *)
Definition is_own (dm : domain) (a : place) : bool :=
  forallb (fun d => (0 <=? get3 (snd a) d) && (get3 (snd a) d <? get3 (size_of dm a) d)) dims3.

(** all places of all patches of all processes; those the patches own, and the ghost points *)
Definition places (dm : domain) (size : Z) (pts : Z -> Z -> list (V3 Z)) : list place :=
  flat_map (fun r => flat_map (fun p => map (fun x => (r, p, x)) (pts r p)) (zrange 0 (patches_of dm r))) (zrange 0 size).
Definition own_places (dm : domain) (size : Z) : list place := places dm size (own_points dm).
Definition all_places (dm : domain) (size : Z) (ibn : V3 Z) : list place := places dm size (all_points dm ibn).
Definition ghost_places (dm : domain) (size : Z) (ibn : V3 Z) : list place := filter (fun a => negb (is_own dm a)) (all_places dm size ibn).

(** the value of component m at a place *)
Definition at_place {T} (F : Z -> Z -> Z -> V3 Z -> T) (m : Z) (a : place) : T := let '(r, p, x) := a in F r p m x.
