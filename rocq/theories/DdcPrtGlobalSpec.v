(** Global positions, for the exchange of particles. *)
From Coq Require Import Reals.
From Flocq Require Import Core.
From Verif Require Import Base BndPrtModel BndPrtSpec DomainModel.
Local Open Scope R_scope.

(** global coordinate of a position in the patch described by info *)
Definition global (gdims : V3 Z) (len corner : V3 R) (info : patch_info) (x : V3 R) (d : dim3) : R :=
  get3 corner d + IZR (get3 (pi_off info) d) * (get3 len d / IZR (get3 gdims d)) + get3 x d.

(** representative in [0, len) of a coordinate, in periodic directions *)
Definition wrapped (per : bool) (len y : R) : R := if per then y - len * IZR (Zfloor (y / len)) else y.

(** what is to be preserved of a particle: global position modulo the length of the domain in
    periodic directions, momentum, and the rest *)
Definition world {T} (gdims : V3 Z) (len corner : V3 R) (per : V3 bool) (info : patch_info) (q : particle T) : V3 R * V3 R * T :=
  (gen3 (fun d => wrapped (get3 per d) (get3 len d) (global gdims len corner info (p_x q) d)), p_u q, p_t q).

(** the particle is inside of the patch in direction d, or beyond a side shared with a
    neighbouring patch or a periodic side of the domain *)
Definition only_passes (gdims : V3 Z) (per : V3 bool) (lo hi : V3 bnd_prt) (info : patch_info) (ps x : R) (d : dim3) : Prop :=
  0 <= x < ps \/
  (x < 0 /\ (get3 (pi_off info) d <> 0%Z \/ (get3 per d = true /\ get3 lo d = PRT_PERIODIC))) \/
  (ps <= x /\ ((get3 (pi_off info) d + get3 (pi_ldims info) d)%Z <> get3 gdims d \/ (get3 per d = true /\ get3 hi d = PRT_PERIODIC))).

(** width of the patch *)
Definition width (gdims : V3 Z) (len : V3 R) (info : patch_info) (d : dim3) : R :=
  IZR (get3 (pi_ldims info) d) * (get3 len d / IZR (get3 gdims d)).

(** less than one patch width out, and only beyond such sides *)
Definition travels (gdims : V3 Z) (len : V3 R) (per : V3 bool) (lo hi : V3 bnd_prt) (info : patch_info) (x : V3 R) : Prop :=
  forall d, - width gdims len info d < get3 x d < 2 * width gdims len info d /\
            only_passes gdims per lo hi info (width gdims len info d) (get3 x d) d.

(** the same for patch p of process r *)
Definition world_of {T} (dm : domain) (len corner : V3 R) (per : V3 bool) (r p : Z) (q : particle T) : V3 R * V3 R * T :=
  match get_local_patch_info dm r p with
  | Some info => world (dm_gdims dm) len corner per info q
  | None => (p_x q, p_u q, p_t q)
  end.

(** the particles of all patches of all processes *)
Definition everything {T} (dm : domain) (size : Z) (len corner : V3 R) (per : V3 bool) (patches : Z -> Z) (bufs : Z -> list (list (particle T)))
  : list (V3 R * V3 R * T) :=
  flat_map (fun r => flat_map (fun p => match nth_error (bufs r) (Z.to_nat p) with
                                        | Some b => map (world_of dm len corner per r p) b
                                        | None => [] end) (zrange 0 (patches r))) (zrange 0 size).
