(** What the moments have to be: sums over all particles. *)
From Coq Require Import Reals String.
From Flocq Require Import Core.
From Verif Require Import Base Arr RSum DomainModel DomainSpec DdcPrtSpec GhostModel DepositModel DepositSpec GaussModel GaussSpec MomentModel.
Local Open Scope R_scope.

(** A periodic domain, set up by the code, in any number of patches on any number of
    processes, in three dimensions or in y and z; at least two layers of ghost points, and patches not
    thinner than that. *)
Definition periodic_domain (S : setting) (c : curve) (np gdims : V3 Z) (per : V3 bool) (pr : option (list Z)) : Prop :=
  (all_pos np /\ domain_setup c np gdims per pr (s_size S) = Some (s_dm S) /\ counts_valid pr (volume np) (s_size S) /\ processes pr (s_size S)) /\
  (forall d, get3 per d = true) /\
  (s_dim S = dim_xyz \/ s_dim S = dim_yz) /\
  forall d, (0 < get3 gdims d)%Z /\ 0 < get3 (s_len S) d /\ (get3 (s_ibn S) d <= get3 gdims d / get3 np d)%Z /\
     if get3 (invar_of (s_dim S)) d then get3 gdims d = 1%Z /\ get3 (s_ibn S) d = 0%Z else (2 <= get3 (s_ibn S) d)%Z.

(** kinds with a charge, and with names that tell them apart *)
Definition kinds_ok (ks : list kind) : Prop := (forall k, In k ks -> k_q k <> 0) /\ NoDup (map k_name ks).

(** every patch has a list of particles of these kinds, which are inside of it *)
Definition mprts_ok (S : setting) (ks : list kind) (P : Z -> list (list mprt)) : Prop :=
  (forall r, (0 <= r < s_size S)%Z -> alen (P r) = patches_of (s_dm S) r) /\
  forall r p b q, a_patch S r p -> aget (P r) p = Some b -> In q b ->
    (0 <= mp_kind q < alen ks)%Z /\
    forall d, 0 <= get3 (mp_x q) d < IZR (get3 (grid_ldims (s_dm S)) d) * (get3 (s_len S) d / IZR (get3 (dm_gdims (s_dm S)) d)).

(** what a particle contributes: it stands for w = qni_wni / q real ones, which have the velocity u / gamma *)
Inductive quantity := Number | Charge | Velocity (d : dim3) | Current (d : dim3) | Momentum (d : dim3) | Stress (d e : dim3).
Definition gamma (u : V3 R) : R := sqrt (1 + (c0 u ^ 2 + c1 u ^ 2 + c2 u ^ 2)).
Definition amount (Q : quantity) (k : kind) (p : mprt) : R :=
  let w := mp_qw p / k_q k in
  let v := fun d => get3 (mp_u p) d / gamma (mp_u p) in
  match Q with
  | Number => w
  | Charge => mp_qw p
  | Velocity d => w * v d
  | Current d => mp_qw p * v d
  | Momentum d => w * k_m k * get3 (mp_u p) d
  | Stress d e => w * k_m k * get3 (mp_u p) d * v e
  end.

(** what the components of the moments are called, and what is to be in them *)
Definition contents (t : moment) : list (string * quantity) :=
  match t with
  | mom_n => [("n", Number)]
  | mom_rho => []
  | mom_v => [("vx", Velocity D0); ("vy", Velocity D1); ("vz", Velocity D2)]
  | mom_p => [("px", Momentum D0); ("py", Momentum D1); ("pz", Momentum D2)]
  | mom_all => [("rho", Charge); ("jx", Current D0); ("jy", Current D1); ("jz", Current D2); ("px", Momentum D0); ("py", Momentum D1); ("pz", Momentum D2);
      ("txx", Stress D0 D0); ("tyy", Stress D1 D1); ("tzz", Stress D2 D2); ("txy", Stress D0 D1); ("tyz", Stress D1 D2); ("tzx", Stress D2 D0)]
  end%string.

(** sum over all particles of all patches of all processes; the function is given process and patch, too *)
Definition everyone (S : setting) (P : Z -> list (list mprt)) (f : Z -> Z -> mprt -> R) : R :=
  rsum (map (fun r => rsum (map (fun p => rsum (map (f r p) (match aget (P r) p with Some b => b | None => [] end))) (zrange 0 (patches_of (s_dm S) r)))) (zrange 0 (s_size S))).

(** index of the first point of a patch in the domain *)
Definition patch_off (S : setting) (r p : Z) (d : dim3) : Z := match get_local_patch_info (s_dm S) r p with Some info => get3 (pi_off info) d | None => 0%Z end.
(** the position of a particle in the domain, in units of the grid spacing *)
Definition position (S : setting) (r p : Z) (q : mprt) (d : dim3) : R :=
  IZR (patch_off S r p d) + get3 (mp_x q) d / (get3 (s_len S) d / IZR (get3 (dm_gdims (s_dm S)) d)).

(** shape function and where its points are: at the nodes, or half a cell further *)
Definition shape (s : dep_scheme) : R -> R := match s with dep_2nd_nc => spline2 | _ => hat end.
Definition center (s : dep_scheme) : R := match s with dep_1st_cc => 1 / 2 | _ => 0 end.

(** one direction of a periodic domain of G points: the value at the point A of the shape around y, of all the
    points N at which it is not zero those which are the same as A *)
Definition shape_at (sh : R -> R) (G A : Z) (y : R) : R :=
  rsum (map (fun N => if ((A - N) mod G =? 0)%Z then sh (y - IZR N) else 0) (zrange (Zfloor y - 1) (Zfloor y + 3))).
(** the share of a particle at y on the point with index A in the domain *)
Definition share_at (S : setting) (s : dep_scheme) (A : dim3 -> Z) (y : dim3 -> R) : R :=
  let one := fun d => if get3 (invar_of (s_dim S)) d then 1 else shape_at (shape s) (get3 (dm_gdims (s_dm S)) d) (A d) (y d - center s) in
  one D0 * one D1 * one D2.

(** the sum over the particles picked by f, at the point x of patch p of process r *)
Definition at_point (S : setting) (s : dep_scheme) (P : Z -> list (list mprt)) (f : mprt -> R) (r p : Z) (x : V3 Z) : R :=
  everyone S P (fun r' p' q => s_fnqs S * f q * share_at S s (fun d => patch_off S r p d + get3 x d)%Z (position S r' p' q)).
(** what particles of kind number k contribute, others do not *)
Definition of_kind (Q : quantity) (k : Z) (kd : kind) (q : mprt) : R := if (mp_kind q =? k)%Z then amount Q kd q else 0.

(** the sum over all points that are some patch's own *)
Definition all_own (S : setting) (F : Z -> Z -> V3 Z -> R) : R :=
  rsum (map (fun r => rsum (map (fun p => sum_nodes (v3 0 0 0)%Z (grid_ldims (s_dm S)) (F r p)) (zrange 0 (patches_of (s_dm S) r)))) (zrange 0 (s_size S))).

(** all the particles there are, by their position in the domain *)
Definition world (S : setting) (P : Z -> list (list mprt)) : list (V3 R * (V3 R * Z * R)) :=
  flat_map (fun r => flat_map (fun p => map (fun q => (gen3 (position S r p q), (mp_u q, mp_kind q, mp_qw q))) (match aget (P r) p with Some b => b | None => [] end))
    (zrange 0 (patches_of (s_dm S) r))) (zrange 0 (s_size S)).
