(** Gauss's law: when a run is one the property speaks of. *)
From Coq Require Import Reals.
From Verif Require Import Base Arr DomainModel DomainSpec BndPrtModel DdcPrtSpec GhostModel GhostSpec FieldModel FieldSpec DepositModel EsirkModel GaussModel.
Local Open Scope R_scope.

(** A periodic domain, set up by the code, in any number of patches on any number of
    processes, in three dimensions or in y and z.  There are at least two layers of ghost points, and patches are not
    thinner than that; nothing moves a whole cell in a step.  The 1vb schemes [sch_split] and
    [sch_zigzag] need the step to be at most half a cell also in the direction left out (C24). *)
Definition periodic_run (S : setting) (c : curve) (np gdims : V3 Z) (per : V3 bool) (pr : option (list Z)) : Prop :=
  let inv := invar_of (s_dim S) in
  (all_pos np /\ domain_setup c np gdims per pr (s_size S) = Some (s_dm S) /\ counts_valid pr (volume np) (s_size S) /\ processes pr (s_size S)) /\
  (forall d, get3 per d = true /\ get3 (s_lo S) d = PRT_PERIODIC /\ get3 (s_hi S) d = PRT_PERIODIC) /\
  (s_dim S = dim_xyz \/ s_dim S = dim_yz) /\
  (forall d, (0 < get3 gdims d)%Z /\ 0 < get3 (s_len S) d /\ (get3 (s_ibn S) d <= get3 gdims d / get3 np d <= 2 ^ 30)%Z /\
     if get3 inv d then get3 gdims d = 1%Z /\ get3 (s_ibn S) d = 0%Z /\ match s_sch S with sch_split | sch_zigzag => 2 * s_dt S <= get3 (s_len S) d | _ => True end
     else (2 <= get3 (s_ibn S) d)%Z /\ s_dt S < get3 (s_len S) d / IZR (get3 gdims d)) /\
  0 < s_dt S /\ (c0 gdims / c0 np * (c1 gdims / c1 np) * (c2 gdims / c2 np) < 2 ^ 31)%Z.

(** (r, p) is a patch of process r *)
Definition a_patch (S : setting) (r p : Z) : Prop := (0 <= r < s_size S /\ 0 <= p < patches_of (s_dm S) r)%Z.
(** a stored point, own or ghost *)
Definition stored_at (S : setting) (x : V3 Z) : Prop := forall d, (- get3 (s_ibn S) d <= get3 x d < get3 (grid_ldims (s_dm S)) d + get3 (s_ibn S) d)%Z.

(** the field has one value at every point of space, however often it is stored *)
Definition single_valued (S : setting) (q : qty) (F : Z -> flds R) : Prop :=
  forall r p x r' p' x' d, a_patch S r p -> stored_at S x -> a_patch S r' p' -> stored_at S x' ->
    same_point (s_dm S) (r, p, x) (r', p', x') -> F r p (comp q d) x = F r' p' (comp q d) x'.

(** every patch has a list of particles, which are inside of it *)
Definition particles_inside (S : setting) (P : Z -> list (list (particle R))) : Prop :=
  (forall r, (0 <= r < s_size S)%Z -> alen (P r) = patches_of (s_dm S) r) /\
  forall r p b q, a_patch S r p -> aget (P r) p = Some b -> In q b ->
    forall d, 0 <= get3 (p_x q) d < IZR (get3 (grid_ldims (s_dm S)) d) * (get3 (s_len S) d / IZR (get3 (dm_gdims (s_dm S)) d)).

(** div f by differences to the points below *)
Definition div_at (S : setting) (q : qty) (F : Z -> flds R) (r p : Z) (x : V3 Z) : R :=
  div_minus (invar_of (s_dim S)) (gen3 (fun d => get3 (s_len S) d / IZR (get3 (dm_gdims (s_dm S)) d))) (fun d i => F r p (comp q d) i) x.

(** there is code for this scheme in this number of dimensions, and enough ghost points: for the scheme of second order three, or
    two if no particle moves more than half a cell (C52) *)
Definition scheme_works (S : setting) : Prop :=
  match s_sch S with
  | sch_split | sch_zigzag => True
  | sch_var1 | sch_2d | sch_esirk o1st => s_dim S = dim_yz
  | sch_esirk o2nd => forall d, get3 (invar_of (s_dim S)) d = false -> (3 <= get3 (s_ibn S) d)%Z \/ 2 * s_dt S <= get3 (s_len S) d / IZR (get3 (dm_gdims (s_dm S)) d)
  | sch_cuda _ _ => True
  end.

(** one new momentum for every particle *)
Definition one_each (us : Z -> Z -> list (V3 R)) (P : Z -> list (list (particle R))) : Prop :=
  forall r p b, aget (P r) p = Some b -> length (us r p) = length b.
