(** C57: moments of the particles. *)
From Coq Require Import Reals Lra Psatz String.
From Flocq Require Import Core.
From Verif Require Import Base Arr RSum DomainModel DomainSpec BndPrtModel DdcPrtModel DdcPrtSpec DdcPrtProofs GhostModel GhostSpec GhostProofs FieldModel DepositModel DepositSpec DepositProofs GaussModel GaussSpec GaussProofs MomentModel MomentSpec MomentProofs.
Local Open Scope R_scope.

Lemma everyone_ext S ks P f g : mprts_ok S ks P -> (forall r p q, (0 <= mp_kind q < alen ks)%Z -> f r p q = g r p q) -> everyone S P f = everyone S P g.
Proof.
  intros [HP HI] H. unfold everyone. apply rsum_ext. intros r Hr. apply rsum_ext. intros p Hp. apply in_zrange in Hr, Hp. destruct (aget (P r) p) as [b|] eqn:E; [|reflexivity].
  apply rsum_ext. intros q Hq. apply H. exact (proj1 (HI r p b q (conj Hr Hp) E Hq)).
Qed.

Lemma everyone_mul S P k f : everyone S P (fun r p q => k * f r p q) = k * everyone S P f.
Proof. unfold everyone. rewrite <- rsum_mul. apply rsum_ext. intros r _. rewrite <- rsum_mul. apply rsum_ext. intros p _. apply rsum_mul. Qed.

(** The component called after a quantity and a kind has, at every point, the sum over all particles of that
    kind, of all patches of all processes, each with its share of that point; the sum over the points is that of the particles.
    There are no other components. *)
Theorem C57_moments : forall S c np gdims per pr s t ks P D', periodic_domain S c np gdims per pr -> kinds_ok ks -> mprts_ok S ks P -> item_moment S s t ks P D' ->
  t <> mom_rho ->
  alen (comp_names t ks) = (alen ks * alen (contents t))%Z /\
  forall lb Q k kd, In (lb, Q) (contents t) -> aget ks k = Some kd ->
    exists m, aget (comp_names t ks) m = Some (lb ++ "_" ++ k_name kd)%string /\ (forall m', aget (comp_names t ks) m' = Some (lb ++ "_" ++ k_name kd)%string -> m' = m) /\
      (forall r p x, a_patch S r p -> in_box (grid_ldims (s_dm S)) x -> D' r p m x = at_point S s P (of_kind Q k kd) r p x) /\
      all_own S (fun r p x => D' r p m x) = s_fnqs S * everyone S P (fun _ _ q => of_kind Q k kd q).
Proof.
  intros S c np gdims per pr s t ks P D' HD [Hq HN] HP HI Ht. pose proof (comp_names_table t ks Ht) as EN. split; [rewrite EN, suffix_alen, alen_map; reflexivity|].
  intros lb Q k kd HQ Hk. destruct (In_aget _ _ HQ) as [j Hj]. pose proof (aget_bounds _ _ _ Hj) as Bj. pose proof (aget_bounds _ _ _ Hk) as Bk.
  assert (U : forall m', aget (comp_names t ks) m' = Some (lb ++ "_" ++ k_name kd)%string -> m' = (k * table_len t + j)%Z).
  { intros m' H. rewrite EN in H. destruct (suffix_get _ _ _ _ H) as (k' & j' & kd' & n & -> & Bj' & Ek & En & E). rewrite alen_map in *. fold (table_len t).
    rewrite aget_map in En. destruct (aget (contents t) j') as [[lb' Q']|] eqn:Ej; [|discriminate]. injection En as <-. cbn [fst] in E.
    destruct (label_inj t _ _ _ _ _ _ HQ (aget_In _ _ _ Ej) E) as (<- & <- & E').
    assert (K : k = k') by (apply (names_inj ks HN k k' kd kd' Hk Ek E')).
    assert (J : j = j') by (apply (labels_inj t j j' lb Q Hj Ej)). subst. reflexivity. }
  assert (B : (0 <= k * table_len t + j < n_comps t ks)%Z).
  { unfold n_comps. rewrite EN, suffix_alen, alen_map. unfold table_len. clear - Bj Bk. nia. }
  destruct (aget_some (comp_names t ks) (k * table_len t + j) B) as [nm Em].
  exists (k * table_len t + j)%Z. split; [|split; [exact U|split]].
  - rewrite EN in Em |- *. destruct (suffix_get _ _ _ _ Em) as (k' & j' & kd' & n & E & Bj' & Ek & En & ->). rewrite alen_map in *. fold (table_len t) in *.
    assert (k' = k /\ j' = j) as [-> ->]. { change (alen (contents t)) with (table_len t) in Bj. clear - E Bj Bj'. destruct (Z.lt_trichotomy k k') as [L|[L|L]]; [exfalso; nia|subst; lia|exfalso; nia]. }
    rewrite Ek in Hk. injection Hk as ->. rewrite aget_map, Hj in En. injection En as <-. exact Em.
  - intros r p x V I. rewrite (item_val S c np gdims per pr HD s t ks P HP D' HI r p x _ V I B). unfold at_point. apply (everyone_ext S ks P _ _ HP). intros r' p' q Hk'.
    rewrite (contrib_val t ks k kd j lb Q q Hq Hk' Hk Hj). reflexivity.
  - rewrite (item_total S c np gdims per pr HD s t ks P HP D' HI _ B), <- everyone_mul. apply (everyone_ext S ks P _ _ HP). intros r' p' q Hk'.
    rewrite (contrib_val t ks k kd j lb Q q Hq Hk' Hk Hj). reflexivity.
Qed.
Print Assumptions C57_moments.

(** the charge density of all kinds together, which the checks of Gauss's law and of continuity use *)
Theorem C57_rho : forall S c np gdims per pr s ks P D', periodic_domain S c np gdims per pr -> kinds_ok ks -> mprts_ok S ks P -> item_moment S s mom_rho ks P D' ->
  comp_names mom_rho ks = ["rho"%string] /\
  (forall r p x, a_patch S r p -> in_box (grid_ldims (s_dm S)) x -> D' r p 0%Z x = at_point S s P mp_qw r p x) /\
  all_own S (fun r p x => D' r p 0%Z x) = s_fnqs S * everyone S P (fun _ _ q => mp_qw q).
Proof.
  intros S c np gdims per pr s ks P D' HD [Hq HN] HP HI. split; [reflexivity|]. assert (B : (0 <= 0 < n_comps mom_rho ks)%Z) by (cbn; lia). split.
  - intros r p x V I. rewrite (item_val S c np gdims per pr HD s _ ks P HP D' HI r p x _ V I B). unfold at_point. apply (everyone_ext S ks P _ _ HP). intros r' p' q Hk'.
    rewrite contrib_rho by assumption. reflexivity.
  - rewrite (item_total S c np gdims per pr HD s _ ks P HP D' HI _ B), <- everyone_mul. apply (everyone_ext S ks P _ _ HP). intros r' p' q Hk'. rewrite contrib_rho by assumption. reflexivity.
Qed.
Print Assumptions C57_rho.

(** it always succeeds: no component is out of range, whatever the order of messages *)
Theorem C57_succeeds : forall S c np gdims per pr s t ks P, periodic_domain S c np gdims per pr -> kinds_ok ks -> mprts_ok S ks P -> exists D', item_moment S s t ks P D'.
Proof. intros S c np gdims per pr s t ks P HD [Hq _] HP. exact (item_exists S c np gdims per pr HD s t ks P Hq HP). Qed.
Print Assumptions C57_succeeds.

(** The same particles in two decompositions of the domain give the same moments. *)
Theorem C57_decomposition : forall S c np gdims per pr S' c' np' per' pr' s t ks P P' D D',
  periodic_domain S c np gdims per pr -> periodic_domain S' c' np' gdims per' pr' -> s_dim S = s_dim S' -> s_fnqs S = s_fnqs S' ->
  kinds_ok ks -> mprts_ok S ks P -> mprts_ok S' ks P' -> Permutation (world S P) (world S' P') -> item_moment S s t ks P D -> item_moment S' s t ks P' D' ->
  forall r p x r' p' x' m, a_patch S r p -> a_patch S' r' p' -> in_box (grid_ldims (s_dm S)) x -> in_box (grid_ldims (s_dm S')) x' ->
    (forall d, (patch_off S r p d + get3 x d)%Z = (patch_off S' r' p' d + get3 x' d)%Z) -> (0 <= m < alen (comp_names t ks))%Z -> D r p m x = D' r' p' m x'.
Proof.
  intros S c np gdims per pr S' c' np' per' pr' s t ks P P' D D' HD HD' E1 E2 [Hq _] HP HP' HW HI HI' r p x r' p' x' m V V' I I' HX B.
  rewrite (item_val S c np gdims per pr HD s t ks P HP D HI r p x m V I B), (item_val S' c' np' gdims per' pr' HD' s t ks P' HP' D' HI' r' p' x' m V' I' B).
  apply (at_point_world S S' s P P' (fun e => contrib t ks m (MPrt (v3 0 0 0) (fst (fst e)) (snd (fst e)) (snd e)))); try assumption.
  - intros q. unfold contrib, calls, kind_of, prt_w. reflexivity.
  - destruct HD as [(_ & H & _) _], HD' as [(_ & H' & _) _]. destruct (dm_parts c np gdims per pr _ _ H) as (_ & -> & _). destruct (dm_parts c' np' gdims per' pr' _ _ H') as (_ & -> & _). reflexivity.
Qed.
Print Assumptions C57_decomposition.

(** What a particle inside its patch adds to is stored: the array of a component has the points of the patch and s_ibn more on either side,
    and every index added to, whatever the share, is one of them. *)
Theorem C57_within : forall S c np gdims per pr s ks P r p b q v l, periodic_domain S c np gdims per pr -> mprts_ok S ks P ->
  a_patch S r p -> aget (P r) p = Some b -> In q b ->
  norm_dep s (s_dim S) (item_ib S) (gen3 (fun e => get3 (mp_x q) e * (1 / get3 (spacing S) e))) v = Some l ->
  forall i w, In (i, w) l -> forall d, (0 <= get3 i d < get3 (grid_ldims (s_dm S)) d + 2 * get3 (s_ibn S) d)%Z.
Proof.
  intros S c np gdims per pr s ks P r p b q v l HD HP V Eb Hq E. refine (within S c np gdims per pr HD s (mp_x q) v l _ E).
  exact (proj2 (proj2 HP r p b q V Eb Hq)).
Qed.
Print Assumptions C57_within.

(** A kind without charge has no moments: the weight is found as qni_wni / q.  (This is why [kinds_ok] asks for charges.) *)
Theorem C57_neutral : forall S s t ks P D' r p b q k, (0 <= r < s_size S)%Z -> aget (P r) p = Some b -> In q b -> aget ks (mp_kind q) = Some k -> k_q k = 0 -> ~ item_moment S s t ks P D'.
Proof.
  intros S s t ks P D' r p b q k Hr Eb Hq Ek H0 (D & H & _). destruct (H r p b Hr Eb) as (f & E & _). revert E. generalize (fun (_ : Z) (_ : V3 Z) => 0) as f0. clear Eb. 
  induction b as [|q' b IH]; intros f0 E; [destruct Hq|]. cbn [moment_patch] in E. destruct Hq as [->|Hq].
  - unfold calls, kind_of, prt_w in E. rewrite Ek in E. destruct (Req_EM_T (k_q k) 0) as [_|N]; [discriminate|contradiction].
  - destruct (calls t ks q') as [l|]; [|discriminate]. destruct (deposit_calls _ _ _ _ _ _) as [f1|]; [|discriminate]. exact (IH Hq _ E).
Qed.
Print Assumptions C57_neutral.

(** Two patches on two processes; electrons on both sides of the boundary between them, and an ion *)
Definition ex_dm : domain := ltac:(let x := eval vm_compute in (domain_setup CURVE_BYDIM (v3 1 2 1)%Z (v3 1 8 8)%Z (v3 true true true) None 2) in match x with Some ?d => exact d end).
Definition ex_per : V3 bnd_prt := v3 PRT_PERIODIC PRT_PERIODIC PRT_PERIODIC.
Definition ex_S : setting := Setting ex_dm 2 dim_yz (v3 0 2 2)%Z (v3 1 8 8) (v3 0 0 0) ex_per ex_per (1 / 2) 1 sch_split.
Definition ex_ks : list kind := [Kind (-1) 1 "e"%string; Kind 2 100 "i"%string].
Definition ex_e1 : mprt := MPrt (v3 0 (15 / 4) 3) (v3 0 (3 / 4) 0) 0 (-1).
Definition ex_i1 : mprt := MPrt (v3 0 (15 / 4) 3) (v3 0 0 0) 1 2.
Definition ex_e2 : mprt := MPrt (v3 0 (1 / 4) 3) (v3 0 0 0) 0 (-2).
Definition ex_P (r : Z) : list (list mprt) := if (r =? 0)%Z then [[ex_e1; ex_i1]] else [[ex_e2]].

Example ex_C57 : periodic_domain ex_S CURVE_BYDIM (v3 1 2 1)%Z (v3 1 8 8)%Z (v3 true true true) None /\ kinds_ok ex_ks /\ mprts_ok ex_S ex_ks ex_P /\
  comp_names mom_v ex_ks = ["vx_e"; "vy_e"; "vz_e"; "vx_i"; "vy_i"; "vz_i"]%string.
Proof.
  assert (GL : grid_ldims ex_dm = (v3 1 4 8)%Z) by (vm_compute; reflexivity). assert (GD : dm_gdims ex_dm = (v3 1 8 8)%Z) by (vm_compute; reflexivity).
  assert (N : forall r, (0 <= r < 2)%Z -> patches_of ex_dm r = 1%Z) by (intros r Hr; assert (r = 0 \/ r = 1)%Z as [-> | ->] by lia; vm_compute; reflexivity).
  split; [|split; [|split]].
  - split; [|split; [|split]].
    + split; [intros []; cbn; lia|]. split; [vm_compute; reflexivity|]. split; [cbn; lia|exact I].
    + intros []; reflexivity.
    + right; reflexivity.
    + intros []; cbn; repeat split; try lia; lra.
  - split; [intros k [<-|[<-|[]]]; cbn; lra|]. repeat constructor; cbn [map In ex_ks k_name]; intuition discriminate.
  - split; [intros r Hr; cbn [s_size s_dm ex_S] in *; rewrite (N r Hr); assert (r = 0 \/ r = 1)%Z as [-> | ->] by lia; reflexivity|].
    intros r p b q [Hr Hp] Eb Hq. cbn [s_size s_dm s_len ex_S] in *. rewrite GL, GD. rewrite (N r Hr) in Hp. assert (p = 0)%Z as -> by lia.
    assert (r = 0 \/ r = 1)%Z as [-> | ->] by lia; cbn in Eb; injection Eb as <-; [destruct Hq as [<- | [<- | []]]|destruct Hq as [<- | []]]; (split; [vm_compute; intuition discriminate|intros d; destruct d; cbn; lra]).
  - reflexivity.
Qed.

Lemma shape_at_eval sh G A y n : IZR n <= y < IZR n + 1 -> shape_at sh G A y = rsum (map (fun N => if ((A - N) mod G =? 0)%Z then sh (y - IZR N) else 0) (zrange (n - 1) (n + 3))).
Proof. intros H. unfold shape_at. rewrite (Zfloor_imp n); [reflexivity|]. rewrite plus_IZR. exact H. Qed.
Lemma hat_eval t : -1 <= t <= 1 -> hat t = 1 - Rabs t.
Proof. intros H. unfold hat. rewrite Rmax_right; [reflexivity|]. assert (Rabs t <= 1) by (apply Rabs_le; lra). lra. Qed.

(** at the first row of points of the second patch there is a quarter of the one, and three quarters of the other electron,
    each half in z; the sum of all is that of the weights *)
Example ex_C57_value : exists D', item_moment ex_S dep_1st_cc mom_n ex_ks ex_P D' /\ aget (comp_names mom_n ex_ks) 0 = Some "n_e"%string /\
  D' 1%Z 0%Z 0%Z (v3 0 0 2)%Z = (1 / 4 * 1 + 3 / 4 * 2) * (1 / 2) /\ all_own ex_S (fun r p x => D' r p 0%Z x) = 3.
Proof.
  destruct ex_C57 as (H1 & H2 & H3 & _). destruct (C57_succeeds _ _ _ _ _ _ dep_1st_cc mom_n _ _ H1 H2 H3) as [D' HI]. exists D'. split; [exact HI|]. split; [reflexivity|].
  destruct (C57_moments _ _ _ _ _ _ _ _ _ _ _ H1 H2 H3 HI) as [_ HM]; [discriminate|]. destruct (HM "n"%string Number 0%Z _ (or_introl eq_refl) eq_refl) as (m & E1 & E2 & E3 & E4).
  specialize (E2 0%Z eq_refl). subst m. clear HM.
  assert (N0 : patches_of ex_dm 0 = 1%Z) by (vm_compute; reflexivity). assert (N1 : patches_of ex_dm 1 = 1%Z) by (vm_compute; reflexivity).
  assert (GD : dm_gdims ex_dm = (v3 1 8 8)%Z) by (vm_compute; reflexivity).
  assert (O0 : forall d, patch_off ex_S 0 0 d = 0%Z) by (intros []; vm_compute; reflexivity).
  assert (O1 : forall d, patch_off ex_S 1 0 d = match d with D1 => 4 | _ => 0 end%Z) by (intros []; vm_compute; reflexivity).
  split.
  - rewrite E3; [|split; vm_compute; intuition discriminate|intros []; vm_compute; intuition discriminate].
    unfold at_point, everyone. cbn [s_size s_dm ex_S]. change (zrange 0 2) with [0; 1]%Z. cbn [map]. rewrite N0, N1. change (zrange 0 1) with [0%Z]. cbn [map ex_P aget Z.ltb Z.compare Z.eqb Z.to_nat nth_error].
    rewrite ?rsum_cons. unfold rsum at 1 2 3 4. cbn [fold_right]. unfold of_kind. cbn [mp_kind ex_e1 ex_i1 ex_e2 Z.eqb amount mp_qw k_q s_fnqs ex_S].
    assert (SE : forall y1 y2, share_at ex_S dep_1st_cc (fun d => patch_off ex_S 1 0 d + get3 (v3 0 0 2)%Z d)%Z (fun d => match d with D0 => 0 | D1 => y1 | D2 => y2 end) =
      shape_at hat 8 4 (y1 - 1 / 2) * shape_at hat 8 2 (y2 - 1 / 2)).
    { intros y1 y2. unfold share_at. cbn [s_dim ex_S invar_of get3 c0 c1 c2 s_dm shape center]. rewrite GD, !O1. cbn [get3 c0 c1 c2]. rewrite Rmult_1_l. reflexivity. }
    assert (SP : forall r q y1 y2, position ex_S r 0 q D1 = y1 -> position ex_S r 0 q D2 = y2 ->
      share_at ex_S dep_1st_cc (fun d => patch_off ex_S 1 0 d + get3 (v3 0 0 2)%Z d)%Z (position ex_S r 0 q) = shape_at hat 8 4 (y1 - 1 / 2) * shape_at hat 8 2 (y2 - 1 / 2)).
    { intros r q y1 y2 <- <-. rewrite <- SE. reflexivity. }
    rewrite (SP 0%Z ex_e1 (15 / 4) 3), (SP 1%Z ex_e2 (17 / 4) 3).
    2-5: unfold position; rewrite ?O0, ?O1; cbn [s_dm s_len ex_S ex_e1 ex_e2 mp_x get3 c0 c1 c2]; rewrite GD; cbn [get3 c0 c1 c2]; lra.
    rewrite (shape_at_eval _ _ 4 _ 3%Z), (shape_at_eval _ _ 4 _ 3%Z), (shape_at_eval _ _ 2 _ 2%Z) by lra. change (zrange (3 - 1) (3 + 3)) with [2; 3; 4; 5]%Z. change (zrange (2 - 1) (2 + 3)) with [1; 2; 3; 4]%Z.
    cbn [map]. cbn -[hat rsum IZR Rmult Rplus Rminus Rdiv]. rewrite ?rsum_cons. unfold rsum. cbn [fold_right]. rewrite !hat_eval by lra. unfold Rabs. repeat match goal with |- context [Rcase_abs ?x] => destruct (Rcase_abs x) end; lra.
  - rewrite E4. unfold everyone. cbn [s_size s_dm ex_S]. change (zrange 0 2) with [0; 1]%Z. cbn [map]. rewrite N0, N1. change (zrange 0 1) with [0%Z]. cbn [map ex_P aget Z.ltb Z.compare Z.eqb Z.to_nat nth_error].
    unfold rsum. cbn [fold_right]. unfold of_kind. cbn [mp_kind ex_e1 ex_i1 ex_e2 Z.eqb amount mp_qw k_q s_fnqs ex_S]. lra.
Qed.

(** all of it in one patch of one process: the same particles *)
Definition ex_dm1 : domain := ltac:(let x := eval vm_compute in (domain_setup CURVE_BYDIM (v3 1 1 1)%Z (v3 1 8 8)%Z (v3 true true true) None 1) in match x with Some ?d => exact d end).
Definition ex_S1 : setting := Setting ex_dm1 1 dim_yz (v3 0 2 2)%Z (v3 1 8 8) (v3 0 0 0) ex_per ex_per (1 / 2) 1 sch_split.
Definition ex_P1 (r : Z) : list (list mprt) := [[ex_i1; ex_e1; MPrt (v3 0 (17 / 4) 3) (v3 0 0 0) 0 (-2)]].

Example ex_C57_decomposition : periodic_domain ex_S1 CURVE_BYDIM (v3 1 1 1)%Z (v3 1 8 8)%Z (v3 true true true) None /\ mprts_ok ex_S1 ex_ks ex_P1 /\ Permutation (world ex_S ex_P) (world ex_S1 ex_P1) /\
  forall d, (patch_off ex_S 1 0 d + get3 (v3 0 0 2) d = patch_off ex_S1 0 0 d + get3 (v3 0 4 2) d)%Z.
Proof.
  assert (GL : grid_ldims ex_dm1 = (v3 1 8 8)%Z) by (vm_compute; reflexivity). assert (GD : dm_gdims ex_dm1 = (v3 1 8 8)%Z) by (vm_compute; reflexivity).
  assert (N : patches_of ex_dm1 0 = 1%Z) by (vm_compute; reflexivity).
  split; [|split; [|split]].
  - split; [|split; [|split]].
    + split; [intros []; cbn; lia|]. split; [vm_compute; reflexivity|]. split; [cbn; lia|exact I].
    + intros []; reflexivity.
    + right; reflexivity.
    + intros []; cbn; repeat split; try lia; lra.
  - split; [intros r Hr; cbn [s_size s_dm ex_S1] in *; assert (r = 0)%Z as -> by lia; rewrite N; reflexivity|].
    intros r p b q [Hr Hp] Eb Hq. cbn [s_size s_dm s_len ex_S1] in *. rewrite GL, GD. assert (r = 0)%Z as -> by lia. rewrite N in Hp. assert (p = 0)%Z as -> by lia.
    cbn in Eb; injection Eb as <-. destruct Hq as [<- | [<- | [<- | []]]]; (split; [vm_compute; intuition discriminate|intros d; destruct d; cbn; lra]).
  - assert (N0 : patches_of ex_dm 0 = 1%Z) by (vm_compute; reflexivity). assert (N1 : patches_of ex_dm 1 = 1%Z) by (vm_compute; reflexivity).
    assert (GD' : dm_gdims ex_dm = (v3 1 8 8)%Z) by (vm_compute; reflexivity).
    assert (O0 : forall d, patch_off ex_S 0 0 d = 0%Z) by (intros []; vm_compute; reflexivity).
    assert (O1 : forall d, patch_off ex_S 1 0 d = match d with D1 => 4 | _ => 0 end%Z) by (intros []; vm_compute; reflexivity).
    assert (O2 : forall d, patch_off ex_S1 0 0 d = 0%Z) by (intros []; vm_compute; reflexivity).
    unfold world. cbn [s_size s_dm ex_S ex_S1]. change (zrange 0 2) with [0; 1]%Z. change (zrange 0 1) with [0%Z] at 1. cbn [flat_map]. rewrite N0, N1, N. change (zrange 0 1) with [0%Z].
    cbn [flat_map map ex_P ex_P1 aget Z.ltb Z.compare Z.eqb Z.to_nat nth_error List.app mp_u mp_kind mp_qw ex_e1 ex_i1 ex_e2].
    assert (X1 : gen3 (position ex_S 0 0 ex_e1) = gen3 (position ex_S1 0 0 ex_e1)) by (apply v3_ext; intros d; rewrite !get3_gen3; unfold position; rewrite O0, O2; cbn [s_dm s_len ex_S ex_S1]; rewrite GD, GD'; reflexivity).
    assert (X2 : gen3 (position ex_S 0 0 ex_i1) = gen3 (position ex_S1 0 0 ex_i1)) by (apply v3_ext; intros d; rewrite !get3_gen3; unfold position; rewrite O0, O2; cbn [s_dm s_len ex_S ex_S1]; rewrite GD, GD'; reflexivity).
    assert (X3 : gen3 (position ex_S 1 0 ex_e2) = gen3 (position ex_S1 0 0 (MPrt (v3 0 (17 / 4) 3) (v3 0 0 0) 0 (-2)))) by
      (apply v3_ext; intros d; rewrite !get3_gen3; unfold position; rewrite O1, O2; cbn [s_dm s_len ex_S ex_S1 mp_x ex_e2]; rewrite GD, GD'; destruct d; cbn [get3 c0 c1 c2]; lra).
    fold ex_e1 ex_i1 ex_e2. rewrite X1, X2, X3. apply perm_swap.
  - intros []; vm_compute; reflexivity.
Qed.

(** the hypotheses of C57_neutral: atoms *)
Example ex_C57_neutral : exists ks P b q k, (0 <= 0 < s_size ex_S)%Z /\ aget (P 0%Z) 0%Z = Some b /\ In q b /\ aget ks (mp_kind q) = Some k /\ k_q k = 0 /\ mprts_ok ex_S ks P.
Proof.
  exists (ex_ks ++ [Kind 0 100 "a"%string]), (fun r => if (r =? 0)%Z then [[MPrt (v3 0 1 3) (v3 0 0 0) 2 0]] else [[]]), [MPrt (v3 0 1 3) (v3 0 0 0) 2 0], (MPrt (v3 0 1 3) (v3 0 0 0) 2 0), (Kind 0 100 "a"%string).
  split; [cbn; lia|]. split; [reflexivity|]. split; [left; reflexivity|]. split; [reflexivity|]. split; [reflexivity|].
  assert (GL : grid_ldims ex_dm = (v3 1 4 8)%Z) by (vm_compute; reflexivity). assert (GD : dm_gdims ex_dm = (v3 1 8 8)%Z) by (vm_compute; reflexivity).
  assert (N : forall r, (0 <= r < 2)%Z -> patches_of ex_dm r = 1%Z) by (intros r Hr; assert (r = 0 \/ r = 1)%Z as [-> | ->] by lia; vm_compute; reflexivity).
  split; [intros r Hr; cbn [s_size s_dm ex_S] in *; rewrite (N r Hr); assert (r = 0 \/ r = 1)%Z as [-> | ->] by lia; reflexivity|].
  intros r p b q [Hr Hp] Eb Hq. cbn [s_size s_dm s_len ex_S] in *. rewrite GL, GD. rewrite (N r Hr) in Hp. assert (p = 0)%Z as -> by lia.
  assert (r = 0 \/ r = 1)%Z as [-> | ->] by lia; cbn in Eb; injection Eb as <-; [destruct Hq as [<- | []]|destruct Hq]; (split; [vm_compute; intuition discriminate|intros d; destruct d; cbn; lra]).
Qed.

(** the hypothesis of C57_within that is not one of C57_moments: nine points are added to *)
Example ex_C57_within : a_patch ex_S 0 0 /\ aget (ex_P 0) 0 = Some [ex_e1; ex_i1] /\
  exists l, norm_dep dep_2nd_nc (s_dim ex_S) (item_ib ex_S) (gen3 (fun e => get3 (mp_x ex_e1) e * (1 / get3 (spacing ex_S) e))) 1 = Some l /\ alen l = 9%Z.
Proof.
  split; [split; vm_compute; intuition discriminate|]. split; [reflexivity|]. cbn [norm_dep s_dim ex_S]. unfold norm_2nd_nc. cbn [deposit2nd gen3]. eexists. split; reflexivity.
Qed.
