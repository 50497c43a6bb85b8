From Verif Require Import Base DomainModel DomainSpec DomainProofs HilbertDomainProofs.
Local Open Scope Z_scope.

Lemma curve_bijective c np s : all_pos np -> sfc_setup c np = Some s ->
  bijective_on np (sfc_idx3_to_idx s) (sfc_idx_to_idx3 s).
Proof.
  intros Hpos Hs. destruct c.
  - injection Hs as <-. apply bydim_bijective. exact Hpos.
  - apply morton_bijective. exact Hs.
  - apply hilbert_bijective; assumption.
Qed.

(** the patch counts in force: prescribed, or the default distribution *)
Definition counts_of (prescribed : option (list Z)) (n size : Z) : list Z :=
  match prescribed with Some l => l | None => default_counts n size end.

Lemma counts_of_ok pr n size : 0 <= n -> counts_valid pr n size ->
  Forall (fun c => 0 <= c) (counts_of pr n size) /\ zsum (counts_of pr n size) = n.
Proof.
  intros Hn. destruct pr as [l|]; cbn; [auto|]. intros Hs.
  destruct (default_counts_spec n size Hn Hs) as [H1 [_ H3]]. split; [|exact H1].
  eapply Forall_impl; [|exact H3]. cbn. intros; lia.
Qed.

Lemma setup_off pr n size : setup_gpatch_off_all pr n size = gpatch_off_all_from 0 (counts_of pr n size).
Proof. destruct pr; reflexivity. Qed.

Lemma volume_pos np : all_pos np -> 0 < volume np.
Proof.
  intros H. pose proof (H D0). pose proof (H D1). pose proof (H D2). cbn in *.
  unfold volume. apply Z.mul_pos_pos; [apply Z.mul_pos_pos|]; assumption.
Qed.

(** ** One direction *)

Lemma zget_map_zrange (f : Z -> Z) n i : 0 <= i < n -> zget (map f (zrange 0 n)) i = Some (f i).
Proof.
  intros H. unfold zget. destruct (Z.ltb_spec i 0); [lia|].
  rewrite nth_error_map, nth_zrange0 by exact H. reflexivity.
Qed.

Lemma dim_offsets_const (q : Z) n : forall acc a, (map (fun i => q) (zrange a (a + Z.of_nat n))) = repeat q n ->
  forall i, (i < n)%nat -> nth_error (dim_offsets acc (repeat q n)) i = Some (acc + q * Z.of_nat i).
Proof.
  intros acc a _. revert acc. induction n as [|n IH]; intros acc i Hi; [lia|].
  cbn [repeat dim_offsets]. destruct i as [|i]; cbn [nth_error]; [f_equal; lia|].
  rewrite IH by lia. f_equal. lia.
Qed.

Lemma map_const_zrange (q n : Z) : map (fun _ : Z => q) (zrange 0 n) = repeat q (Z.to_nat n).
Proof.
  unfold zrange. rewrite map_map, Z.sub_0_r. generalize 0%nat.
  induction (Z.to_nat n) as [|k IH]; intros s; cbn; [reflexivity|]. now rewrite IH.
Qed.

Lemma dim_ldims_ok g n l : 0 < n -> dim_ldims g n = Some l ->
  g = n * (g / n) /\
  forall i, 0 <= i < n ->
    zget l i = Some (g / n) /\ zget (dim_offsets 0 l) i = Some (g / n * i).
Proof.
  intros Hn. unfold dim_ldims. destruct (Z.eqb_spec (g mod n) 0) as [E|E]; cbn [negb]; [|discriminate].
  intros [= <-]. split; [pose proof (Z.div_mod g n ltac:(lia)); lia|].
  intros i Hi.
  assert (EQ : map (fun i => g / n + (if i <? g mod n then 1 else 0)) (zrange 0 n)
               = map (fun _ => g / n) (zrange 0 n)).
  { apply map_ext_in. intros a Ha. apply in_zrange in Ha. rewrite E.
    destruct (Z.ltb_spec a 0); lia. }
  split.
  - rewrite EQ, zget_map_zrange by exact Hi. reflexivity.
  - rewrite EQ, map_const_zrange. unfold zget. destruct (Z.ltb_spec i 0); [lia|].
    rewrite (dim_offsets_const (g / n) (Z.to_nat n) 0 0).
    + rewrite Z2Nat.id by lia. reflexivity.
    + replace (0 + Z.of_nat (Z.to_nat n)) with n by lia. rewrite map_const_zrange. reflexivity.
    + lia.
Qed.

Section Domain.
  Variables (c : curve) (np gdims : V3 Z) (per : V3 bool) (pr : option (list Z)) (size : Z) (dm : domain).
  Hypothesis Hpos : all_pos np.
  Hypothesis Hset : domain_setup c np gdims per pr size = Some dm.
  Hypothesis Hcnt : counts_valid pr (volume np) size.

  Let counts := counts_of pr (volume np) size.

  Let parts : exists l0 l1 l2 s,
    dim_ldims (c0 gdims) (c0 np) = Some l0 /\ dim_ldims (c1 gdims) (c1 np) = Some l1 /\
    dim_ldims (c2 gdims) (c2 np) = Some l2 /\ sfc_setup c np = Some s /\
    dm = {| dm_np := np; dm_gdims := gdims; dm_periodic := per; dm_sfc := s;
            dm_ldims := v3 l0 l1 l2;
            dm_off := v3 (dim_offsets 0 l0) (dim_offsets 0 l1) (dim_offsets 0 l2);
            dm_nr_global_patches := volume np;
            dm_gpatch_off_all := gpatch_off_all_from 0 counts |}.
  Proof.
    unfold domain_setup in Hset.
    destruct (dim_ldims (c0 gdims) (c0 np)) as [l0|] eqn:E0; [|discriminate].
    destruct (dim_ldims (c1 gdims) (c1 np)) as [l1|] eqn:E1; [|discriminate].
    destruct (dim_ldims (c2 gdims) (c2 np)) as [l2|] eqn:E2; [|discriminate].
    destruct (sfc_setup c np) as [s|] eqn:Es; [|discriminate].
    injection Hset as <-. exists l0, l1, l2, s. repeat (split; [reflexivity|]).
    fold (volume np). rewrite setup_off. reflexivity.
  Qed.

  Let ld : V3 Z := gen3 (fun d => get3 gdims d / get3 np d).

  Lemma gdims_eq d : get3 gdims d = get3 np d * get3 ld d.
  Proof.
    destruct parts as [l0 [l1 [l2 [s [E0 [E1 [E2 _]]]]]]].
    unfold ld. rewrite get3_gen3. pose proof (Hpos d).
    destruct d; cbn [get3] in *;
      [apply (dim_ldims_ok _ _ l0)|apply (dim_ldims_ok _ _ l1)|apply (dim_ldims_ok _ _ l2)]; assumption.
  Qed.

  Lemma np_dm : dm_np dm = np /\ dm_periodic dm = per /\ dm_nr_global_patches dm = volume np
                /\ dm_gpatch_off_all dm = gpatch_off_all_from 0 counts.
  Proof.
    destruct parts as [l0 [l1 [l2 [s [_ [_ [_ [_ E]]]]]]]]. rewrite E. cbn. auto.
  Qed.

  (** what get_global_patch_info returns *)
  Lemma global_info gp : 0 <= gp < volume np ->
    exists info, get_global_patch_info dm gp = Some info /\ pi_global_patch info = gp /\
      owns counts (pi_rank info) (pi_patch info) gp /\
      in_box np (pi_idx3 info) /\ sfc_idx_to_idx3 (dm_sfc dm) gp = Some (pi_idx3 info) /\
      (forall d, get3 (pi_ldims info) d = get3 ld d /\
                 get3 (pi_off info) d = get3 ld d * get3 (pi_idx3 info) d).
  Proof.
    intros Hgp. destruct parts as [l0 [l1 [l2 [s [E0 [E1 [E2 [Es E]]]]]]]].
    destruct (counts_of_ok pr (volume np) size) as [Hc1 Hc2]; [lia|exact Hcnt|].
    fold counts in Hc1, Hc2.
    destruct (lookup_correct counts gp Hc1 ltac:(lia)) as [r [p [EL [Ho _]]]].
    destruct (curve_bijective c np s Hpos Es) as [B1 _].
    destruct (B1 gp Hgp) as [p3 [Ep [Hb _]]].
    pose proof (Hb D0) as Q0. pose proof (Hb D1) as Q1. pose proof (Hb D2) as Q2. cbn [get3] in *.
    destruct (dim_ldims_ok _ _ _ (Hpos D0) E0) as [_ K0].
    destruct (dim_ldims_ok _ _ _ (Hpos D1) E1) as [_ K1].
    destruct (dim_ldims_ok _ _ _ (Hpos D2) E2) as [_ K2].
    destruct (K0 _ Q0) as [A0 O0]. destruct (K1 _ Q1) as [A1 O1]. destruct (K2 _ Q2) as [A2 O2].
    unfold get_global_patch_info. rewrite E. cbn [dm_nr_global_patches dm_gpatch_off_all dm_sfc dm_ldims dm_off].
    destruct (Z.leb_spec (volume np) gp); [lia|]. rewrite EL, Ep. unfold zget3. cbn [c0 c1 c2].
    rewrite A0, A1, A2, O0, O1, O2.
    eexists. split; [reflexivity|]. cbn. split; [reflexivity|]. split; [exact Ho|].
    split; [exact Hb|]. split; [reflexivity|]. intros []; cbn; auto.
  Qed.

  Lemma owns_local r p gp : owns counts r p gp -> 0 <= gp < volume np /\
    get_local_patch_info dm r p = get_global_patch_info dm gp.
  Proof.
    intros [Hr [k [Hn [Hp Eg]]]].
    destruct (counts_of_ok pr (volume np) size) as [Hc1 Hc2];
      [pose proof (volume_pos np Hpos); lia|exact Hcnt|].
    fold counts in Hc1, Hc2. 
    assert (0 <= zsum (firstn (Z.to_nat r) counts)).
    { apply zsum_nonneg. rewrite Forall_forall in *. intros x Hx. apply Hc1.
      rewrite <- (firstn_skipn (Z.to_nat r) counts). apply in_or_app. auto. }
    pose proof (zsum_firstn_S _ _ _ Hn) as HS.
    pose proof (zsum_firstn_le counts (S (Z.to_nat r)) Hc1).
    split; [lia|].
    unfold get_local_patch_info. destruct np_dm as [_ [_ [_ ->]]].
    unfold zget. destruct (Z.ltb_spec r 0); [lia|].
    rewrite off_all_nth.
    - rewrite Z.add_0_l, Eg. reflexivity.
    - assert (Z.to_nat r < length counts)%nat by (apply nth_error_Some; congruence). lia.
  Qed.

  Lemma owns_fun r p gp gp' : owns counts r p gp -> owns counts r p gp' -> gp = gp'.
  Proof. intros [_ [? [_ [_ ->]]]] [_ [? [_ [_ ->]]]]. reflexivity. Qed.

  Lemma nr_patches_ok r k : 0 <= r -> nth_error counts (Z.to_nat r) = Some k -> nr_patches dm r = Some k.
  Proof.
    intros Hr Hn. assert (Z.to_nat r < length counts)%nat by (apply nth_error_Some; congruence).
    unfold nr_patches. destruct np_dm as [_ [_ [_ ->]]].
    unfold zget. destruct (Z.ltb_spec r 0); [lia|]. destruct (Z.ltb_spec (r + 1) 0); [lia|].
    rewrite !off_all_nth by lia.
    replace (Z.to_nat (r + 1)) with (S (Z.to_nat r)) by lia.
    rewrite (zsum_firstn_S _ _ _ Hn). f_equal. lia.
  Qed.

  (** ** Tiling *)

  Lemma cell_patch x : in_box gdims x ->
    exists gp info, 0 <= gp < volume np /\ get_global_patch_info dm gp = Some info /\
      in_patch (pi_off info) (pi_ldims info) x /\
      forall gp' info', 0 <= gp' < volume np -> get_global_patch_info dm gp' = Some info' ->
        in_patch (pi_off info') (pi_ldims info') x -> gp' = gp.
  Proof.
    intros Hx. destruct parts as [l0 [l1 [l2 [s [_ [_ [_ [Es E]]]]]]]].
    pose proof (curve_bijective c np s Hpos Es) as [B1 B2].
    assert (Esfc : dm_sfc dm = s) by (rewrite E; reflexivity).
    assert (Hld : forall d, 0 < get3 ld d).
    { intros d. pose proof (Hx d). pose proof (gdims_eq d). pose proof (Hpos d). nia. }
    set (p := gen3 (fun d => get3 x d / get3 ld d)).
    assert (Hp : in_box np p).
    { intros d. unfold p. rewrite get3_gen3. pose proof (Hx d). pose proof (gdims_eq d). pose proof (Hld d).
      split; [apply Z.div_pos; lia|]. apply Z.div_lt_upper_bound; lia. }
    destruct (B2 p Hp) as [gp [_ [Hgp Ep]]].
    destruct (global_info gp Hgp) as [info [EI [_ [_ [_ [E3 Hi]]]]]].
    rewrite Esfc, Ep in E3. injection E3 as E3.
    exists gp, info. split; [exact Hgp|]. split; [exact EI|]. split.
    - intros d. destruct (Hi d) as [-> ->]. rewrite <- E3. unfold p. rewrite get3_gen3.
      pose proof (Hld d). pose proof (Z.div_mod (get3 x d) (get3 ld d) ltac:(lia)).
      pose proof (Z.mod_pos_bound (get3 x d) (get3 ld d) ltac:(lia)). lia.
    - intros gp' info' Hgp' EI' Hin'.
      destruct (global_info gp' Hgp') as [info2 [EI2 [_ [_ [Hb2 [E32 Hi2]]]]]].
      rewrite EI' in EI2. injection EI2 as <-.
      assert (Ep' : pi_idx3 info' = p).
      { apply v3_ext. intros d. unfold p. rewrite get3_gen3. specialize (Hin' d).
        destruct (Hi2 d) as [HL HO]. rewrite HL, HO in Hin'. pose proof (Hld d).
        apply Z.div_unique with (get3 x d - get3 ld d * get3 (pi_idx3 info') d); [left|]; lia. }
      rewrite Ep', Esfc in E32.
      destruct (B1 gp Hgp) as [q [Q1 [_ Q2]]]. destruct (B1 gp' Hgp') as [q' [Q1' [_ Q2']]].
      rewrite Ep in Q1. injection Q1 as <-. rewrite E32 in Q1'. injection Q1' as <-. congruence.
  Qed.

  Lemma patch_in_domain gp info x : 0 <= gp < volume np -> get_global_patch_info dm gp = Some info ->
    in_patch (pi_off info) (pi_ldims info) x -> in_box gdims x.
  Proof.
    intros Hgp EI Hx d. destruct (global_info gp Hgp) as [info2 [EI2 [_ [_ [Hb [_ Hi]]]]]].
    rewrite EI in EI2. injection EI2 as <-. specialize (Hx d). specialize (Hb d).
    destruct (Hi d) as [HL HO]. rewrite HL, HO in Hx. rewrite gdims_eq.
    assert (0 < get3 ld d) by lia.
    assert (get3 ld d * (get3 (pi_idx3 info) d + 1) <= get3 ld d * get3 np d) by (apply Z.mul_le_mono_nonneg_l; lia).
    assert (0 <= get3 ld d * get3 (pi_idx3 info) d) by (apply Z.mul_nonneg_nonneg; lia). lia.
  Qed.

  (** ** Neighbours *)

  Lemma nei_coord_spec n per1 i dir : 0 < n -> 0 <= i < n -> -1 <= dir <= 1 ->
    match neighbor_coord n per1 i dir with
    | Some j => nei_coord n per1 i dir j
    | None => per1 = false /\ ~ (0 <= i + dir < n)
    end.
  Proof.
    intros Hn Hi Hd. unfold neighbor_coord, nei_coord, wrap. destruct per1.
    - destruct (Z.ltb_spec (i + dir) 0).
      + destruct (Z.leb_spec n (i + dir + n)); [lia|].
        destruct (Z.ltb_spec (i + dir + n) 0); [lia|]. cbn [orb].
        destruct (Z.leb_spec n (i + dir + n)); [lia|].
        split; [lia|]. apply Z.mod_unique with (-1); lia.
      + destruct (Z.leb_spec n (i + dir)).
        * destruct (Z.ltb_spec (i + dir - n) 0); [lia|]. cbn [orb].
          destruct (Z.leb_spec n (i + dir - n)); [lia|].
          split; [lia|]. apply Z.mod_unique with 1; lia.
        * destruct (Z.ltb_spec (i + dir) 0); [lia|]. cbn [orb].
          destruct (Z.leb_spec n (i + dir)); [lia|].
          split; [lia|]. symmetry. apply Z.mod_small. lia.
    - destruct (Z.ltb_spec (i + dir) 0); cbn [orb]; [split; [reflexivity|lia]|].
      destruct (Z.leb_spec n (i + dir)); [split; [reflexivity|lia]|]. split; lia.
  Qed.

  Lemma nei_coord_sym n per1 i dir j : 0 <= i < n -> nei_coord n per1 i dir j -> nei_coord n per1 j (- dir) i.
  Proof.
    intros Hi [Hj H]. split; [exact Hi|]. unfold wrap in *. destruct per1; [|lia].
    subst j. rewrite Zplus_mod_idemp_l. replace (i + dir + - dir) with i by lia.
    symmetry. apply Z.mod_small. lia.
  Qed.

  Lemma nei_coord_fun n per1 i dir j j' : nei_coord n per1 i dir j -> nei_coord n per1 i dir j' -> j = j'.
  Proof. intros [_ H] [_ H']. destruct per1; congruence. Qed.

  Lemma neighbour_cases r p gp info dir :
    owns counts r p gp -> get_local_patch_info dm r p = Some info ->
    (forall d, -1 <= get3 dir d <= 1) ->
    (leaves np per (pi_idx3 info) dir /\ get_neighbor_rank_patch dm r p dir = Some None) \/
    (~ leaves np per (pi_idx3 info) dir /\
     exists r' p' gp' info', get_neighbor_rank_patch dm r p dir = Some (Some (r', p')) /\
       owns counts r' p' gp' /\ get_local_patch_info dm r' p' = Some info' /\
       forall d, nei_coord (get3 np d) (get3 per d) (get3 (pi_idx3 info) d) (get3 dir d) (get3 (pi_idx3 info') d)).
  Proof.
    intros Ho EI Hdir. destruct (owns_local r p gp Ho) as [Hgp EL].
    destruct (global_info gp Hgp) as [info2 [EI2 [_ [_ [Hb _]]]]].
    rewrite EL, EI2 in EI. injection EI as ->.
    unfold get_neighbor_rank_patch. rewrite EL, EI2.
    destruct np_dm as [-> [-> _]].
    pose proof (fun d => nei_coord_spec (get3 np d) (get3 per d) (get3 (pi_idx3 info) d) (get3 dir d)
                 (Hpos d) (Hb d) (Hdir d)) as HN.
    pose proof (HN D0) as N0. pose proof (HN D1) as N1. pose proof (HN D2) as N2.
    destruct (neighbor_coord _ _ _ (get3 dir D0)) as [a|].
    2:{ left. split; [exists D0; exact N0|reflexivity]. }
    destruct (neighbor_coord _ _ _ (get3 dir D1)) as [b|].
    2:{ left. split; [exists D1; exact N1|reflexivity]. }
    destruct (neighbor_coord _ _ _ (get3 dir D2)) as [e|].
    2:{ left. split; [exists D2; exact N2|reflexivity]. }
    right. split.
    { intros [d [Hd1 Hd2]]. destruct d; [destruct N0 as [NA NB]|destruct N1 as [NA NB]|destruct N2 as [NA NB]];
        rewrite Hd1 in NB; lia. }
    destruct parts as [l0 [l1 [l2 [s [_ [_ [_ [Es E]]]]]]]].
    pose proof (curve_bijective c np s Hpos Es) as [B1 B2].
    assert (Esfc : dm_sfc dm = s) by (rewrite E; reflexivity).
    destruct (B2 (v3 a b e)) as [gp' [EG [Hgp' EP]]].
    { intros []; cbn [get3 c0 c1 c2]; [apply N0|apply N1|apply N2]. }
    unfold get_level_idx3_patch_info. rewrite Esfc, EG.
    destruct (global_info gp' Hgp') as [info' [EI' [_ [Ho' [_ [E3 _]]]]]].
    rewrite EI'. rewrite Esfc, EP in E3. injection E3 as E3.
    exists (pi_rank info'), (pi_patch info'), gp', info'.
    split; [reflexivity|]. split; [exact Ho'|]. split.
    - destruct (owns_local _ _ _ Ho') as [_ ->]. exact EI'.
    - intros d. rewrite <- E3. destruct d; cbn [get3 c0 c1 c2]; assumption.
  Qed.

  Lemma neighbour_symmetric r p gp dir r' p' :
    owns counts r p gp -> (forall d, -1 <= get3 dir d <= 1) ->
    get_neighbor_rank_patch dm r p dir = Some (Some (r', p')) ->
    get_neighbor_rank_patch dm r' p' (gen3 (fun d => - get3 dir d)) = Some (Some (r, p)).
  Proof.
    intros Ho Hdir H. destruct (owns_local r p gp Ho) as [Hgp EL].
    destruct (global_info gp Hgp) as [info [EI [_ [Ho1 [Hb [E3 _]]]]]].
    assert (EI0 : get_local_patch_info dm r p = Some info) by (rewrite EL; exact EI).
    destruct (neighbour_cases r p gp info dir Ho EI0 Hdir) as [[_ K]|[_ [r1 [p1 [gp' [info' [K [Ho' [EI' HN]]]]]]]]].
    { rewrite K in H. discriminate. }
    rewrite K in H. injection H as -> ->.
    assert (Hdir' : forall d, -1 <= get3 (gen3 (fun d => - get3 dir d)) d <= 1).
    { intros d. rewrite get3_gen3. specialize (Hdir d). lia. }
    assert (HN' : forall d, nei_coord (get3 np d) (get3 per d) (get3 (pi_idx3 info') d)
                    (get3 (gen3 (fun d => - get3 dir d)) d) (get3 (pi_idx3 info) d)).
    { intros d. rewrite get3_gen3. apply nei_coord_sym; [apply Hb|apply HN]. }
    destruct (neighbour_cases r' p' gp' info' _ Ho' EI' Hdir')
      as [[[d [D1' D2']] _]|[_ [r2 [p2 [gp2 [info2 [K2 [Ho2 [EI2 HN2]]]]]]]]].
    - exfalso. specialize (HN' d). destruct HN' as [A B]. rewrite D1' in B. lia.
    - rewrite K2. f_equal. f_equal.
      assert (E : pi_idx3 info2 = pi_idx3 info).
      { apply v3_ext. intros d. eapply nei_coord_fun; [apply HN2|apply HN']. }
      destruct (owns_local _ _ _ Ho2) as [Hgp2 EL2].
      destruct (global_info gp2 Hgp2) as [i2 [EI3 [_ [_ [_ [E32 _]]]]]].
      rewrite EL2, EI3 in EI2. injection EI2 as ->.
      rewrite E in E32. rewrite <- E3 in E32.
      destruct parts as [l0 [l1 [l2 [s [_ [_ [_ [Es E']]]]]]]].
      pose proof (curve_bijective c np s Hpos Es) as [B1 _].
      assert (Esfc : dm_sfc dm = s) by (rewrite E'; reflexivity). rewrite Esfc in *.
      destruct (B1 gp Hgp) as [q [Q1 [_ Q2]]]. destruct (B1 gp2 Hgp2) as [q' [Q1' [_ Q2']]].
      assert (gp2 = gp) by congruence. subst gp2.
      destruct (counts_of_ok pr (volume np) size) as [Hc1 _];
        [pose proof (volume_pos np Hpos); lia|exact Hcnt|].
      pose proof (lookup_complete _ _ _ _ Hc1 Ho2). pose proof (lookup_complete _ _ _ _ Hc1 Ho). congruence.
  Qed.
End Domain.

Lemma domain_accepts c np gdims per pr size s : all_pos np ->
  (forall d, get3 gdims d mod get3 np d = 0) -> sfc_setup c np = Some s ->
  exists dm, domain_setup c np gdims per pr size = Some dm.
Proof.
  intros Hpos Hm Hs. unfold domain_setup, dim_ldims. 
  pose proof (Hm D0) as M0. pose proof (Hm D1) as M1. pose proof (Hm D2) as M2. cbn [get3] in *.
  rewrite M0, M1, M2, Hs. cbn. eauto.
Qed.

Lemma ownership_full c np gdims per pr size dm :
  all_pos np -> domain_setup c np gdims per pr size = Some dm ->
  counts_valid pr (volume np) size ->
  exists counts,
    match pr with
    | Some l => counts = l
    | None => Z.of_nat (length counts) = size /\ even_split counts
    end /\
    zsum counts = volume np /\
    (forall gp, 0 <= gp < volume np ->
       exists info, get_global_patch_info dm gp = Some info /\
         owns counts (pi_rank info) (pi_patch info) gp /\
         forall r p, owns counts r p gp -> r = pi_rank info /\ p = pi_patch info) /\
    (forall r k p, 0 <= r -> nth_error counts (Z.to_nat r) = Some k -> 0 <= p < k ->
       nr_patches dm r = Some k /\
       exists info, get_local_patch_info dm r p = Some info /\
         pi_rank info = r /\ pi_patch info = p /\ owns counts r p (pi_global_patch info)).
Proof.
  intros Hpos Hset Hcnt. exists (counts_of pr (volume np) size).
  pose proof (volume_pos np Hpos) as HV.
  destruct (counts_of_ok pr (volume np) size ltac:(lia) Hcnt) as [Hc1 Hc2].
  split; [|split; [exact Hc2|split]].
  - destruct pr as [l|]; [reflexivity|]. cbn in *.
    destruct (default_counts_spec (volume np) size ltac:(lia) Hcnt) as [_ [H2 H3]].
    split; [exact H2|]. exists (volume np / size). eapply Forall_impl; [|exact H3]. cbn. intros; lia.
  - intros gp Hgp. destruct (global_info c np gdims per pr size dm Hpos Hset Hcnt gp Hgp)
      as [info [E [_ [Ho _]]]].
    exists info. split; [exact E|]. split; [exact Ho|]. intros r p Ho'.
    pose proof (lookup_complete _ _ _ _ Hc1 Ho). pose proof (lookup_complete _ _ _ _ Hc1 Ho'). 
    split; congruence.
  - intros r k p Hr Hn Hp.
    split; [exact (nr_patches_ok c np gdims per pr size dm Hset r k Hr Hn)|].
    set (gp := zsum (firstn (Z.to_nat r) (counts_of pr (volume np) size)) + p).
    assert (Ho : owns (counts_of pr (volume np) size) r p gp).
    { split; [exact Hr|]. exists k. auto. }
    destruct (owns_local c np gdims per pr size dm Hpos Hset Hcnt r p gp Ho) as [Hgp EL].
    destruct (global_info c np gdims per pr size dm Hpos Hset Hcnt gp Hgp) as [info [E [EG [Ho' _]]]].
    exists info. rewrite EL. split; [exact E|]. 
    pose proof (lookup_complete _ _ _ _ Hc1 Ho) as L1. pose proof (lookup_complete _ _ _ _ Hc1 Ho') as L2.
    rewrite L1 in L2. injection L2 as E1 E2. rewrite EG. auto.
Qed.

Lemma tiling_full c np gdims per pr size dm :
  all_pos np -> domain_setup c np gdims per pr size = Some dm ->
  counts_valid pr (volume np) size ->
  (forall x, in_box gdims x <->
     exists gp info, 0 <= gp < volume np /\ get_global_patch_info dm gp = Some info /\
       in_patch (pi_off info) (pi_ldims info) x) /\
  (forall gp1 info1 gp2 info2 x,
     0 <= gp1 < volume np -> get_global_patch_info dm gp1 = Some info1 ->
     0 <= gp2 < volume np -> get_global_patch_info dm gp2 = Some info2 ->
     in_patch (pi_off info1) (pi_ldims info1) x -> in_patch (pi_off info2) (pi_ldims info2) x ->
     gp1 = gp2) /\
  (forall gp, 0 <= gp < volume np -> exists info, get_global_patch_info dm gp = Some info /\
     forall d, get3 (pi_ldims info) d * get3 np d = get3 gdims d).
Proof.
  intros Hpos Hset Hcnt. split; [|split].
  - intros x. split.
    + intros Hx. destruct (cell_patch c np gdims per pr size dm Hpos Hset Hcnt x Hx)
        as [gp [info [H1 [H2 [H3 _]]]]]. eauto.
    + intros [gp [info [H1 [H2 H3]]]].
      eapply (patch_in_domain c np gdims per pr size dm); eassumption.
  - intros gp1 info1 gp2 info2 x H1 E1 H2 E2 I1 I2.
    assert (Hx : in_box gdims x) by (eapply (patch_in_domain c np gdims per pr size dm Hpos Hset Hcnt gp1); eassumption).
    destruct (cell_patch c np gdims per pr size dm Hpos Hset Hcnt x Hx) as [gp [info [_ [_ [_ U]]]]].
    rewrite (U gp1 info1), (U gp2 info2) by assumption. reflexivity.
  - intros gp Hgp. destruct (global_info c np gdims per pr size dm Hpos Hset Hcnt gp Hgp)
      as [info [E [_ [_ [_ [_ Hi]]]]]]. exists info. split; [exact E|].
    intros d. destruct (Hi d) as [-> _]. rewrite (gdims_eq c np gdims per pr size dm Hpos Hset d). ring.
Qed.

Lemma neighbour_full c np gdims per pr size dm r k p dir :
  all_pos np -> domain_setup c np gdims per pr size = Some dm ->
  counts_valid pr (volume np) size ->
  0 <= r -> nr_patches dm r = Some k -> 0 <= p < k ->
  (forall d, -1 <= get3 dir d <= 1) ->
  exists info, get_local_patch_info dm r p = Some info /\
  ((leaves np per (pi_idx3 info) dir /\ get_neighbor_rank_patch dm r p dir = Some None) \/
   (~ leaves np per (pi_idx3 info) dir /\
    exists r' p' info', get_neighbor_rank_patch dm r p dir = Some (Some (r', p')) /\
      get_local_patch_info dm r' p' = Some info' /\ pi_rank info' = r' /\ pi_patch info' = p' /\
      (forall d, nei_coord (get3 np d) (get3 per d) (get3 (pi_idx3 info) d) (get3 dir d)
                           (get3 (pi_idx3 info') d)) /\
      get_neighbor_rank_patch dm r' p' (gen3 (fun d => - get3 dir d)) = Some (Some (r, p)))).
Proof.
  intros Hpos Hset Hcnt Hr Hk Hp Hdir.
  pose proof (volume_pos np Hpos) as HV.
  destruct (counts_of_ok pr (volume np) size ltac:(lia) Hcnt) as [Hc1 Hc2].
  assert (Hn : nth_error (counts_of pr (volume np) size) (Z.to_nat r) = Some k).
  { unfold nr_patches in Hk. destruct (np_dm c np gdims per pr size dm Hset) as [_ [_ [_ E]]].
    rewrite E in Hk.
    assert (HL : (Z.to_nat r < length (counts_of pr (volume np) size))%nat).
    { unfold zget in Hk. destruct (Z.ltb_spec r 0); [lia|]. destruct (Z.ltb_spec (r + 1) 0); [lia|].
      destruct (nth_error _ (Z.to_nat r)) eqn:E1; [|discriminate].
      destruct (nth_error _ (Z.to_nat (r + 1))) eqn:E2 in Hk; [|discriminate].
      assert (Z.to_nat (r + 1) < S (length (counts_of pr (volume np) size)))%nat.
      { rewrite <- (off_all_length _ 0). apply nth_error_Some. congruence. } lia. }
    destruct (nth_error (counts_of pr (volume np) size) (Z.to_nat r)) as [k'|] eqn:E1.
    - pose proof (nr_patches_ok c np gdims per pr size dm Hset r k' Hr E1) as E2.
      unfold nr_patches in E2. rewrite E in E2. congruence.
    - apply nth_error_None in E1. lia. }
  set (gp := zsum (firstn (Z.to_nat r) (counts_of pr (volume np) size)) + p).
  assert (Ho : owns (counts_of pr (volume np) size) r p gp).
  { split; [exact Hr|]. exists k. auto. }
  destruct (owns_local c np gdims per pr size dm Hpos Hset Hcnt r p gp Ho) as [Hgp EL].
  destruct (global_info c np gdims per pr size dm Hpos Hset Hcnt gp Hgp) as [info [E _]].
  exists info. rewrite <- EL in E. split; [exact E|].
  destruct (neighbour_cases c np gdims per pr size dm Hpos Hset Hcnt r p gp info dir Ho E Hdir)
    as [K|[K1 [r' [p' [gp' [info' [K2 [Ho' [EI' HN]]]]]]]]]; [left; exact K|right].
  split; [exact K1|]. exists r', p', info'. split; [exact K2|]. split; [exact EI'|].
  destruct (owns_local c np gdims per pr size dm Hpos Hset Hcnt r' p' gp' Ho') as [Hgp' EL'].
  destruct (global_info c np gdims per pr size dm Hpos Hset Hcnt gp' Hgp') as [i2 [E2 [_ [Ho2 _]]]].
  rewrite EL', E2 in EI'. injection EI' as ->.
  pose proof (lookup_complete _ _ _ _ Hc1 Ho') as L1. pose proof (lookup_complete _ _ _ _ Hc1 Ho2) as L2.
  rewrite L1 in L2. injection L2 as E3 E4.
  split; [auto|]. split; [auto|]. split; [exact HN|].
  eapply (neighbour_symmetric c np gdims per pr size dm); eassumption.
Qed.
