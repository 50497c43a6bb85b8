From Coq Require Import Reals Lra Psatz.
From Flocq Require Import Core.
From Verif Require Import Base Arr DomainModel DomainSpec DomainProofs DomainBoxProofs MpiModel MpiProofs BalanceModel BalanceMoveProofs BalanceCommProofs
  IndexerModel BndPrtModel BndPrtSpec BndPrtProofs BndPrtExact DdcPrtModel DdcPrtSpec DdcPrtProofs DdcPrtGlobalSpec.
Local Open Scope R_scope.

Lemma wrapped_shift per len y m : 0 < len -> (per = false -> m = 0%Z) -> wrapped per len (y + IZR m * len) = wrapped per len y.
Proof.
  intros Hl Hm. unfold wrapped. destruct per; [|rewrite Hm by reflexivity; lra].
  replace ((y + IZR m * len) / len) with (y / len + IZR m) by (field; lra).
  replace (Zfloor (y / len + IZR m)) with (Zfloor (y / len) + m)%Z.
  - rewrite plus_IZR. ring.
  - symmetry. apply Zfloor_imp. rewrite !plus_IZR. pose proof (Zfloor_lb (y / len)). pose proof (Zfloor_ub (y / len)). lra.
Qed.

Section Global.
  Variables (c : curve) (np gdims : V3 Z) (per : V3 bool) (pr : option (list Z)) (size : Z) (dm : domain).
  Hypothesis Hpos : all_pos np.
  Hypothesis Hset : domain_setup c np gdims per pr size = Some dm.
  Hypothesis Hcnt : counts_valid pr (volume np) size.
  Hypothesis Hproc : processes pr size.
  Variables (len corner : V3 R) (lo hi : V3 bnd_prt).
  Hypothesis Hlen : forall d, 0 < get3 len d.
  Hypothesis Hg : all_pos gdims.
  Hypothesis Hsm : forall d, (get3 gdims d / get3 np d <= 2 ^ 30)%Z.
  Hypothesis Hvol : (c0 gdims / c0 np * (c1 gdims / c1 np) * (c2 gdims / c2 np) < 2 ^ 31)%Z.
  Let N := patches_of dm.
  Let ld (d : dim3) : Z := (get3 gdims d / get3 np d)%Z.

  Lemma info_at r p : valid size N r p -> exists info, get_local_patch_info dm r p = Some info /\ in_box np (pi_idx3 info) /\
    (forall d, get3 (pi_ldims info) d = ld d /\ get3 (pi_off info) d = (ld d * get3 (pi_idx3 info) d)%Z).
  Proof.
    intros [Hr Hp]. pose proof (counts_length pr (volume np) size Hcnt Hproc) as HL.
    destruct (nth_error (counts_of pr (volume np) size) (Z.to_nat r)) as [k|] eqn:E; [|apply nth_error_None in E; unfold alen in HL; lia].
    assert (Ek : N r = k) by (unfold N, patches_of; rewrite (nr_patches_ok c np gdims per pr size dm Hset r k (proj1 Hr) E); reflexivity).
    assert (Ho : owns (counts_of pr (volume np) size) r p (zsum (firstn (Z.to_nat r) (counts_of pr (volume np) size)) + p)%Z).
    { split; [lia|]. exists k. split; [exact E|]. split; [lia|reflexivity]. }
    destruct (owns_local c np gdims per pr size dm Hpos Hset Hcnt r p _ Ho) as [Hgp EL].
    destruct (global_info c np gdims per pr size dm Hpos Hset Hcnt _ Hgp) as [info [EI [_ [_ [Hb [_ Hi]]]]]].
    exists info. rewrite EL. split; [exact EI|]. split; [exact Hb|]. intros d. destruct (Hi d) as [-> ->]. rewrite get3_gen3. auto.
  Qed.

  Lemma gd d : get3 gdims d = (get3 np d * ld d)%Z.
  Proof. pose proof (gdims_eq c np gdims per pr size dm Hpos Hset d) as H. rewrite get3_gen3 in H. exact H. Qed.

  Lemma ld_pos d : (0 < ld d)%Z.
  Proof. pose proof (gd d) as H. pose proof (Hg d). pose proof (Hpos d). destruct (Z.lt_ge_cases 0 (ld d)) as [K|K]; [exact K|]. exfalso. assert (get3 np d * ld d <= 0)%Z by (apply Z.mul_nonneg_nonpos; lia). lia. Qed.

  Lemma nei_off r p info dir : valid size N r p -> get_local_patch_info dm r p = Some info -> In dir dirs27 -> (exists d, get3 dir d <> 0)%Z ->
    ~ leaves np per (pi_idx3 info) dir ->
    exists r' p' info', dest dm (r, p, dir) = Some (r', p') /\ valid size N r' p' /\ get_local_patch_info dm r' p' = Some info' /\
      forall d, get3 (pi_ldims info') d = ld d /\ exists m, (get3 per d = false -> m = 0%Z) /\ (get3 (pi_off info') d = get3 (pi_off info) d + get3 dir d * ld d + m * get3 gdims d)%Z.
  Proof.
    intros Hv Ei Hd [d0 Hd0] HL. pose proof Hv as [Hr Hp].
    assert (Ed : dest dm (r, p, dir) = match get_neighbor_rank_patch dm r p dir with Some o => o | None => None end).
    { unfold dest. destruct ((c0 dir =? 0) && (c1 dir =? 0) && (c2 dir =? 0))%Z eqn:E; [|reflexivity]. exfalso. apply Hd0.
      apply andb_true_iff in E. destruct E as [E E2]. apply andb_true_iff in E. destruct E as [E0 E1]. apply Z.eqb_eq in E0, E1, E2. destruct d0; assumption. }
    destruct (neighbour_full c np gdims per pr size dm r (patches_of dm r) p dir Hpos Hset Hcnt (proj1 Hr) (nr_some c np gdims per pr size dm Hset Hcnt Hproc r Hr) Hp (proj1 (in_dirs27 dir) Hd))
      as [info2 [EI2 [[K _]|[_ [r' [p' [info' [K [EI' [_ [_ [HN _]]]]]]]]]]]]; rewrite Ei in EI2; injection EI2 as <-; [contradiction|].
    exists r', p', info'. rewrite Ed, K. split; [reflexivity|].
    assert (Hv' : valid size N r' p') by (eapply (nei_valid c np gdims per pr size dm Hpos Hset Hcnt Hproc); eassumption).
    split; [exact Hv'|]. split; [exact EI'|].
    destruct (info_at r p Hv) as [i1 [Q1 [_ G1]]]. rewrite Ei in Q1. injection Q1 as <-.
    destruct (info_at r' p' Hv') as [i2 [Q2 [_ G2]]]. rewrite EI' in Q2. injection Q2 as <-.
    intros d. destruct (G1 d) as [_ O1], (G2 d) as [L2 O2]. split; [exact L2|]. rewrite O1, O2, (gd d).
    destruct (HN d) as [Hj HE]. destruct (get3 per d).
    - exists (- ((get3 (pi_idx3 info) d + get3 dir d) / get3 np d))%Z. split; [discriminate|]. rewrite HE. unfold wrap.
      pose proof (Hpos d) as Hn. pose proof (Z.div_mod (get3 (pi_idx3 info) d + get3 dir d) (get3 np d) ltac:(lia)) as DM.
      set (q := ((get3 (pi_idx3 info) d + get3 dir d) / get3 np d)%Z) in *. set (m := ((get3 (pi_idx3 info) d + get3 dir d) mod get3 np d)%Z) in *.
      replace m with (get3 (pi_idx3 info) d + get3 dir d - get3 np d * q)%Z by lia. ring.
    - exists 0%Z. split; [reflexivity|]. rewrite HE. ring.
  Qed.

  Definition geom (info : patch_info) : pgeom := patch_geom exact gdims (pi_ldims info) (pi_off info) len corner lo hi.

  Lemma geom_at info : (forall d, get3 (pi_ldims info) d = ld d) ->
    wf_geom (geom info) /\ exact_geom (geom info) /\ small_geom (geom info) /\ forall d, get3 (pg_ps (geom info)) d = width gdims len info d.
  Proof.
    intros HL. assert (PS : forall d, get3 (pg_ps (geom info)) d = width gdims len info d).
    { intros d. unfold geom, patch_geom, width. cbn [pg_ps rnd rndd exact]. rewrite get3_gen3, plus_IZR. ring. }
    repeat apply conj; [..|exact PS].
    - intros d. cbn [geom patch_geom pg_ld]. rewrite HL. apply ld_pos.
    - cbn [geom patch_geom pg_ld]. pose proof (HL D0) as L0. pose proof (HL D1) as L1. pose proof (HL D2) as L2. cbn [get3] in L0, L1, L2. rewrite L0, L1, L2. exact Hvol.
    - intros d. rewrite PS. unfold geom, patch_geom, width. cbn [pg_dxi pg_ld rnd rndd exact]. rewrite get3_gen3.
      pose proof (Hlen d) as L. assert (G : 0 < IZR (get3 gdims d)) by (apply IZR_lt; apply Hg). split.
      + apply Rdiv_lt_0_compat; assumption.
      + field. split; lra.
    - intros d. cbn [geom patch_geom pg_ld]. rewrite HL. apply Hsm.
  Qed.

  Lemma pass_flags info d : 
    (get3 (pi_off info) d <> 0%Z \/ (get3 per d = true /\ get3 lo d = PRT_PERIODIC) -> passes_lo (geom info) d) /\
    ((get3 (pi_off info) d + get3 (pi_ldims info) d)%Z <> get3 gdims d \/ (get3 per d = true /\ get3 hi d = PRT_PERIODIC) -> passes_hi (geom info) d).
  Proof.
    unfold passes_lo, passes_hi, geom, patch_geom. cbn [pg_at_lo pg_at_hi pg_lo pg_hi]. rewrite !get3_gen3. split.
    - intros [H|[_ H]]; [left; apply Z.eqb_neq; exact H|right]. destruct (get3 gdims d =? 1)%Z; [reflexivity|exact H].
    - intros [H|[_ H]]; [left; apply Z.eqb_neq; exact H|right]. destruct (get3 gdims d =? 1)%Z; [reflexivity|exact H].
  Qed.

  Lemma passes_not_reflects_lo g d : passes_lo g d -> ~ reflects_lo g d.
  Proof. intros [A|A] [B C]; congruence. Qed.
  Lemma passes_not_reflects_hi g d : passes_hi g d -> ~ reflects_hi g d.
  Proof. intros [A|A] [B C]; congruence. Qed.

  Context {T : Type}.

  Lemma moves_on r p info (prt : particle T) : valid size N r p -> get_local_patch_info dm r p = Some info ->
    travels gdims len per lo hi info (p_x prt) ->
    exists f, process_one exact (geom info) prt = Some f /\
    match f with
    | Keep q => inside (geom info) (p_x q) /\ world gdims len corner per info q = world gdims len corner per info prt
    | Send dir q => In dir dirs27 /\ exists r' p' info', dest dm (r, p, dir) = Some (r', p') /\ valid size N r' p' /\ get_local_patch_info dm r' p' = Some info' /\
        inside (geom info') (p_x q) /\ world gdims len corner per info' q = world gdims len corner per info prt
    | Drop => False
    end.
  Proof.
    intros Hv Ei HT. destruct (info_at r p Hv) as [i1 [Q1 [Hbox G1]]]. rewrite Ei in Q1. injection Q1 as <-.
    destruct (geom_at info (fun d => proj1 (G1 d))) as [WF [EX [SM PS]]].
    assert (NR : near (geom info) (p_x prt)) by (intros d; rewrite PS; apply HT).
    destruct (process_one_exact (geom info) WF EX SM prt NR) as [f [Ef [HD Hf]]]. exists f. split; [exact Ef|].
    assert (CU : forall d w y k, exact_move (geom info) d (get3 (p_x prt) d) (get3 (p_u prt) d) y w k -> w = get3 (p_u prt) d /\ y = get3 (p_x prt) d - IZR k * width gdims len info d).
    { intros d w y k HM. destruct (HT d) as [_ HO]. unfold only_passes in HO. destruct (pass_flags info d) as [PL PH]. rewrite <- (PS d) in HO. rewrite <- (PS d).
      assert (WP : 0 < get3 (pg_ps (geom info)) d) by (pose proof (NR d); lra).
      destruct HM as [H|H P|H P|H P|H P|H P]; (split; [try reflexivity|lra || (try lra)]);
        try (exfalso; destruct HO as [HO|[[HO HP]|[HO HP]]]; [lra|apply PL in HP|apply PH in HP]; try lra;
             first [exact (passes_not_reflects_lo _ _ HP P)|exact (passes_not_reflects_hi _ _ HP P)]). }
    destruct f as [q|dir q|].
    - destruct Hf as [ET [IN HM]]. split; [exact IN|]. unfold world. rewrite ET. f_equal. f_equal.
      + apply v3_ext. intros d. rewrite !get3_gen3. destruct (CU d _ _ _ (HM d)) as [_ E]. unfold global. rewrite E. f_equal. ring.
      + apply v3_ext. intros d. destruct (CU d _ _ _ (HM d)) as [E _]. exact E.
    - destruct Hf as [ET [IN [HN0 [HR HM]]]]. assert (HI : In dir dirs27) by (apply in_dirs27; exact HR). split; [exact HI|].
      assert (HL : ~ leaves np per (pi_idx3 info) dir).
      { intros [d [Hper Hout]]. destruct (HT d) as [_ HO]. unfold only_passes in HO. rewrite <- (PS d) in HO. pose proof (NR d) as NRd.
        destruct (G1 d) as [L1 O1]. pose proof (Hbox d) as B. pose proof (ld_pos d) as LP. pose proof (gd d) as GD.
        specialize (HM d). inversion HM as [H X1 X2 K|H P X1 X2 K|H P X1 X2 K|H P X1 X2 K|H P X1 X2 K|H P X1 X2 K]; rewrite <- K in Hout; try lia.
        - destruct HO as [HO|[[_ [HP|[HP _]]]|[HO _]]]; [lra| |congruence|lra]. rewrite O1 in HP. assert (get3 (pi_idx3 info) d <> 0)%Z by (intros Z; rewrite Z in HP; lia). lia.
        - destruct HO as [HO|[[HO _]|[_ [HP|[HP _]]]]]; [lra|lra| |congruence]. rewrite O1, L1, GD in HP.
          assert (get3 (pi_idx3 info) d + 1 <> get3 np d)%Z. { intros Z. apply HP. rewrite <- Z. ring. } lia. }
      destruct (nei_off r p info dir Hv Ei HI HN0 HL) as [r' [p' [info' [Ed [Hv' [EI' HG]]]]]].
      exists r', p', info'. split; [exact Ed|]. split; [exact Hv'|]. split; [exact EI'|].
      destruct (geom_at info' (fun d => proj1 (HG d))) as [_ [_ [_ PS']]].
      assert (WW : forall d, width gdims len info' d = width gdims len info d). { intros d. unfold width. rewrite (proj1 (HG d)), (proj1 (G1 d)). reflexivity. }
      split.
      + intros d. rewrite PS', WW, <- PS. apply IN.
      + unfold world. rewrite ET. f_equal. f_equal.
        * apply v3_ext. intros d. rewrite !get3_gen3. destruct (CU d _ _ _ (HM d)) as [_ E]. destruct (HG d) as [_ [m [Hm HO]]].
          rewrite <- (wrapped_shift (get3 per d) (get3 len d) (global gdims len corner info (p_x prt) d) m (Hlen d) Hm). f_equal.
          unfold global. rewrite E, HO. unfold width. rewrite (proj1 (G1 d)), !plus_IZR, !mult_IZR. field.
          assert (G : 0 < IZR (get3 gdims d)) by (apply IZR_lt; apply Hg). lra.
        * apply v3_ext. intros d. destruct (CU d _ _ _ (HM d)) as [E _]. exact E.
    - destruct (proj1 HD eq_refl) as [d HB]. destruct (HT d) as [_ HO]. unfold only_passes in HO. destruct (pass_flags info d) as [PL PH].
      destruct (EX d) as [Hdxi Hps]. pose proof (cell_neg _ Hdxi (get3 (p_x prt) d)) as CN. pose proof (cell_hi _ _ _ Hdxi Hps (get3 (p_x prt) d)) as CH.
      rewrite <- (PS d) in HO. assert (WP : 0 < get3 (pg_ps (geom info)) d) by (pose proof (NR d); lra).
      destruct HB as [[X [A R]]|[X [A R]]]; [apply CN in X|apply CH in X]; (destruct HO as [HO|[[HO HP]|[HO HP]]]; try lra).
      + apply PL in HP. destruct HP as [HP|HP]; [congruence|]. rewrite HP in R. destruct R; discriminate.
      + apply PH in HP. destruct HP as [HP|HP]; [congruence|]. rewrite HP in R. destruct R; discriminate.
  Qed.

  (** *** one patch *)
  Definition Wd (s : Z * Z * V3 Z) (q : particle T) : V3 R * V3 R * T :=
    match dest dm s with Some (r, p) => world_of dm len corner per r p q | None => (p_x q, p_u q, p_t q) end.

  Lemma dm_gd : dm_gdims dm = gdims.
  Proof.
    unfold domain_setup in Hset. destruct (dim_ldims (c0 gdims) (c0 np)), (dim_ldims (c1 gdims) (c1 np)), (dim_ldims (c2 gdims) (c2 np)), (sfc_setup c np); try discriminate.
    injection Hset as <-. reflexivity.
  Qed.

  Lemma dir2idx_inj dir dir' : In dir dirs27 -> In dir' dirs27 -> dir2idx dir = dir2idx dir' -> dir = dir'.
  Proof.
    rewrite !in_dirs27. intros H H' E. pose proof (H D0). pose proof (H D1). pose proof (H D2). pose proof (H' D0). pose proof (H' D1). pose proof (H' D2).
    unfold dir2idx in E. cbn [get3] in *. apply v3_ext. intros []; cbn [get3]; lia.
  Qed.

  Lemma flat_pick {A B} (b : A -> bool) (v : A -> list B) l a : NoDup l -> In a l -> (forall x, In x l -> b x = true <-> x = a) ->
    flat_map (fun x => if b x then v x else []) l = v a.
  Proof.
    induction l as [|x l IH]; intros ND HI HB; [destruct HI|]. inversion ND as [|? ? Nn ND']; subst. cbn [flat_map]. destruct HI as [->|HI].
    - rewrite (proj2 (HB a (or_introl eq_refl)) eq_refl). rewrite flat_map_none; [apply app_nil_r|]. intros y Hy. destruct (b y) eqn:E; [|reflexivity].
      apply (HB y (or_intror Hy)) in E. subst. contradiction.
    - destruct (b x) eqn:E; [apply (HB x (or_introl eq_refl)) in E; subst; contradiction|]. apply IH; [assumption|assumption|]. intros y Hy. apply HB. now right.
  Qed.

  Lemma patch_ok r p info buf : valid size N r p -> get_local_patch_info dm r p = Some info ->
    (forall prt, In prt buf -> travels gdims len per lo hi info (p_x prt)) ->
    exists k s, process_patch exact (geom info) buf = Some (k, s) /\
      (forall q, In q k -> inside (geom info) (p_x q)) /\
      (forall dir q, In dir dirs27 -> In q (s (dir2idx dir)) -> exists r' p' info', dest dm (r, p, dir) = Some (r', p') /\
         get_local_patch_info dm r' p' = Some info' /\ inside (geom info') (p_x q)) /\
      Permutation (map (world_of dm len corner per r p) k ++ flat_map (fun dir => map (Wd (r, p, dir)) (s (dir2idx dir))) dirs27)
        (map (world_of dm len corner per r p) buf).
  Proof.
    intros Hv Ei HT.
    assert (FS : exists fs, Forall2 (fun q f => process_one exact (geom info) q = Some f /\
      match f with
      | Keep q' => inside (geom info) (p_x q') /\ world gdims len corner per info q' = world gdims len corner per info q
      | Send dir q' => In dir dirs27 /\ exists r' p' info', dest dm (r, p, dir) = Some (r', p') /\ valid size N r' p' /\ get_local_patch_info dm r' p' = Some info' /\
        inside (geom info') (p_x q') /\ world gdims len corner per info' q' = world gdims len corner per info q
      | Drop => False
      end) buf fs).
    { induction buf as [|q buf IH]; [exists []; constructor|]. destruct IH as [fs HF]; [intros; apply HT; now right|].
      destruct (moves_on r p info q Hv Ei (HT q (or_introl eq_refl))) as [f Hf]. exists (f :: fs). constructor; assumption. }
    destruct FS as [fs HF]. clear HT.
    destruct (process_patch_fates exact (geom info) buf) as [[fs' [sends [HF' [HS EP]]]]|[HN _]].
    2: { exfalso. apply HN. exists fs. clear - HF. induction HF as [|q f b l [H _] HF IH]; constructor; assumption. }
    assert (fs' = fs).
    { clear - HF HF'. revert fs' HF'. induction HF as [|q f buf fs [H _] HF IH]; intros fs' HF'; inversion HF' as [|? f' ? l H1 H2]; subst; [reflexivity|].
      unfold one in H1. rewrite H in H1. injection H1 as <-. f_equal. apply IH. exact H2. }
    subst fs'. exists (kept fs), sends. split; [exact EP|]. clear EP HF'.
    assert (WO : forall q : particle T, world_of dm len corner per r p q = world gdims len corner per info q) by (intros q; unfold world_of; rewrite Ei, dm_gd; reflexivity).
    split; [|split].
    - clear HS. induction HF as [|q f buf fs [_ H] HF IH]; [intros ? []|]. intros q' Hq. unfold kept in Hq. cbn [flat_map] in Hq. apply in_app_iff in Hq.
      destruct Hq as [Hq|Hq]; [|apply IH; exact Hq]. destruct f; [|destruct Hq|destruct Hq]. destruct Hq as [<-|[]]. apply H.
    - intros dir q Hd Hq. rewrite HS in Hq. clear HS. induction HF as [|q' f buf fs [_ H] HF IH]; [destruct Hq|]. unfold sent in Hq. cbn [flat_map] in Hq. apply in_app_iff in Hq.
      destruct Hq as [Hq|Hq]; [|apply IH; exact Hq]. destruct f as [|dir' q''|]; [destruct Hq| |destruct Hq]. cbn [sent1] in Hq.
      destruct (Z.eqb_spec (dir2idx dir) (dir2idx dir')) as [E|]; [|destruct Hq]. destruct Hq as [<-|[]]. destruct H as [Hd' [r' [p' [info' [H1 [_ [H2 [H3 _]]]]]]]].
      apply dir2idx_inj in E; [|exact Hd|exact Hd']. subst dir'. exists r', p', info'. auto.
    - rewrite (flat_map_ext _ (fun dir => map (Wd (r, p, dir)) (sent (dir2idx dir) fs))) by (intros dir; rewrite HS; reflexivity). clear HS.
      induction HF as [|q f buf fs [_ H] HF IH].
      + cbn [kept flat_map map app]. rewrite flat_map_none; [constructor|]. intros; reflexivity.
      + cbn [map]. rewrite WO. unfold kept, sent in *. cbn [flat_map]. destruct f as [q'|dir q'|]; [| |contradiction].
        * cbn [kept1 sent1 app map]. rewrite WO. destruct H as [_ ->]. constructor. exact IH.
        * cbn [kept1 app]. destruct H as [Hd [r' [p' [info' [H1 [_ [H2 [_ H3]]]]]]]].
          rewrite (flat_map_ext _ (fun dir' => (if (dir2idx dir' =? dir2idx dir)%Z then map (Wd (r, p, dir')) [q'] else []) ++ map (Wd (r, p, dir')) (flat_map (sent1 (dir2idx dir')) fs))).
          2: { intros dir'. cbn [sent1]. rewrite map_app. destruct (dir2idx dir' =? dir2idx dir)%Z; reflexivity. }
          rewrite perm_flat_app. rewrite (flat_pick _ _ _ dir NoDup_dirs27 Hd).
          2: { intros x Hx. rewrite Z.eqb_eq. split; [intros E; apply dir2idx_inj; assumption|intros ->; reflexivity]. }
          cbn [map]. unfold Wd at 1. rewrite H1. unfold world_of at 2. rewrite H2, dm_gd, H3. cbn [app]. rewrite <- Permutation_middle. constructor. exact IH.
  Qed.

  (** *** all patches of all processes *)
  Variable bufs : Z -> list (list (particle T)).
  Hypothesis Hbufs : per_patch dm size bufs.
  Hypothesis Htravel : forall r p info b q, (0 <= r < size)%Z -> get_local_patch_info dm r p = Some info -> aget (bufs r) p = Some b -> In q b ->
    travels gdims len per lo hi info (p_x q).

  Definition V (r : Z) (x : Z * list (particle T)) : list (particle T) * (Z -> list (particle T)) :=
    let '(p, buf) := x in
    match geom_of exact dm len corner lo hi r p with
    | Some g => match process_patch exact g buf with Some y => y | None => ([], fun _ => []) end
    | None => ([], fun _ => [])
    end.
  Definition kepts (r : Z) := map (fun x => fst (V r x)) (enumerate (bufs r)).
  Definition sbs (r : Z) := map (fun x => snd (V r x)) (enumerate (bufs r)).

  Lemma geom_of_at r p info : get_local_patch_info dm r p = Some info -> geom_of exact dm len corner lo hi r p = Some (geom info).
  Proof. intros E. unfold geom_of. rewrite E, dm_gd. reflexivity. Qed.

  Lemma at_patch r p : valid size N r p -> exists info b k s, get_local_patch_info dm r p = Some info /\ aget (bufs r) p = Some b /\
    aget (kepts r) p = Some k /\ aget (sbs r) p = Some s /\ process_patch exact (geom info) b = Some (k, s) /\
      (forall q, In q k -> inside (geom info) (p_x q)) /\
      (forall dir q, In dir dirs27 -> In q (s (dir2idx dir)) -> exists r' p' info', dest dm (r, p, dir) = Some (r', p') /\
         get_local_patch_info dm r' p' = Some info' /\ inside (geom info') (p_x q)) /\
      Permutation (map (world_of dm len corner per r p) k ++ flat_map (fun dir => map (Wd (r, p, dir)) (s (dir2idx dir))) dirs27)
        (map (world_of dm len corner per r p) b).
  Proof.
    intros Hv. pose proof Hv as [Hr Hp]. destruct (info_at r p Hv) as [info [Ei _]].
    destruct (aget_some (bufs r) p) as [b Eb]; [rewrite (Hbufs r Hr); exact Hp|].
    destruct (patch_ok r p info b Hv Ei (fun q Hq => Htravel r p info b q Hr Ei Eb Hq)) as [k [s [EP [H1 [H2 H3]]]]].
    exists info, b, k, s. split; [exact Ei|]. split; [exact Eb|].
    assert (EV : V r (p, b) = (k, s)) by (unfold V; rewrite (geom_of_at r p info Ei), EP; reflexivity).
    split; [unfold kepts; rewrite (aget_enum_map _ _ _ _ Eb), EV; reflexivity|].
    split; [unfold sbs; rewrite (aget_enum_map _ _ _ _ Eb), EV; reflexivity|]. auto.
  Qed.

  Lemma split_map {A B C} (f : A -> B * C) l : split (map f l) = (map (fun x => fst (f x)) l, map (fun x => snd (f x)) l).
  Proof. induction l as [|x l IH]; [reflexivity|]. cbn [map split]. rewrite IH. destruct (f x). reflexivity. Qed.

  Lemma process_all_ok r : (0 <= r < size)%Z -> process_all exact dm len corner lo hi r (bufs r) = Some (kepts r, sbs r).
  Proof.
    intros Hr. unfold process_all. rewrite (sequence_map_some _ (V r)).
    - cbn [option_map]. rewrite split_map. reflexivity.
    - intros [p b] H. apply enumerate_in in H. destruct H as [H0 H1].
      assert (Eb : aget (bufs r) p = Some b). { unfold aget. destruct (Z.ltb_spec p 0); [lia|exact H1]. }
      assert (Hv : valid size N r p). { split; [exact Hr|]. unfold N. rewrite <- (Hbufs r Hr). exact (aget_bounds _ _ _ Eb). }
      destruct (at_patch r p Hv) as [info [b' [k [s [Ei [Eb' [_ [_ [EP _]]]]]]]]]. assert (b' = b) by congruence. subst b'.
      unfold V. rewrite (geom_of_at r p info Ei), EP. reflexivity.
  Qed.

  Lemma enum_len {A B} (f : Z * A -> B) l : alen (map f (enumerate l)) = alen l.
  Proof. unfold alen, enumerate. rewrite map_length, combine_length, zrange_length. lia. Qed.

  Lemma kepts_len : per_patch dm size kepts.
  Proof. intros r Hr. unfold kepts. rewrite enum_len. apply Hbufs. exact Hr. Qed.
  Lemma sbs_len : per_patch dm size sbs.
  Proof. intros r Hr. unfold sbs. rewrite enum_len. apply Hbufs. exact Hr. Qed.

  Lemma everything_patches (X : Z -> list (list (particle T))) (f : Z -> Z -> list (V3 R * V3 R * T)) :
    (forall r p, valid size N r p -> exists b, aget (X r) p = Some b /\ Permutation (map (world_of dm len corner per r p) b) (f r p)) ->
    Permutation (everything dm size len corner per N X) (flat_map (fun '(r, p) => f r p) (patch_list size dm)).
  Proof.
    intros H. unfold everything, patch_list. rewrite flat_map_flat. apply perm_flat_ext. intros r Hr. apply in_zrange in Hr. rewrite flat_map_map'.
    apply perm_flat_ext. intros p Hp. apply in_zrange in Hp. destruct (H r p) as [b [Eb HP]]; [split; [lia|unfold N in *; lia]|].
    unfold aget in Eb. destruct (Z.ltb_spec p 0); [lia|]. rewrite Eb. exact HP.
  Qed.

  Lemma system (res : Z -> list (list (particle T))) : 
    (forall r, (0 <= r < size)%Z -> forall p k, aget (kepts r) p = Some k -> exists new, aget (res r) p = Some (k ++ new) /\
       Permutation new (flat_map (contents sbs) (filter (meant_for dm r p) (buffers dm size)))) ->
    Permutation (everything dm size len corner per N res) (everything dm size len corner per N bufs) /\
    (forall r p info b q, valid size N r p -> get_local_patch_info dm r p = Some info -> aget (res r) p = Some b -> In q b -> inside (geom info) (p_x q)).
  Proof.
    intros HR.
    assert (CT : forall r p dir s, aget (sbs r) p = Some s -> contents sbs (r, p, dir) = s (dir2idx dir)).
    { intros r p dir s E. unfold contents. rewrite E. f_equal. unfold dir2idx. ring. }
    split.
    - etransitivity; [apply (everything_patches res (fun r p => map (world_of dm len corner per r p) (match aget (kepts r) p with Some k => k | None => [] end)
        ++ flat_map (fun s => map (Wd s) (contents sbs s)) (filter (meant_for dm r p) (buffers dm size))))|].
      { intros r p Hv. destruct (at_patch r p Hv) as [info [b [k [s [Ei [_ [Ek _]]]]]]]. destruct (HR r (proj1 Hv) p k Ek) as [new [E HP]].
        exists (k ++ new). split; [exact E|]. rewrite Ek, map_app. apply Permutation_app_head. rewrite (Permutation_map _ HP), map_flat_map'.
        apply perm_flat_ext. intros x Hx. apply filter_In in Hx. destruct Hx as [_ Hx]. apply meant_for_iff in Hx. unfold Wd. rewrite Hx. apply Permutation_refl. }
      etransitivity; [|symmetry; apply (everything_patches bufs (fun r p => map (world_of dm len corner per r p) (match aget (kepts r) p with Some k => k | None => [] end)
        ++ flat_map (fun dir => map (Wd (r, p, dir)) (contents sbs (r, p, dir))) dirs27))].
      2: { intros r p Hv. destruct (at_patch r p Hv) as [info [b [k [s [Ei [Eb [Ek [Es [_ [_ [_ HP]]]]]]]]]]]. exists b. split; [exact Eb|].
        rewrite Ek, <- HP. apply Permutation_app_head. apply perm_flat_ext. intros dir _. rewrite (CT _ _ _ _ Es). apply Permutation_refl. }
      etransitivity; [apply (perm_flat_ext _ (fun a => (let '(r, p) := a in map (world_of dm len corner per r p) (match aget (kepts r) p with Some k => k | None => [] end))
        ++ (let '(r, p) := a in flat_map (fun s => map (Wd s) (contents sbs s)) (filter (meant_for dm r p) (buffers dm size))))); intros [r p] _; apply Permutation_refl|].
      etransitivity; [|symmetry; apply (perm_flat_ext _ (fun a => (let '(r, p) := a in map (world_of dm len corner per r p) (match aget (kepts r) p with Some k => k | None => [] end))
        ++ (let '(r, p) := a in flat_map (fun dir => map (Wd (r, p, dir)) (contents sbs (r, p, dir))) dirs27))); intros [r p] _; apply Permutation_refl].
      rewrite !perm_flat_app. apply Permutation_app_head.
      transitivity (flat_map (fun s => map (Wd s) (contents sbs s)) (filter (delivered dm) (buffers dm size))).
      { rewrite <- (Permutation_flat_map _ (all_meant c np gdims per pr size dm Hpos Hset Hcnt Hproc)). rewrite flat_map_flat.
        apply perm_flat_ext. intros [r p] _. apply Permutation_refl. }
      transitivity (flat_map (fun s => map (Wd s) (contents sbs s)) (buffers dm size)).
      { rewrite flat_filter. apply perm_flat_ext. intros [[r p] dir] Hb. unfold delivered. destruct (dest dm (r, p, dir)) as [[r' p']|] eqn:Ed; [apply Permutation_refl|].
        apply in_buffers in Hb. destruct Hb as [Hv Hd]. destruct (at_patch r p Hv) as [info [b [k [s [_ [_ [_ [Es [_ [_ [HS _]]]]]]]]]]].
        rewrite (CT _ _ _ _ Es). destruct (s (dir2idx dir)) as [|q l] eqn:El; [constructor|]. exfalso.
        destruct (HS dir q Hd) as [r' [p' [_ [E _]]]]; [rewrite El; now left|]. congruence. }
      rewrite buffers_eq. unfold patch_list. rewrite !flat_map_flat. apply perm_flat_ext. intros r _. rewrite flat_map_map', flat_map_flat. apply perm_flat_ext. intros p _.
      rewrite flat_map_map'. apply Permutation_refl.
    - intros r p info b q Hv Ei Eb Hq. destruct (at_patch r p Hv) as [info' [b' [k [s [Ei' [_ [Ek [_ [_ [HK _]]]]]]]]]].
      rewrite Ei in Ei'. injection Ei' as <-. destruct (HR r (proj1 Hv) p k Ek) as [new [E HP]]. rewrite E in Eb. injection Eb as <-.
      apply in_app_iff in Hq. destruct Hq as [Hq|Hq]; [apply HK; exact Hq|]. apply (Permutation_in _ HP) in Hq. apply in_flat_map in Hq.
      destruct Hq as [[[r' p'] dir] [Hs Hq]]. apply filter_In in Hs. destruct Hs as [Hs Hm]. apply meant_for_iff in Hm. apply in_buffers in Hs. destruct Hs as [Hv' Hd].
      destruct (at_patch r' p' Hv') as [info1 [b1 [k1 [s1 [_ [_ [_ [Es [_ [_ [HS _]]]]]]]]]]]. rewrite (CT _ _ _ _ Es) in Hq.
      destruct (HS dir q Hd Hq) as [r2 [p2 [info2 [E1 [E2 E3]]]]]. rewrite Hm in E1. injection E1 as <- <-. rewrite Ei in E2. injection E2 as <-. exact E3.
  Qed.
End Global.
