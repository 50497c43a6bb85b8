(** Proofs for C70. *)
From Coq Require Import Reals Lra Lia Permutation FunctionalExtensionality.
From Verif Require CollisionProofs.
From Verif Require Import Base Arr RSum DomainModel DomainSpec DomainProofs MpiModel BndPrtModel DdcPrtSpec GhostModel GhostProofs FieldModel FieldSpec DepositModel DepositSpec DepositProofs DepositProps CurrentModel CurrentProofs
  EsirkProps AvgSpec CudaCurrModel CudaCurrProofs AvgProps PushModel CudaPrtModel CudaPrtSpec CudaPrtProofs CudaPrtProps CudaLaunchModel CudaLaunchSpec CudaLaunchProps
  GaussModel GaussSpec GaussProofs GaussProps CudaGaussModel CudaGaussSpec.
Local Open Scope R_scope.

Lemma aget_map_idx {A B} (f : Z -> A -> B) (l : list A) p : aget (map (fun ib => f (fst ib) (snd ib)) (combine (zrange 0 (alen l)) l)) p = option_map (f p) (aget l p).
Proof.
  assert (G : forall (l : list A) k, (0 <= p)%Z -> aget (map (fun ib => f (fst ib) (snd ib)) (combine (zrange k (k + alen l)) l)) p = option_map (f (k + p)%Z) (aget l p)).
  { clear l. intros l. intros k Hp. destruct (Z_lt_dec p (alen l)) as [H|H].
    - destruct (aget_some l p) as [a Ea]; [lia|]. rewrite Ea. cbn [option_map]. rewrite aget_map.
      assert (E : aget (combine (zrange k (k + alen l)) l) p = Some (k + p, a)%Z).
      { pose proof Ea as Eb. unfold aget in *. destruct ((p <? 0)%Z) eqn:E0; [discriminate|]. 
        assert (X : nth_error (zrange k (k + alen l)) (Z.to_nat p) = Some (k + p)%Z).
        { pose proof (aget_zrange k (k + alen l) p) as Y. unfold aget in Y. rewrite E0 in Y. rewrite Y.
          replace ((0 <=? p) && (p <? k + alen l - k))%Z with true; [reflexivity|]. symmetry. apply andb_true_intro. split; [apply Z.leb_le|apply Z.ltb_lt]; lia. }
        revert X Eb. generalize (Z.to_nat p). generalize (zrange k (k + alen l)). clear. intros zs n. revert zs l. induction n as [|n IH]; intros [|z zs] [|y l]; cbn; try discriminate.
        - intros [= ->] [= ->]. reflexivity.
        - apply IH. }
      rewrite E. reflexivity.
    - assert (E : aget l p = None) by (destruct (aget l p) eqn:E; [pose proof (aget_bounds _ _ _ E); lia|reflexivity]). rewrite E. cbn [option_map].
      match goal with |- ?a = None => destruct a eqn:E2; [|reflexivity] end. apply aget_bounds in E2. rewrite alen_map in E2. unfold alen in *. rewrite combine_length in E2. lia. }
  destruct (Z_le_dec 0 p) as [Hp|Hp].
  - specialize (G l 0%Z Hp). exact G.
  - assert (N : forall (C : Type) (l' : list C), aget l' p = None) by (intros C l'; destruct (aget l' p) eqn:E; [pose proof (aget_bounds _ _ _ E); lia|reflexivity]). rewrite !N. reflexivity.
Qed.

Lemma alen_map_idx {A B} (f : Z -> A -> B) (l : list A) : alen (map (fun ib => f (fst ib) (snd ib)) (combine (zrange 0 (alen l)) l)) = alen l.
Proof. rewrite alen_map. pose proof (alen_zrange 0 (alen l) (alen_nonneg l)) as H. unfold alen in *. rewrite combine_length. lia. Qed.

(** the current of tagged particles: that of a patch is made of the entries of its particles *)
Lemma current_tag g (jof : Z -> particle R -> list entry) (bufs : list (list (particle R))) p d n :
  current_of jof (tag g bufs) p d n = jcur (if (0 <=? p) && (p <? g_np g) then flat_map (jof p) (match aget bufs p with Some b => b | None => [] end) else [])%Z d n.
Proof.
  unfold current_of, tag.
  assert (A : forall zs, rsum (map (fun w => if (fst w =? p)%Z then cadd_all (fun _ _ => 0) (jof p (snd w)) d n else 0)
     (concat (map (fun p => match aget bufs p with Some l => map (fun x => (p, x)) l | None => [] end) zs))) =
     rsum (map (fun k => if (k =? p)%Z then jcur (flat_map (jof p) (match aget bufs p with Some b => b | None => [] end)) d n else 0) zs)).
  { intros zs. induction zs as [|k zs IH]; [reflexivity|]. cbn [map concat]. rewrite map_app, rsum_app, IH, rsum_cons. f_equal. clear IH. destruct (k =? p)%Z eqn:E.
    - apply Z.eqb_eq in E. subst k. destruct (aget bufs p) as [l|]; [|reflexivity]. rewrite map_map. cbn [fst snd]. rewrite Z.eqb_refl.
      induction l as [|x l IHl]; [reflexivity|]. cbn [map flat_map]. rewrite rsum_cons, IHl, jcur_app, cadd_all_get. ring.
    - destruct (aget bufs k) as [l|]; [|reflexivity]. rewrite map_map. cbn [fst snd]. rewrite E. apply rsum_zero. reflexivity. }
  rewrite A. clear A.
  destruct ((0 <=? p) && (p <? g_np g))%Z eqn:E.
  - apply andb_true_iff in E. rewrite Z.leb_le, Z.ltb_lt in E. destruct E as [E1 E2]. set (v := jcur _ d n). 
    replace (zrange 0 (g_np g)) with (zrange 0 p ++ p :: zrange (p + 1) (g_np g)).
    2:{ symmetry. rewrite (CollisionProofs.zrange_split 0 p (g_np g)) by lia. f_equal. apply zrange_cons. lia. }
    rewrite map_app, rsum_app. cbn [map]. rewrite rsum_cons, Z.eqb_refl.
    rewrite (rsum_ext _ (fun _ => 0) (zrange 0 p)), (rsum_ext _ (fun _ => 0) (zrange (p + 1) (g_np g))).
    + rewrite !rsum_zero by reflexivity. ring.
    + intros k Hk. apply in_zrange in Hk. destruct (k =? p)%Z eqn:Ek; [apply Z.eqb_eq in Ek; lia|reflexivity].
    + intros k Hk. apply in_zrange in Hk. destruct (k =? p)%Z eqn:Ek; [apply Z.eqb_eq in Ek; lia|reflexivity].
  - rewrite (rsum_ext _ (fun _ => 0)); [rewrite rsum_zero by reflexivity; reflexivity|].
    intros k Hk. apply in_zrange in Hk. destruct (k =? p)%Z eqn:Ek; [|reflexivity]. apply Z.eqb_eq in Ek. subst k.
    apply andb_false_iff in E. rewrite Z.leb_gt, Z.ltb_ge in E. lia.
Qed.

Section Gpu.
  Variables (S : setting) (c : curve) (np gdims : V3 Z) (per : V3 bool) (pr : option (list Z)).
  Hypothesis HR : periodic_run S c np gdims per pr.
  Variables (dep : deposit) (bs : V3 Z).
  Hypothesis Hsch : s_sch S = sch_cuda dep bs.
  Hypothesis Hfit : blocks_fit S bs.

  Local Notation inv := (invar_of (s_dim S)).

  Lemma g_wf : wf_grid (fgrid_of S).
  Proof.
    pose proof HR as [(H1 & H2 & H3 & H4) (H5 & H6 & H7 & H8 & H9)].
    apply (wf_gridS S c np gdims per pr); try assumption; first [exact (fct_inv S c np gdims per pr HR)|exact (fct_ibn S c np gdims per pr HR)|exact (fct_step S c np gdims per pr HR)|intros d; apply (H7 d)|intros d; apply (H5 d)].
  Qed.

  Lemma g_geom r : (0 <= r < s_size S)%Z -> geom_ok (geom_of S bs r).
  Proof.
    intros Hr. destruct Hfit as (B1 & B2 & B3). destruct (B2 r Hr) as [B4 B5]. constructor; cbn [geom_of g_np g_bs g_ldims g_yz].
    - exact B4.
    - intros d. apply B1.
    - intros d. pose proof (g_wf d) as (W & _). cbn [fgrid_of ldims] in W. pose proof HR as [(H1 & H2 & H3 & H4) (H5 & H6 & H7 & H8 & H9)]. destruct (H7 d) as (_ & _ & [_ U] & _).
      pose proof (f_equal (fun v => get3 v d) (ld_eq c np gdims per pr _ _ H2)) as E. cbv beta in E. rewrite get3_gen3 in E. rewrite E in *. split; [exact W|]. clear - U. lia.
    - intros d. apply B1.
    - intros Hyz. assert (E : s_dim S = dim_yz) by (destruct (s_dim S); congruence).
      pose proof (g_wf D0) as (_ & _ & W). cbn [fgrid_of ldims invar] in W. rewrite E in W. cbn [invar_of get3 c0] in W. destruct W as [W _].
      pose proof (B1 D0) as [X1 X2]. cbn [get3] in X1, X2. rewrite W in *. apply Z.divide_pos_le in X2; lia.
    - exact B5.
  Qed.

  Lemma g_step x u : short_step inv (scaled S x) (arrival (cgrid_of S) (calc_v u) (scaled S x)).
  Proof.
    pose proof HR as [(H1 & H2 & H3 & H4) (H5 & H6 & H7 & H8 & H9)].
    pose proof (arrival_scaled S c np gdims per pr H2 (fun d => proj1 (H7 d)) (fct_inv S c np gdims per pr HR) (fun d => proj1 (proj2 (H7 d))) (fct_step S c np gdims per pr HR) x (calc_v u)) as A.
    pose proof (shorter_short S _ _ (step_shorter S c np gdims per pr H2 (fun d => proj1 (H7 d)) (fct_inv S c np gdims per pr HR) (fun d => proj1 (proj2 (H7 d))) H8 (fct_step S c np gdims per pr HR) x u)) as B.
    intros e He. rewrite (A e He). exact (B e He).
  Qed.

  Lemma g_cg : wf_cg (cgrid_of S).
  Proof. intros e. pose proof (g_wf e) as (_ & W & _). cbn [fgrid_of FieldModel.dx cgrid_of cg_dx] in *. lra. Qed.

  (** the entries of one particle *)
  Definition jent (u : V3 R) (q : particle R) : list entry :=
    match calc_j (s_sch S) (s_dim S) (cgrid_of S) (p_t q) (scaled S (p_x q)) (scaled S (p_x (gmoved S u q))) (calc_v u) with Some l => l | None => [] end.

  Lemma g_push_one u q : inside_patch S (p_x q) -> push_one S u q = Some (gmoved S u q, jent u q) /\ forallb (entry_stored S) (jent u q) = true.
  Proof.
    intros I. pose proof HR as [(H1 & H2 & H3 & H4) (H5 & H6 & H7 & H8 & H9)].
    destruct (push_one_ok S c np gdims per pr H1 H2 (fun d => proj1 (H5 d)) (fun d => proj1 (H7 d)) (fct_inv S c np gdims per pr HR) (fct_ibn S c np gdims per pr HR) (fun d => proj1 (proj2 (H7 d))) H6 H8
      (fct_step S c np gdims per pr HR) (fun d => proj1 (proj2 (H5 d))) (fun d => proj2 (proj2 (H5 d))) (fun d => proj2 (proj1 (proj2 (proj2 (H7 d)))))) with (u := u) (q := q) as (q' & l & E & _ & St).
    - rewrite Hsch. exact Logic.I.
    - rewrite Hsch. exact Logic.I.
    - exact I.
    - assert (E2 : push_one S u q = option_map (fun l => (gmoved S u q, l)) (calc_j (s_sch S) (s_dim S) (cgrid_of S) (p_t q) (scaled S (p_x q)) (scaled S (p_x (gmoved S u q))) (calc_v u))) by reflexivity.
      unfold jent. destruct (calc_j _ _ _ _ _ _ _) as [l'|]; rewrite E2 in E; [|discriminate]. cbn [option_map] in *. injection E as _ ->. split; [exact E2|exact St].
  Qed.

  Lemma g_push_patch (un : particle R -> V3 R) : forall b, (forall q, In q b -> inside_patch S (p_x q)) ->
    push_patch S (map un b) b = Some (map (fun q => gmoved S (un q) q) b, flat_map (fun q => jent (un q) q) b).
  Proof.
    induction b as [|q b IH]; intros H; [reflexivity|]. cbn [map push_patch flat_map].
    destruct (g_push_one (un q) q (H q (or_introl eq_refl))) as [-> ->]. rewrite IH by (intros q' Hq'; apply H; right; exact Hq'). reflexivity.
  Qed.

  Lemma busy_tag r P : particles_inside S P -> busy S P -> (0 <= r < s_size S)%Z -> tag (geom_of S bs r) (P r) <> [].
  Proof.
    intros [HL _] HB Hr E. destruct (HB r Hr) as (b & q & Hb & Hq). destruct (In_nth_error _ _ Hb) as [n En].
    assert (Ea : aget (P r) (Z.of_nat n) = Some b) by (unfold aget; replace (Z.of_nat n <? 0)%Z with false by (symmetry; apply Z.ltb_ge; lia); rewrite Nat2Z.id; exact En).
    assert (X : In (Z.of_nat n, q) (tag (geom_of S bs r) (P r))).
    { unfold tag. apply in_concat. exists (map (fun x => (Z.of_nat n, x)) b). split; [|apply in_map; exact Hq]. apply in_map_iff. exists (Z.of_nat n). rewrite Ea. split; [reflexivity|].
      apply in_zrange. pose proof (aget_bounds _ _ _ Ea) as B. cbn [geom_of g_np]. rewrite <- (HL r Hr). exact B. }
    rewrite E in X. destruct X.
  Qed.

  (** what the kernels leave *)
  Lemma g_current r (un : Z -> particle R -> V3 R) cm0 P J0 : particles_inside S P -> busy S P -> (0 <= r < s_size S)%Z ->
    represents (cell_of (gposn S)) (geom_of S bs r) cm0 (tag (geom_of S bs r) (P r)) ->
    (exists res, gpu_current S dep bs r un cm0 J0 res) /\ forall res, gpu_current S dep bs r un cm0 J0 res ->
    exists J, res = Some J /\ forall p d n, J p d n = current_of (fun p q => jent (un p q) q) (tag (geom_of S bs r) (P r)) p d n.
  Proof.
    intros HP HB Hr rep. pose proof (busy_tag r P HP HB Hr) as NE. pose proof (g_geom r Hr) as ok.
    pose proof HR as [(H1 & H2 & H3 & H4) (H5 & H6 & H7 & H8 & H9)]. destruct Hfit as (B1 & B2 & B3). pose proof g_step as GS. pose proof (fct_inv S c np gdims per pr HR) as FI.
    assert (CI : forall q, gen3 (fun d => get3 (blkpos (geom_of S bs r) (cell_of (gposn S) q)) d * get3 (g_bs (geom_of S bs r)) d)%Z =
      gen3 (fun e => get3 (gen3 (fun e => fint (get3 (scaled S (p_x q)) e))) e / get3 bs e * get3 bs e)%Z).
    { intros q. apply v3_ext. intros d. rewrite !get3_gen3. unfold blkpos. rewrite get3_gen3. unfold cell_of. rewrite get3_gen3. reflexivity. }
    unfold gpu_current, jent. rewrite Hsch. destruct H6 as [E|E].
    - rewrite E in *.
      assert (HI : forall d, (2 <= get3 (s_ibn S) d)%Z) by (intros d; specialize (FI d); destruct d; exact FI).
      destruct (C63_global (gposn S) p_t (fun p q => calc_v (un p q)) 4 (cgrid_of S) (geom_of S bs r) (s_ibn S) cm0 (tag (geom_of S bs r) (P r)) J0 None (Nat.le_refl 4) ok HI g_cg rep NE) as [X _].
      { intros p x _. apply GS. }
      split; [exact X|]. intros res H.
      destruct (C63_global (gposn S) p_t (fun p q => calc_v (un p q)) 4 (cgrid_of S) (geom_of S bs r) (s_ibn S) cm0 (tag (geom_of S bs r) (P r)) J0 res (Nat.le_refl 4) ok HI g_cg rep NE) as [_ Y].
      { intros p x _. apply GS. }
      destruct (Y H) as (J & -> & _ & _ & EJ). exists J. split; [reflexivity|]. intros p d n. rewrite EJ. unfold current_of. apply rsum_ext. intros w _. destruct (fst w =? p)%Z; [|reflexivity]. cbn [calc_j]. rewrite CI. reflexivity.
    - rewrite E in *. destruct (B3 eq_refl) as (B4 & B5 & B6).
      assert (HI : (0 <= c0 (s_ibn S) /\ 2 <= c1 (s_ibn S) /\ 2 <= c2 (s_ibn S))%Z).
      { pose proof (FI D0) as F0. pose proof (FI D1) as F1. pose proof (FI D2) as F2. cbn [invar_of get3 c0 c1 c2] in F0, F1, F2. clear - F0 F1 F2. lia. }
      assert (Y : g_yz (geom_of S bs r) = true) by (unfold geom_of; cbn [g_yz]; rewrite E; reflexivity).
      destruct (C63_shared (gposn S) p_t (fun p q => calc_v (un p q)) dep (cgrid_of S) (geom_of S bs r) (s_ibn S) cm0 (tag (geom_of S bs r) (P r)) J0 None ok Y B4 B5 B6 HI g_cg rep NE) as [X _].
      { intros p x _. apply GS. }
      split; [exact X|]. intros res H.
      destruct (C63_shared (gposn S) p_t (fun p q => calc_v (un p q)) dep (cgrid_of S) (geom_of S bs r) (s_ibn S) cm0 (tag (geom_of S bs r) (P r)) J0 res ok Y B4 B5 B6 HI g_cg rep NE) as [_ Z].
      { intros p x _. apply GS. }
      destruct (Z H) as (J & -> & _ & _ & _ & EJ). exists J. split; [reflexivity|]. intros p d n. rewrite EJ. unfold current_of. apply rsum_ext. intros w _. destruct (fst w =? p)%Z; [|reflexivity]. cbn [calc_j]. rewrite CI. reflexivity.
  Qed.

  Lemma inside_of P r p b q : particles_inside S P -> (0 <= r < s_size S)%Z -> aget (P r) p = Some b -> In q b -> inside_patch S (p_x q).
  Proof.
    intros [HL HI] Hr Eb Hq d. pose proof (aget_bounds _ _ _ Eb) as B. rewrite (HL r Hr) in B. unfold spacing. rewrite get3_gen3. exact (HI r p b q (conj Hr B) Eb Hq d).
  Qed.

  Lemma g_pushed un cs F P F' P' : particles_inside S P -> busy S P -> stores_hold S bs cs P -> gpu_pushed S dep bs un cs F P F' P' ->
    pushed S (fun r p => map (un r p) (patch_prts P r p)) F P F' P'.
  Proof.
    intros HP HB HS H.
    exists (fun r p => if (0 <=? p) && (p <? patches_of (s_dm S) r) then flat_map (fun q => jent (un r p q) q) (patch_prts P r p) else [])%Z.
    intros r Hr. destruct (H r Hr) as ((J & G & EF) & EL & EP). split; [|split; [exact EL|]].
    - rewrite EF. destruct (g_current r (un r) (cs r) P (fun p d i => F r p (comp QJ d) i) HP HB Hr (HS r Hr)) as [_ K]. destruct (K _ G) as (J' & E & EJ). injection E as <-.
      apply functional_extensionality. intros p. apply functional_extensionality. intros m. apply functional_extensionality. intros i. unfold with_current. destruct (qty_of m); try reflexivity.
      rewrite EJ, current_tag, cadd_all_get. unfold patch_prts. cbn [geom_of g_np]. ring.
    - intros p b Eb. exists (map (fun q => gmoved S (un r p q) q) b). split; [exact (EP p b Eb)|]. pose proof (aget_bounds _ _ _ Eb) as B. rewrite (proj1 HP r Hr) in B.
      replace ((0 <=? p) && (p <? patches_of (s_dm S) r))%Z with true by (symmetry; apply andb_true_intro; split; [apply Z.leb_le|apply Z.ltb_lt]; lia).
      unfold patch_prts. rewrite Eb. apply (g_push_patch (un r p)). intros q Hq. exact (inside_of P r p b q HP Hr Eb Hq).
  Qed.

  Lemma g_run F P F' P' : single_valued S QE F -> particles_inside S P -> gpu_run S dep bs F P F' P' -> run S F P F' P'.
  Proof.
    intros HE HP H. induction H as [F P|un cs F P F1 P1 Fa Pa F2 P2 H IH HB HS HU (G2 & G3 & G4 & G5 & HA)|F P F1 P1 P2 H IH HS].
    - apply run_refl.
    - specialize (IH HE HP). destruct (gauss_run S c np gdims per pr HR F P F1 P1 (fun _ _ _ => 0) (fun _ _ _ => 0) HE HP IH) as [[_ HP1] _].
      apply (run_step S (fun r p => map (un r p) (patch_prts P1 r p)) F P F1 P1 F2 P2 IH). exists Fa, Pa, G2, G3, G4, G5. split; [|exact HA]. exact (g_pushed un cs F1 P1 Fa Pa HP1 HB HS HU).
    - exact (run_shuffle S F P F1 P1 P2 (IH HE HP) HS).
  Qed.

  Lemma g_stores P : particles_inside S P -> exists cs, stores_hold S bs cs P.
  Proof.
    intros HP. set (dP := mkP (v3 0 0 0) (v3 0 0 0) 0 : particle R).
    exists (fun r => match exec_run (cell_of (gposn S)) dP (fun x => x) (geom_of S bs r) (fresh (geom_of S bs r)) [Inject (P r)] with Some (c0, _) => c0 | None => fresh (geom_of S bs r) end).
    intros r Hr.
    destruct (C58_run (particle R) (cell_of (gposn S)) dP (fun x => x) (geom_of S bs r) [Inject (P r)] (g_geom r Hr)) as (cm0 & outs & E & rep & _).
    - split; [|exact Logic.I]. split; [cbn [geom_of g_np]; exact (proj1 HP r Hr)|]. intros l x Hl Hx d. destruct (In_nth_error _ _ Hl) as [n En].
      assert (Ea : aget (P r) (Z.of_nat n) = Some l) by (unfold aget; replace (Z.of_nat n <? 0)%Z with false by (symmetry; apply Z.ltb_ge; lia); rewrite Nat2Z.id; exact En).
      pose proof (inside_of P r _ l x HP Hr Ea Hx d) as I. pose proof HR as [(_ & H2 & _) (_ & _ & H7 & _)]. pose proof (dx_pos S c np gdims per pr H2 (fun d => proj1 (H7 d)) (fun d => proj1 (proj2 (H7 d))) d) as W. unfold cell_of. rewrite get3_gen3. unfold gposn. rewrite get3_gen3. cbn [geom_of g_ldims].
      assert (V : 0 < / get3 (spacing S) d) by (apply Rinv_0_lt_compat; exact W). split.
      + apply fint_bounds. unfold Rdiv. apply Rmult_le_pos; lra.
      + apply fint_bounds_hi. apply (Rmult_lt_reg_r (get3 (spacing S) d)); [lra|]. unfold Rdiv. rewrite Rmult_assoc, Rinv_l by lra. lra.
    - rewrite E. exact rep.
  Qed.

  (** a push can be made, and the rest of the step *)
  Lemma g_progress un cs F P : single_valued S QE F -> particles_inside S P -> busy S P -> stores_hold S bs cs P ->
    exists Fa Pa F' P', gpu_pushed S dep bs un cs F P Fa Pa /\ after_push S Fa Pa F' P'.
  Proof.
    intros HE HP HB HS.
    set (Pa := fun r => map (fun ib => (fun p b => map (fun q => gmoved S (un r p q) q) b) (fst ib) (snd ib)) (combine (zrange 0 (alen (P r))) (P r))).
    set (J := fun r p d n => current_of (fun p q => jent (un r p q) q) (tag (geom_of S bs r) (P r)) p d n).
    set (Fa := (fun r => (fun p m i => match qty_of m with QJ => J r p (dim_of m) i | _ => F r p m i end)) : Z -> flds R).
    assert (HU : gpu_pushed S dep bs un cs F P Fa Pa).
    { intros r Hr. split; [|split].
      - destruct (g_current r (un r) (cs r) P (fun p d i => F r p (comp QJ d) i) HP HB Hr (HS r Hr)) as [[res HX] K]. destruct (K res HX) as (J' & -> & EJ). exists J'. split; [exact HX|].
        assert (E : J r = J') by (apply functional_extensionality; intros p; apply functional_extensionality; intros d; apply functional_extensionality; intros n; symmetry; apply EJ).
        unfold Fa. rewrite E. reflexivity.
      - exact (alen_map_idx (fun p b => map (fun q => gmoved S (un r p q) q) b) (P r)).
      - intros p b Eb. etransitivity; [exact (aget_map_idx (fun p b => map (fun q => gmoved S (un r p q) q) b) (P r) p)|]. rewrite Eb. reflexivity. }
    pose proof (g_pushed un cs F P Fa Pa HP HB HS HU) as HQ. pose proof HR as [(H1 & H2 & H3 & H4) (H5 & H6 & H7 & H8 & H9)].
    destruct (rest_exists S c np gdims per pr H1 H2 H3 H4 (fun d => proj1 (H5 d)) (fun d => proj1 (H7 d)) (fct_inv S c np gdims per pr HR) (fct_ibn S c np gdims per pr HR) (fun d => proj1 (proj2 (H7 d))) H6 H8
      (fct_step S c np gdims per pr HR) (fun d => proj1 (proj2 (H5 d))) (fun d => proj2 (proj2 (H5 d))) (fun d => proj2 (proj1 (proj2 (proj2 (H7 d))))) H9 _ F P Fa Pa (proj2 (fct_good S F P HE HP)) HQ) as (F' & P' & K).
    exists Fa, Pa, F', P'. split; [exact HU|exact K].
  Qed.
End Gpu.
