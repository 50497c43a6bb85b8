From Coq Require Import NArith.
From Verif Require Import Base HilbertModel HilbertProofs DomainModel DomainSpec.
Local Open Scope Z_scope.

(** ** Ownership *)

Lemma off_all_nth counts : forall acc k, (k <= length counts)%nat ->
  nth_error (gpatch_off_all_from acc counts) k = Some (acc + zsum (firstn k counts)).
Proof.
  induction counts as [|c cs IH]; intros acc [|k] Hk; cbn [gpatch_off_all_from nth_error firstn zsum].
  - f_equal. lia.
  - simpl in Hk. lia.
  - f_equal. lia.
  - simpl in Hk. rewrite IH by lia. f_equal. lia.
Qed.

Lemma off_all_length counts : forall acc, length (gpatch_off_all_from acc counts) = S (length counts).
Proof. induction counts as [|c cs IH]; intros acc; cbn; [reflexivity|]. now rewrite IH. Qed.

Lemma search_found counts : forall acc i r p gp,
  Forall (fun c => 0 <= c) counts ->
  nth_error counts r <> None ->
  (exists c, nth_error counts r = Some c /\ 0 <= p < c) ->
  gp = acc + zsum (firstn r counts) + p ->
  gpatch_to_rank_patch_from i (gpatch_off_all_from acc counts) gp = Some (i + Z.of_nat r, p).
Proof.
  induction counts as [|c cs IH]; intros acc i r p gp Hc _ [c' [Hr Hp]] Hgp.
  - destruct r; discriminate.
  - inversion Hc as [|? ? Hc0 Hcs]; subst.
    cbn [gpatch_off_all_from gpatch_to_rank_patch_from].
    assert (Hh : exists tl, gpatch_off_all_from (acc + c) cs = (acc + c) :: tl)
      by (destruct cs; cbn; eauto).
    destruct Hh as [tl Htl]. rewrite Htl. rewrite <- Htl.
    destruct r as [|r]; cbn [nth_error firstn zsum] in *.
    + injection Hr as ->. destruct (Z.ltb_spec (acc + 0 + p) (acc + c')); [|lia].
      f_equal. f_equal; lia.
    + assert (0 <= zsum (firstn r cs)).
      { apply zsum_nonneg. rewrite Forall_forall in *. intros x Hx. apply Hcs.
        rewrite <- (firstn_skipn r cs). apply in_or_app. auto. }
      destruct (Z.ltb_spec (acc + (c + zsum (firstn r cs)) + p) (acc + c)); [lia|].
      rewrite (IH (acc + c) (i + 1) r p); try assumption.
      * f_equal. f_equal. lia.
      * congruence.
      * eauto.
      * lia.
Qed.

Lemma exists_owner counts : forall gp, Forall (fun c => 0 <= c) counts ->
  0 <= gp < zsum counts -> exists r p, owns counts r p gp.
Proof.
  induction counts as [|c cs IH]; intros gp Hc Hgp; cbn [zsum] in Hgp; [lia|].
  inversion Hc as [|? ? Hc0 Hcs]; subst.
  destruct (Z.lt_ge_cases gp c) as [H|H].
  - exists 0, gp. split; [lia|]. exists c. cbn. repeat split; lia.
  - destruct (IH (gp - c) Hcs ltac:(lia)) as [r [p [Hr [c' [Hn [Hp He]]]]]].
    exists (r + 1), p. split; [lia|]. exists c'.
    replace (Z.to_nat (r + 1)) with (S (Z.to_nat r)) by lia. cbn [nth_error firstn zsum].
    repeat split; try assumption; lia.
Qed.

Lemma lookup_complete counts r p gp :
  Forall (fun c => 0 <= c) counts -> owns counts r p gp ->
  gpatch_to_rank_patch (gpatch_off_all_from 0 counts) gp = Some (r, p).
Proof.
  intros Hc [Hr [c [Hn [Hp ->]]]]. unfold gpatch_to_rank_patch.
  rewrite (search_found counts 0 0 (Z.to_nat r) p).
  - f_equal. f_equal. lia.
  - exact Hc.
  - congruence.
  - eauto.
  - lia.
Qed.

Lemma lookup_correct counts gp :
  Forall (fun c => 0 <= c) counts -> 0 <= gp < zsum counts ->
  exists r p, gpatch_to_rank_patch (gpatch_off_all_from 0 counts) gp = Some (r, p)
              /\ owns counts r p gp
              /\ forall r' p', owns counts r' p' gp -> r' = r /\ p' = p.
Proof.
  intros Hc Hgp. destruct (exists_owner counts gp Hc Hgp) as [r [p Ho]].
  exists r, p. pose proof (lookup_complete _ _ _ _ Hc Ho) as E.
  split; [exact E|]. split; [exact Ho|].
  intros r' p' Ho'. pose proof (lookup_complete _ _ _ _ Hc Ho') as E'.
  rewrite E in E'. injection E' as -> ->. auto.
Qed.

Lemma search_fails counts : forall acc i gp,
  Forall (fun c => 0 <= c) counts -> acc + zsum counts <= gp ->
  gpatch_to_rank_patch_from i (gpatch_off_all_from acc counts) gp = None.
Proof.
  induction counts as [|c cs IH]; intros acc i gp Hc Hgp; [reflexivity|].
  inversion Hc as [|? ? Hc0 Hcs]; subst. cbn [zsum] in Hgp.
  cbn [gpatch_off_all_from gpatch_to_rank_patch_from].
  assert (Hh : exists tl, gpatch_off_all_from (acc + c) cs = (acc + c) :: tl)
    by (destruct cs; cbn; eauto).
  destruct Hh as [tl Htl]. rewrite Htl. rewrite <- Htl.
  pose proof (zsum_nonneg cs Hcs).
  destruct (Z.ltb_spec gp (acc + c)); [lia|]. apply IH; [assumption|lia].
Qed.

Lemma zsum_default q r n : 0 <= n -> 0 <= r ->
  zsum (map (fun i => q + (if i <? r then 1 else 0)) (zrange 0 n)) = q * n + Z.min r n.
Proof.
  intros Hn Hr. pattern n. apply natlike_ind; [|clear n Hn; intros n Hn IH|exact Hn].
  - cbn. lia.
  - unfold Z.succ. rewrite zrange_snoc by exact Hn. rewrite map_app, zsum_app, IH.
    cbn [map zsum]. destruct (Z.ltb_spec n r); lia.
Qed.

Lemma default_counts_spec n size : 0 <= n -> 0 < size ->
  zsum (default_counts n size) = n
  /\ Z.of_nat (length (default_counts n size)) = size
  /\ Forall (fun c => n / size <= c <= n / size + 1 /\ 0 <= c) (default_counts n size).
Proof.
  intros Hn Hs. unfold default_counts. repeat split.
  - rewrite zsum_default by lia. pose proof (Z.mod_pos_bound n size). lia.
  - rewrite map_length, zrange_length. lia.
  - apply Forall_forall. intros x Hx. apply in_map_iff in Hx. destruct Hx as [i [<- _]].
    pose proof (Z.div_pos n size Hn Hs).
    destruct (i <? n mod size); lia.
Qed.

(** ** By-dimension curve *)

Lemma bydim_bijective np : all_pos np ->
  bijective_on np (fun p => Some (sfc_bydim_idx3_to_idx np p))
                  (fun i => Some (sfc_bydim_idx_to_idx3 np i)).
Proof.
  intros Hpos. destruct np as [n0 n1 n2].
  pose proof (Hpos D0) as P0. pose proof (Hpos D1) as P1. pose proof (Hpos D2) as P2.
  unfold bijective_on, volume, sfc_bydim_idx3_to_idx, sfc_bydim_idx_to_idx3. cbn [c0 c1 c2 get3] in *.
  split.
  - intros i Hi. eexists. split; [reflexivity|]. split.
    + intros [| |]; cbn [get3 c0 c1 c2].
      * apply Z.mod_pos_bound; lia.
      * apply Z.mod_pos_bound; lia.
      * split.
        -- apply Z.div_pos; [|lia]. apply Z.div_pos; lia.
        -- apply Z.div_lt_upper_bound; [lia|]. apply Z.div_lt_upper_bound; [lia|]. lia.
    + f_equal. cbn [c0 c1 c2].
      pose proof (Z.div_mod i n0 ltac:(lia)) as E0.
      pose proof (Z.div_mod (i / n0) n1 ltac:(lia)) as E1. nia.
  - intros [p0 p1 p2] Hp. pose proof (Hp D0) as Q0. pose proof (Hp D1) as Q1. pose proof (Hp D2) as Q2.
    cbn [get3 c0 c1 c2] in *. eexists. split; [reflexivity|]. split.
    { assert (0 <= p2 * n1 + p1 < n1 * n2).
      { assert ((p2 + 1) * n1 <= n2 * n1) by (apply Z.mul_le_mono_nonneg_r; lia).
        assert (0 <= p2 * n1) by (apply Z.mul_nonneg_nonneg; lia). lia. }
      set (q := p2 * n1 + p1) in *.
      assert ((q + 1) * n0 <= n1 * n2 * n0) by (apply Z.mul_le_mono_nonneg_r; lia).
      assert (0 <= q * n0) by (apply Z.mul_nonneg_nonneg; lia). lia. }
    f_equal.
    rewrite (Z.add_comm _ p0), Z.mod_add, Z.div_add by lia.
    rewrite (Z.mod_small p0), (Z.div_small p0) by lia. rewrite Z.add_0_l.
    rewrite (Z.add_comm _ p1), Z.mod_add, Z.div_add by lia.
    rewrite (Z.mod_small p1), (Z.div_small p1) by lia. f_equal; lia.
Qed.

(** ** Morton curve *)

Lemma morton_nbits_loop_spec fuel : forall n nb k,
  0 <= nb -> morton_nbits_loop fuel n nb = Some k -> 0 <= k.
Proof.
  induction fuel as [|f IH]; intros n nb k Hnb H; cbn in H; [discriminate|].
  destruct (1 <? n); [|congruence]. apply IH in H; lia.
Qed.

Lemma morton_nbits_sound np k : morton_nbits np = Some k -> 0 <= k /\ np = 2 ^ k.
Proof.
  unfold morton_nbits. destruct (morton_nbits_loop _ _ _) as [nb|] eqn:E; [|discriminate].
  apply morton_nbits_loop_spec in E; [|lia].
  destruct (Z.eqb_spec np (Z.shiftl 1 nb)) as [H|]; [|discriminate].
  intros [= ->]. split; [exact E|]. rewrite H, Z.shiftl_1_l. reflexivity.
Qed.

Lemma morton_nbits_loop_pow2 fuel : forall k nb, 0 <= k -> k < Z.of_nat fuel ->
  morton_nbits_loop fuel (2 ^ k) nb = Some (nb + k).
Proof.
  induction fuel as [|f IH]; intros k nb Hk Hf; [lia|].
  cbn [morton_nbits_loop]. destruct (Z.eq_dec k 0) as [->|Hk0].
  - cbn. f_equal. lia.
  - assert (H2 : 2 ^ k = 2 * 2 ^ (k - 1)).
    { replace k with (Z.succ (k - 1)) at 1 by lia. apply Z.pow_succ_r. lia. }
    assert (0 < 2 ^ (k - 1)) by (apply Z.pow_pos_nonneg; lia).
    destruct (Z.ltb_spec 1 (2 ^ k)); [|lia].
    rewrite Z.shiftr_div_pow2 by lia. change (2 ^ 1) with 2.
    replace (2 ^ k / 2) with (2 ^ (k - 1)) by (apply Z.div_unique_exact; lia).
    rewrite IH by lia. f_equal. lia.
Qed.

Lemma morton_nbits_complete k : 0 <= k -> morton_nbits (2 ^ k) = Some k.
Proof.
  intros Hk. unfold morton_nbits.
  rewrite morton_nbits_loop_pow2.
  - rewrite Z.shiftl_1_l, Z.add_0_l, Z.eqb_refl. reflexivity.
  - exact Hk.
  - assert (k < 2 ^ k) by (apply Z.pow_gt_lin_r; lia). lia.
Qed.

Lemma bit_test x b : 0 <= b -> negb (Z.land x (Z.shiftl 1 b) =? 0) = Z.testbit x b.
Proof.
  intros Hb. rewrite Z.shiftl_1_l.
  destruct (Z.testbit x b) eqn:E.
  - apply negb_true_iff, Z.eqb_neq. intros H.
    assert (F : Z.testbit (Z.land x (2 ^ b)) b = false) by (rewrite H; apply Z.bits_0).
    rewrite Z.land_spec, E, Z.pow2_bits_true in F by lia. discriminate.
  - apply negb_false_iff, Z.eqb_eq. apply Z.bits_inj'. intros n Hn.
    rewrite Z.land_spec, Z.bits_0. destruct (Z.eq_dec n b) as [->|Hne].
    + now rewrite E.
    + rewrite Z.pow2_bits_false by lia. apply andb_false_r.
Qed.

Lemma lt_pow2_bits x n : 0 <= x -> 0 <= n ->
  (forall k, n <= k -> Z.testbit x k = false) -> x < 2 ^ n.
Proof.
  intros Hx Hn H. destruct (Z.lt_ge_cases x (2 ^ n)) as [|Hge]; [assumption|].
  assert (0 < 2 ^ n) by (apply Z.pow_pos_nonneg; lia).
  assert (Hl : n <= Z.log2 x) by (apply Z.log2_le_pow2; lia).
  specialize (H (Z.log2 x) Hl). rewrite Z.bit_log2 in H by lia. discriminate.
Qed.

Lemma bits_lt_pow2 x n k : 0 <= x < 2 ^ n -> n <= k -> Z.testbit x k = false.
Proof.
  intros [H0 H1] Hk. destruct (Z.eq_dec x 0) as [->|Hne]; [apply Z.bits_0|].
  apply Z.bits_above_log2; [lia|]. apply Z.lt_le_trans with n; [|exact Hk].
  apply Z.log2_lt_pow2; lia.
Qed.

Section Morton.
  Variables (nbits : V3 Z) (nbmax : Z).
  Hypothesis Hnb : forall d, 0 <= get3 nbits d <= nbmax.

  (** the (bit, direction) pairs in the order the loops visit them *)
  Definition msteps : list (Z * dim3) :=
    filter (fun bd => negb (get3 nbits (snd bd) <=? fst bd)) (list_prod (zrange 0 nbmax) dims3).

  Lemma in_msteps b d : In (b, d) msteps <-> 0 <= b < get3 nbits d.
  Proof.
    unfold msteps. rewrite filter_In, in_prod_iff, in_zrange. cbn [fst snd].
    pose proof (Hnb d). pose proof (in_dims3 d).
    split.
    - intros [[H1 _] H2]. apply negb_true_iff, Z.leb_gt in H2. lia.
    - intros H1. repeat split; try lia. assumption.
  Qed.

  Lemma NoDup_app_intro {A} (l1 l2 : list A) :
    NoDup l1 -> NoDup l2 -> (forall x, In x l1 -> ~ In x l2) -> NoDup (l1 ++ l2).
  Proof.
    intros H1 H2 Hd. induction H1 as [|a l Hin Hn IH]; cbn; [exact H2|].
    constructor.
    - intros H. apply in_app_or in H. destruct H as [H|H]; [auto|].
      apply (Hd a); [now left|exact H].
    - apply IH. intros x Hx. apply Hd. now right.
  Qed.

  Lemma NoDup_list_prod {A B} (la : list A) (lb : list B) :
    NoDup la -> NoDup lb -> NoDup (list_prod la lb).
  Proof.
    intros Ha Hb. induction Ha as [|a la Hin Ha IH]; cbn [list_prod]; [constructor|].
    apply NoDup_app_intro.
    - apply FinFun.Injective_map_NoDup; [intros x y H; congruence|exact Hb].
    - exact IH.
    - intros [x y] H1 H2. apply in_map_iff in H1. destruct H1 as [z [E _]].
      injection E as <- <-. apply in_prod_iff in H2. tauto.
  Qed.

  Lemma NoDup_dims3 : NoDup dims3.
  Proof. repeat constructor; cbn; intuition congruence. Qed.

  Lemma NoDup_msteps : NoDup msteps.
  Proof.
    apply NoDup_filter, NoDup_list_prod; [apply NoDup_zrange|apply NoDup_dims3].
  Qed.

  Lemma msteps_length : Z.of_nat (length msteps) = c0 nbits + c1 nbits + c2 nbits.
  Proof.
    set (L := map (fun b => (b, D0)) (zrange 0 (c0 nbits))
              ++ map (fun b => (b, D1)) (zrange 0 (c1 nbits))
              ++ map (fun b => (b, D2)) (zrange 0 (c2 nbits))).
    assert (HP : Permutation msteps L).
    { apply NoDup_Permutation.
      - apply NoDup_msteps.
      - unfold L. repeat apply NoDup_app_intro;
          try (apply FinFun.Injective_map_NoDup; [intros x y H; congruence|apply NoDup_zrange]).
        + intros [b d] H1 H2. apply in_map_iff in H1. destruct H1 as [? [E1 _]].
          apply in_map_iff in H2. destruct H2 as [? [E2 _]]. congruence.
        + intros [b d] H1 H2. apply in_map_iff in H1. destruct H1 as [? [E1 _]].
          apply in_app_or in H2. destruct H2 as [H2|H2];
          apply in_map_iff in H2; destruct H2 as [? [E2 _]]; congruence.
      - intros [b d]. rewrite in_msteps. unfold L. rewrite !in_app_iff, !in_map_iff.
        split.
        + intros H. destruct d; cbn [get3] in H;
            [left|right; left|right; right]; exists b; (split; [reflexivity|apply in_zrange; exact H]).
        + intros [[x [E H]]|[[x [E H]]|[x [E H]]]]; injection E as <- <-;
            apply in_zrange in H; exact H. }
    rewrite (Permutation_length HP). unfold L. rewrite !app_length, !map_length, !zrange_length.
    pose proof (Hnb D0). pose proof (Hnb D1). pose proof (Hnb D2). cbn [get3] in *. lia.
  Qed.

  Lemma fold_nested {S} (f : S -> Z * dim3 -> S) (bs : list Z) : forall st,
    fold_left (fun st b => fold_left (fun st d => f st (b, d)) dims3 st) bs st
    = fold_left f (list_prod bs dims3) st.
  Proof.
    induction bs as [|b bs IH]; intros st; [reflexivity|].
    cbn [list_prod]. rewrite fold_left_app. cbn [fold_left]. rewrite IH. reflexivity.
  Qed.

  Lemma fold_skip {S X} (f g : S -> X -> S) (keep : X -> bool) l : forall st,
    (forall st x, f st x = if keep x then g st x else st) ->
    fold_left f l st = fold_left g (filter keep l) st.
  Proof.
    induction l as [|x l IH]; intros st H; [reflexivity|].
    cbn [fold_left filter]. rewrite H. destruct (keep x); cbn [fold_left]; apply IH; exact H.
  Qed.

  Definition enc1 (p : V3 Z) (st : Z * Z) (bd : Z * dim3) : Z * Z :=
    (fst st + 1, if Z.testbit (get3 p (snd bd)) (fst bd)
                 then Z.lor (snd st) (Z.shiftl 1 (fst st)) else snd st).

  Lemma enc_as_fold p : sfc_morton_idx3_to_idx nbits nbmax p =
    snd (fold_left (enc1 p) msteps (0, 0)).
  Proof.
    unfold sfc_morton_idx3_to_idx. f_equal.
    rewrite (fold_nested (fun st bd => morton_enc_step nbits p (fst bd) st (snd bd))).
    assert (G : forall l, Forall (fun bd => 0 <= fst bd) l -> forall st,
      fold_left (fun st bd => morton_enc_step nbits p (fst bd) st (snd bd)) l st
      = fold_left (enc1 p) (filter (fun bd => negb (get3 nbits (snd bd) <=? fst bd)) l) st).
    { induction 1 as [|[b d] l Hb Hl IH]; intros [pos idx]; [reflexivity|].
      cbn [fold_left filter fst snd]. unfold morton_enc_step at 2.
      destruct (get3 nbits d <=? b); cbn [negb fold_left]; rewrite IH; [reflexivity|].
      f_equal. unfold enc1. cbn [fst snd]. rewrite bit_test by exact Hb. reflexivity. }
    apply G. apply Forall_forall. intros [b d] H. apply in_prod_iff in H.
    destruct H as [H _]. apply in_zrange in H. cbn. lia.
  Qed.

  Lemma enc_spec p l : 
    let st := fold_left (enc1 p) l (0, 0) in
    fst st = Z.of_nat (length l) /\ 0 <= snd st /\
    forall k, 0 <= k ->
      Z.testbit (snd st) k =
      match nth_error l (Z.to_nat k) with Some (b, d) => Z.testbit (get3 p d) b | None => false end.
  Proof.
    induction l as [|[b d] l IH] using rev_ind; cbv zeta in *.
    - cbn. split; [reflexivity|]. split; [lia|]. intros k Hk. rewrite Z.bits_0.
      destruct (Z.to_nat k); reflexivity.
    - rewrite fold_left_app. cbn [fold_left]. destruct IH as [IH1 [IH2 IH3]].
      destruct (fold_left (enc1 p) l (0, 0)) as [pos idx]. cbn [fst snd] in *.
      unfold enc1. cbn [fst snd]. rewrite app_length. cbn [length].
      split; [lia|]. split.
      { destruct (Z.testbit _ _); [|exact IH2]. apply Z.lor_nonneg. split; [exact IH2|].
        rewrite Z.shiftl_1_l. apply Z.pow_nonneg. lia. }
      intros k Hk.
      destruct (Z.lt_trichotomy k pos) as [H|[H|H]].
      + rewrite nth_error_app1 by lia. rewrite <- IH3 by lia.
        destruct (Z.testbit (get3 p d) b); [|reflexivity].
        rewrite Z.lor_spec, Z.shiftl_1_l, Z.pow2_bits_false by lia. apply orb_false_r.
      + subst k. rewrite nth_error_app2 by lia.
        replace (Z.to_nat pos - length l)%nat with 0%nat by lia. cbn [nth_error].
        assert (F : Z.testbit idx pos = false).
        { rewrite IH3 by lia. rewrite (proj2 (nth_error_None l (Z.to_nat pos))) by lia. reflexivity. }
        destruct (Z.testbit (get3 p d) b); [|exact F].
        rewrite Z.lor_spec, Z.shiftl_1_l, Z.pow2_bits_true by lia. apply orb_true_r.
      + rewrite (proj2 (nth_error_None (l ++ [(b, d)]) (Z.to_nat k))) by (rewrite app_length; cbn; lia).
        assert (F : Z.testbit idx k = false).
        { rewrite IH3 by lia. rewrite (proj2 (nth_error_None l (Z.to_nat k))) by lia. reflexivity. }
        destruct (Z.testbit (get3 p d) b); [|exact F].
        rewrite Z.lor_spec, F, Z.shiftl_1_l, Z.pow2_bits_false by lia. reflexivity.
  Qed.

  Definition dec1 (idx : Z) (st : Z * V3 Z) (bd : Z * dim3) : Z * V3 Z :=
    (fst st + 1, if Z.testbit idx (fst st)
                 then set3 (snd st) (snd bd) (Z.lor (get3 (snd st) (snd bd)) (Z.shiftl 1 (fst bd)))
                 else snd st).

  Lemma dec_as_fold idx : sfc_morton_idx_to_idx3 nbits nbmax idx =
    snd (fold_left (dec1 idx) msteps (0, v3 0 0 0)).
  Proof.
    unfold sfc_morton_idx_to_idx3. f_equal.
    rewrite (fold_nested (fun st bd => morton_dec_step nbits idx (fst bd) st (snd bd))).
    assert (G : forall l st, 0 <= fst st ->
      fold_left (fun st bd => morton_dec_step nbits idx (fst bd) st (snd bd)) l st
      = fold_left (dec1 idx) (filter (fun bd => negb (get3 nbits (snd bd) <=? fst bd)) l) st).
    { induction l as [|[b d] l IH]; intros [pos p] Hpos; [reflexivity|].
      cbn [fold_left filter fst snd] in *. unfold morton_dec_step at 2.
      destruct (get3 nbits d <=? b); cbn [negb fold_left]; rewrite IH by (cbn; lia); [reflexivity|].
      f_equal. unfold dec1. cbn [fst snd]. rewrite bit_test by exact Hpos. reflexivity. }
    apply G. cbn. lia.
  Qed.

  Lemma dec_spec idx l : Forall (fun bd => 0 <= fst bd) l ->
    let st := fold_left (dec1 idx) l (0, v3 0 0 0) in
    fst st = Z.of_nat (length l) /\ (forall d, 0 <= get3 (snd st) d) /\
    forall b d, 0 <= b ->
      (Z.testbit (get3 (snd st) d) b = true <->
       exists k, 0 <= k /\ nth_error l (Z.to_nat k) = Some (b, d) /\ Z.testbit idx k = true).
  Proof.
    induction l as [|[b0 d0] l IH] using rev_ind; intros Hl; cbv zeta in *.
    - cbn [fold_left fst snd length]. split; [reflexivity|]. split; [intros []; cbn; lia|].
      intros b d Hb. split.
      + destruct d; cbn; rewrite Z.bits_0; discriminate.
      + intros [k [_ [H _]]]. destruct (Z.to_nat k); discriminate.
    - rewrite fold_left_app. cbn [fold_left].
      apply Forall_app in Hl. destruct Hl as [Hl Hb0]. inversion Hb0 as [|? ? Hb0' _]; subst.
      cbn [fst] in Hb0'. destruct (IH Hl) as [IH1 [IH2 IH3]]. clear IH.
      destruct (fold_left (dec1 idx) l _) as [pos p]. cbn [fst snd] in *.
      unfold dec1. cbn [fst snd]. rewrite app_length. cbn [length].
      split; [lia|]. split.
      { intros d. destruct (Z.testbit idx pos); [|apply IH2].
        destruct (dim3_eqb d0 d) eqn:E.
        - apply dim3_eqb_eq in E. subst. rewrite get3_set3_same. apply Z.lor_nonneg.
          split; [apply IH2|]. rewrite Z.shiftl_1_l. apply Z.pow_nonneg. lia.
        - rewrite get3_set3_other; [apply IH2|]. intros ->. rewrite dim3_eqb_refl in E. discriminate. }
      intros b d Hb.
      assert (Hsplit : (exists k, 0 <= k /\ nth_error (l ++ [(b0, d0)]) (Z.to_nat k) = Some (b, d)
                                  /\ Z.testbit idx k = true)
               <-> ((exists k, 0 <= k /\ nth_error l (Z.to_nat k) = Some (b, d) /\ Z.testbit idx k = true)
                    \/ (b = b0 /\ d = d0 /\ Z.testbit idx pos = true))).
      { split.
        - intros [k [Hk [Hn Ht]]].
          destruct (Nat.lt_ge_cases (Z.to_nat k) (length l)) as [Hlt|Hge].
          + rewrite nth_error_app1 in Hn by exact Hlt. left. eauto.
          + rewrite nth_error_app2 in Hn by exact Hge. right.
            destruct (Z.to_nat k - length l)%nat as [|m] eqn:Em.
            * cbn in Hn. injection Hn as -> ->. replace pos with k by lia. auto.
            * cbn in Hn. destruct m; discriminate.
        - intros [[k [Hk [Hn Ht]]]|[-> [-> Ht]]].
          + exists k. split; [exact Hk|]. split; [|exact Ht].
            rewrite nth_error_app1; [exact Hn|]. apply nth_error_Some. congruence.
          + exists pos. split; [lia|]. split; [|exact Ht].
            rewrite nth_error_app2 by lia.
            replace (Z.to_nat pos - length l)%nat with 0%nat by lia. reflexivity. }
      rewrite Hsplit, <- IH3 by exact Hb.
      destruct (Z.testbit idx pos) eqn:Et.
      + destruct (dim3_eqb d0 d) eqn:E.
        * apply dim3_eqb_eq in E. subst d0. rewrite get3_set3_same, Z.lor_spec, orb_true_iff, Z.shiftl_1_l.
          split; intros [H|H]; auto.
          -- right. apply Z.pow2_bits_eqb with (m := b) in Hb0'. rewrite Hb0' in H.
             apply Z.eqb_eq in H. auto.
          -- destruct H as [-> _]. right. apply Z.pow2_bits_true. exact Hb0'.
        * rewrite get3_set3_other by (intros ->; rewrite dim3_eqb_refl in E; discriminate).
          split; [tauto|]. intros [H|[_ [-> _]]]; [exact H|].
          rewrite dim3_eqb_refl in E. discriminate.
      + split; [tauto|]. intros [H|[_ [_ H]]]; [exact H|discriminate].
  Qed.

  Lemma msteps_nonneg : Forall (fun bd => 0 <= fst bd) msteps.
  Proof.
    apply Forall_forall. intros [b d] H. apply in_msteps in H. cbn. lia.
  Qed.

  Lemma morton_dec_enc p : (forall d, 0 <= get3 p d < 2 ^ get3 nbits d) ->
    sfc_morton_idx_to_idx3 nbits nbmax (sfc_morton_idx3_to_idx nbits nbmax p) = p
    /\ 0 <= sfc_morton_idx3_to_idx nbits nbmax p < 2 ^ (c0 nbits + c1 nbits + c2 nbits).
  Proof.
    intros Hp. rewrite dec_as_fold, enc_as_fold.
    pose proof (enc_spec p msteps) as HE. cbv zeta in HE.
    set (idx := snd (fold_left (enc1 p) msteps (0, 0))) in *.
    destruct HE as [_ [HE0 HE]].
    pose proof (dec_spec idx msteps msteps_nonneg) as HD. cbv zeta in HD.
    destruct HD as [_ [HD0 HD]]. split.
    - apply v3_ext. intros d. apply Z.bits_inj'. intros b Hb.
      apply eq_true_iff_eq. rewrite HD by exact Hb. split.
      + intros [k [Hk [Hn Ht]]]. rewrite HE in Ht by exact Hk. rewrite Hn in Ht. exact Ht.
      + intros Ht.
        assert (Hlt : b < get3 nbits d).
        { destruct (Z.lt_ge_cases b (get3 nbits d)); [assumption|].
          rewrite (bits_lt_pow2 _ (get3 nbits d)) in Ht by (apply Hp || assumption). discriminate. }
        assert (Hin : In (b, d) msteps) by (apply in_msteps; lia).
        apply In_nth_error in Hin. destruct Hin as [n Hn].
        exists (Z.of_nat n). split; [lia|]. rewrite Nat2Z.id. split; [exact Hn|].
        rewrite HE by lia. rewrite Nat2Z.id, Hn. exact Ht.
    - split; [exact HE0|]. rewrite <- msteps_length. apply lt_pow2_bits; [exact HE0|lia|].
      intros k Hk. rewrite HE by lia. rewrite (proj2 (nth_error_None _ _)) by lia. reflexivity.
  Qed.

  Lemma morton_enc_dec idx : 0 <= idx < 2 ^ (c0 nbits + c1 nbits + c2 nbits) ->
    sfc_morton_idx3_to_idx nbits nbmax (sfc_morton_idx_to_idx3 nbits nbmax idx) = idx
    /\ forall d, 0 <= get3 (sfc_morton_idx_to_idx3 nbits nbmax idx) d < 2 ^ get3 nbits d.
  Proof.
    intros Hi. rewrite enc_as_fold, dec_as_fold.
    pose proof (dec_spec idx msteps msteps_nonneg) as HD. cbv zeta in HD.
    set (p := snd (fold_left (dec1 idx) msteps (0, v3 0 0 0))) in *.
    destruct HD as [_ [HD0 HD]].
    pose proof (enc_spec p msteps) as HE. cbv zeta in HE.
    destruct HE as [_ [HE0 HE]]. split.
    - apply Z.bits_inj'. intros k Hk. rewrite HE by exact Hk.
      destruct (nth_error msteps (Z.to_nat k)) as [[b d]|] eqn:En.
      + apply eq_true_iff_eq.
        assert (Hb : 0 <= b) by (apply nth_error_In in En; apply in_msteps in En; lia).
        rewrite HD by exact Hb. split.
        * intros [k' [Hk' [Hn Ht]]].
          assert (Z.to_nat k' = Z.to_nat k).
          { eapply (proj1 (NoDup_nth_error msteps) NoDup_msteps).
            - apply nth_error_Some. congruence.
            - congruence. }
          replace k with k' by lia. exact Ht.
        * intros Ht. exists k. auto.
      + symmetry. rewrite <- msteps_length in Hi. eapply bits_lt_pow2; [exact Hi|].
        apply nth_error_None in En. lia.
    - intros d. split; [apply HD0|]. apply lt_pow2_bits; [apply HD0|apply Hnb|].
      intros k Hk. destruct (Z.testbit (get3 p d) k) eqn:E; [|reflexivity].
      pose proof (Hnb d). apply HD in E; [|lia].
      destruct E as [k' [_ [Hn _]]]. apply nth_error_In, in_msteps in Hn. lia.
  Qed.
End Morton.

Lemma nbits_maximum_ge nb d : get3 nb d <= nbits_maximum nb.
Proof.
  unfold nbits_maximum. destruct nb as [a b c]. cbn [c0 c1 c2].
  destruct (Z.ltb_spec a b); [destruct (Z.ltb_spec b c)|destruct (Z.ltb_spec a c)]; destruct d; cbn; lia.
Qed.

Lemma morton_bijective np s : sfc_setup CURVE_MORTON np = Some s ->
  bijective_on np (sfc_idx3_to_idx s) (sfc_idx_to_idx3 s).
Proof.
  cbn [sfc_setup].
  destruct (morton_nbits (c0 np)) as [b0|] eqn:E0; [|discriminate].
  destruct (morton_nbits (c1 np)) as [b1|] eqn:E1; [|discriminate].
  destruct (morton_nbits (c2 np)) as [b2|] eqn:E2; [|discriminate].
  intros [= <-].
  apply morton_nbits_sound in E0, E1, E2.
  set (nb := v3 b0 b1 b2).
  assert (Hnb : forall d, 0 <= get3 nb d <= nbits_maximum nb).
  { intros d. split; [destruct d; cbn; lia|apply nbits_maximum_ge]. }
  assert (Hnp : forall d, get3 np d = 2 ^ get3 nb d) by (intros []; cbn; tauto).
  assert (Hvol : volume np = 2 ^ (c0 nb + c1 nb + c2 nb)).
  { unfold volume, nb. cbn [c0 c1 c2]. rewrite !Z.pow_add_r by lia.
    destruct E0 as [_ ->], E1 as [_ ->], E2 as [_ ->]. ring. }
  split.
  - intros i Hi. rewrite Hvol in Hi. destruct (morton_enc_dec nb (nbits_maximum nb) Hnb i Hi) as [H1 H2].
    eexists. split; [reflexivity|]. split.
    + intros d. rewrite Hnp. apply H2.
    + cbn [sfc_idx3_to_idx]. f_equal. exact H1.
  - intros p Hp.
    destruct (morton_dec_enc nb (nbits_maximum nb) Hnb p) as [H1 H2].
    { intros d. rewrite <- Hnp. apply Hp. }
    eexists. split; [reflexivity|]. rewrite Hvol. split; [exact H2|].
    cbn [sfc_idx_to_idx3]. f_equal. exact H1.
Qed.

Lemma morton_accepts np : (forall d, is_pow2 (get3 np d)) <-> exists s, sfc_setup CURVE_MORTON np = Some s.
Proof.
  split.
  - intros H. cbn [sfc_setup].
    destruct (H D0) as [k0 [K0 E0]], (H D1) as [k1 [K1 E1]], (H D2) as [k2 [K2 E2]].
    cbn [get3] in *. rewrite E0, E1, E2, !morton_nbits_complete by assumption. eauto.
  - intros [s Hs]. cbn [sfc_setup] in Hs.
    destruct (morton_nbits (c0 np)) as [b0|] eqn:E0; [|discriminate].
    destruct (morton_nbits (c1 np)) as [b1|] eqn:E1; [|discriminate].
    destruct (morton_nbits (c2 np)) as [b2|] eqn:E2; [|discriminate].
    apply morton_nbits_sound in E0, E1, E2.
    intros []; cbn [get3]; [exists b0|exists b1|exists b2]; tauto.
Qed.
