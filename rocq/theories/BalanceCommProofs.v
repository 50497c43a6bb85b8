From Verif Require Import Base DomainModel DomainSpec DomainProofs HilbertDomainProofs DomainBoxProofs
  MpiModel MpiProofs BalanceModel BalanceSpec BalanceMoveProofs.
Local Open Scope Z_scope.

(** ** Posts do not repeat *)

Lemma NoDup_filter' {A} (f : A -> bool) l : NoDup l -> NoDup (filter f l).
Proof. apply NoDup_filter. Qed.

Lemma field_posts_nodup rank infos : NoDup (field_posts rank infos).
Proof.
  unfold field_posts.
  assert (G : NoDup (snd (fold_left (field_step rank) (enumerate infos) (fun _ => 0, []))) /\
              forall t k p, In (t, k, p) (snd (fold_left (field_step rank) (enumerate infos) (fun _ => 0, []))) ->
                            p < Z.of_nat (length infos)).
  { induction infos as [|[r q] infos IH] using rev_ind; [cbn; split; [constructor|tauto]|].
    rewrite enumerate_app, fold_left_app. cbn [fold_left].
    destruct (fold_left (field_step rank) (enumerate infos) (fun _ => 0, [])) as [c acc].
    cbn [snd] in IH. destruct IH as [IH1 IH2]. unfold field_step.
    rewrite app_length. cbn [length].
    destruct ((r =? rank) || (r <? 0)); cbn [snd].
    - split; [exact IH1|]. intros t k p H. apply IH2 in H. lia.
    - split.
      + apply NoDup_app_intro; [exact IH1|repeat constructor; auto|].
        intros [[t k] p] Hin [H|[]]. injection H as <- <- <-. apply IH2 in Hin. lia.
      + intros t k p H. apply in_app_or in H. destruct H as [H|[H|[]]].
        * apply IH2 in H. lia.
        * injection H as <- <- <-. lia. }
  apply G.
Qed.

Lemma enumerate_nodup {A} (l : list A) : NoDup (enumerate l).
Proof.
  unfold enumerate. apply (NoDup_map_inv fst).
  assert (E : map fst (combine (zrange 0 (Z.of_nat (length l))) l) = zrange 0 (Z.of_nat (length l))).
  { assert (G : forall (a : list Z) (b : list A), length a = length b -> map fst (combine a b) = a).
    { induction a as [|x a IH]; intros [|y b] H; cbn in *; try lia; [reflexivity|].
      f_equal. apply IH. lia. }
    apply G. rewrite zrange_length. lia. }
  rewrite E. apply NoDup_zrange.
Qed.

Lemma particle_sends_nodup rank infos : NoDup (particle_sends rank (build_by_ri infos)).
Proof.
  destruct (build_by_ri_ok infos) as [H1 _]. unfold particle_sends.
  induction (build_by_ri infos) as [|[r ps] tbl IH]; [constructor|].
  cbn [map fst] in H1. inversion H1 as [|? ? Hn Hd]; subst. cbn [flat_map].
  apply NoDup_app_intro.
  - destruct (r =? rank); [constructor|].
    apply FinFun.Injective_map_NoDup; [|apply enumerate_nodup].
    intros [i x] [j y]. congruence.
  - apply IH, Hd.
  - intros [[t k] p] Hin1 Hin2.
    assert (t = r).
    { destruct (r =? rank); [destruct Hin1|]. apply in_map_iff in Hin1.
      destruct Hin1 as [[i x] [E _]]. congruence. }
    subst t. apply in_flat_map in Hin2. destruct Hin2 as [[r' ps'] [Hin' H]].
    destruct (r' =? rank); [destruct H|]. apply in_map_iff in H. destruct H as [[i x] [E _]].
    injection E as -> -> ->. apply Hn. apply in_map_iff. exists (r, ps'). auto.
Qed.

(** a list of messages and a list of receives with the same channels, none used
    twice, match up *)
Lemma balanced_intro {D} (msgs : list (chan * D)) (recvs : list chan) :
  NoDup (map fst msgs) -> NoDup recvs -> (forall c, In c (map fst msgs) <-> In c recvs) ->
  balanced msgs recvs.
Proof.
  intros H1 H2 H3 c. unfold queue, count_chan. rewrite map_length.
  assert (E : length (filter (fun m => chan_eqb c (fst m)) msgs) = length (filter (chan_eqb c) (map fst msgs))).
  { clear. induction msgs as [|[c' d] l IH]; [reflexivity|]. cbn. destruct (chan_eqb c c'); cbn; now rewrite IH. }
  rewrite E. apply Permutation_length.
  assert (HP : Permutation (map fst msgs) recvs) by (apply NoDup_Permutation; auto).
  clear - HP. induction HP; cbn.
  - constructor.
  - destruct (chan_eqb c x); [constructor|]; assumption.
  - destruct (chan_eqb c x), (chan_eqb c y); try constructor; apply Permutation_refl.
  - eapply Permutation_trans; eassumption.
Qed.

Lemma sequence_map_keys {A B C} (f : A -> option B) (ka : A -> C) (kb : B -> C) l l' :
  (forall a b, f a = Some b -> kb b = ka a) -> sequence (map f l) = Some l' -> map kb l' = map ka l.
Proof.
  intros Hf. revert l'. induction l as [|a l IH]; intros l' H; cbn in *.
  - injection H as <-. reflexivity.
  - destruct (f a) eqn:E; [|discriminate]. destruct (sequence (map f l)); [|discriminate].
    injection H as <-. cbn. rewrite (Hf _ _ E), (IH _ eq_refl). reflexivity.
Qed.

  Lemma NoDup_flat_map {A B} (f : A -> list B) l (k : B -> A) :
    NoDup l -> (forall a b, In a l -> In b (f a) -> k b = a) -> (forall a, In a l -> NoDup (f a)) ->
    NoDup (flat_map f l).
  Proof.
    intros Hl Hk Hf. induction l as [|a l IH]; [constructor|]. cbn [flat_map].
    inversion Hl; subst. apply NoDup_app_intro.
    - apply Hf. now left.
    - apply IH; [assumption|intros; apply Hk; [now right|assumption]|intros; apply Hf; now right].
    - intros b Hb1 Hb2. apply in_flat_map in Hb2. destruct Hb2 as [a' [Ha' Hb']].
      assert (k b = a) by (apply Hk; [now left|exact Hb1]).
      assert (k b = a') by (apply Hk; [now right|exact Hb']). congruence.
  Qed.

  Lemma NoDup_map_inj_in {A B} (f : A -> B) l :
    (forall x y, In x l -> In y l -> f x = f y -> x = y) -> NoDup l -> NoDup (map f l).
  Proof.
    induction l as [|a l IH]; intros Hf Hl; [constructor|]. cbn. inversion Hl; subst. constructor.
    - intros H. apply in_map_iff in H. destruct H as [b [E Hb]].
      assert (b = a) by (apply Hf; [now right|now left|exact E]). congruence.
    - apply IH; [|assumption]. intros x y Hx Hy. apply Hf; now right.
  Qed.

Section Move.
  Variables (c : curve) (np gdims : V3 Z) (per : V3 bool) (size : Z).
  Variables (pr_old pr_new : option (list Z)) (dom_old dom_new : domain).
  Hypothesis Hpos : all_pos np.
  Hypothesis Hold : domain_setup c np gdims per pr_old size = Some dom_old.
  Hypothesis Hnew : domain_setup c np gdims per pr_new size = Some dom_new.
  Hypothesis Hvold : counts_valid pr_old (volume np) size.
  Hypothesis Hvnew : counts_valid pr_new (volume np) size.
  Let co := counts_of pr_old (volume np) size.
  Let cn := counts_of pr_new (volume np) size.
  Hypothesis Hlo : Z.of_nat (length co) = size.
  Hypothesis Hln : Z.of_nat (length cn) = size.

  Let HV := volume_pos np Hpos.
  Let Hco := counts_of_ok pr_old (volume np) size (Z.lt_le_incl _ _ HV) Hvold.
  Let Hcn := counts_of_ok pr_new (volume np) size (Z.lt_le_incl _ _ HV) Hvnew.

  Notation "'both'" := (BalanceMoveProofs.both np size pr_old pr_new).
  Notation "'sinfos'" := (BalanceMoveProofs.sinfos np size pr_old pr_new).
  Notation "'rinfos'" := (BalanceMoveProofs.rinfos np size pr_old pr_new).

  Lemma rinfos_length t : 0 <= t < size -> Z.of_nat (length (rinfos t)) = cnt_of cn t.
  Proof.
    intros Ht. destruct Hcn as [Hd1 Hd2]. fold cn in Hd1, Hd2.
    destruct (off_bounds cn (volume np) Hd1 Hd2 t ltac:(lia)) as [O1 [O2 O3]].
    unfold BalanceMoveProofs.rinfos. fold cn co. rewrite map_length, zrange_length. lia.
  Qed.

  (** *** Fields *)
  Lemma fields_ok {D} (glob : list D) : Z.of_nat (length glob) = volume np ->
    exists msgs, field_messages dom_old dom_new (zrange 0 size) (distribute co glob) = Some msgs /\
    forall pool t, Permutation pool msgs -> 0 <= t < size ->
      fields_after dom_old dom_new pool (distribute co glob) t = Some (distribute cn glob t).
  Proof.
    intros Hl. destruct Hcn as [Hd1 Hd2]. fold cn in Hd1, Hd2.
    destruct (phase_messages c np gdims per size pr_old pr_new dom_old dom_new Hpos Hold Hnew Hvold Hvnew Hlo Hln
                field_posts field_posts_spec glob Hl) as [msgs [E Hm]].
    exists msgs. split; [exact E|]. intros pool t HP Ht. unfold fields_after.
    rewrite (recv_targets c np gdims per size pr_old pr_new dom_old dom_new Hpos Hold Hnew Hvold Hvnew Hln t Ht).
    fold co cn. fold (rinfos t).
    apply (sequence_distribute np); try assumption; [lia|apply rinfos_length, Ht|].
    intros p Hp. exact (phase_after np size pr_old pr_new Hpos Hvold Hvnew Hlo Hln field_posts field_posts_spec
             glob msgs pool t Hl Ht Hm HP p Hp).
  Qed.

  (** *** Channels of a phase *)
  Lemma phase_balanced (posts : Z -> list (Z * Z) -> list (Z * Z * Z)) {D} (glob : list D) msgs :
    (forall rank infos t k p, In (t, k, p) (posts rank infos) <-> post_spec rank infos t k p) ->
    (forall rank infos, NoDup (posts rank infos)) ->
    Z.of_nat (length glob) = volume np ->
    concat_option (map (fun r =>
        match patch_targets dom_old dom_new r with
        | Some infos => post_payloads r (posts r infos) (fun p => if p <? 0 then None else nth_error (distribute co glob r) (Z.to_nat p))
        | None => None
        end) (zrange 0 size)) = Some msgs ->
    balanced msgs (phase_recvs dom_old dom_new (zrange 0 size) posts).
  Proof.
    intros Hsp Hnd Hl E.
    destruct Hco as [Hc1 Hc2]. destruct Hcn as [Hd1 Hd2]. fold co in Hc1, Hc2. fold cn in Hd1, Hd2.
    assert (TI : forall s t g1 g2 p1 p2 k, 0 <= g1 < volume np -> 0 <= g2 < volume np ->
      own co g1 = (s, p1) -> fst (own cn g1) = t -> own co g2 = (s, p2) -> fst (own cn g2) = t ->
      k = cnt (both s t) 0 g1 -> k = cnt (both s t) 0 g2 -> g1 = g2).
    { intros s t g1 g2 p1 p2 k Hg1 Hg2 A1 A2 B1 B2 K1 K2.
      apply (tag_inj np size pr_old pr_new s t); try lia; eapply both_true; eassumption. }
    (* NoDup of the sent channels *)
    assert (HK : map fst msgs = flat_map (fun s => map (fun '(t, k, _) => (s, t, k)) (posts s (sinfos s))) (zrange 0 size)).
    { unfold concat_option in E. destruct (sequence _) as [ll|] eqn:Es; [|discriminate]. injection E as <-.
      assert (G : forall rs ll, (forall r, In r rs -> 0 <= r < size) ->
        sequence (map (fun r => match patch_targets dom_old dom_new r with
        | Some infos => post_payloads r (posts r infos) (fun p => if p <? 0 then None else nth_error (distribute co glob r) (Z.to_nat p))
        | None => None end) rs) = Some ll ->
        map fst (concat ll) = flat_map (fun s => map (fun '(t, k, _) => (s, t, k)) (posts s (sinfos s))) rs).
      { induction rs as [|r rs IH]; intros ll' Hrs H; cbn [map sequence flat_map] in *.
        - injection H as <-. reflexivity.
        - rewrite (send_targets c np gdims per size pr_old pr_new dom_old dom_new Hpos Hold Hnew Hvold Hvnew Hlo r) in H
            by (apply Hrs; now left).
          fold co cn in H. fold (sinfos r) in H.
          destruct (post_payloads _ _ _) as [m|] eqn:Ep; [|discriminate].
          destruct (sequence _) as [l2|] eqn:El in H; [|discriminate]. injection H as <-.
          cbn [concat]. rewrite map_app. f_equal; [|apply IH; [intros; apply Hrs; now right|exact El]].
          unfold post_payloads in Ep. eapply sequence_map_keys; [|exact Ep].
          intros [[t k] p] [ch d] H. cbn in H. destruct (if _ <? _ then _ else _); [|discriminate].
          injection H as <- <-. reflexivity. }
      apply (G _ _ (fun r Hr => proj1 (in_zrange 0 size r) Hr) Es). }
    apply balanced_intro.
    - rewrite HK. apply (NoDup_flat_map _ _ (fun ch => fst (fst ch))).
      + apply NoDup_zrange.
      + intros s ch _ H. apply in_map_iff in H. destruct H as [[[t k] p] [<- _]]. reflexivity.
      + intros s Hs. apply in_zrange in Hs. apply NoDup_map_inj_in; [|apply Hnd].
        intros [[t1 k1] p1] [[t2 k2] p2] H1 H2 EQ. injection EQ as <- <-.
        apply Hsp in H1, H2.
        apply (send_post np size pr_old pr_new Hpos Hvold Hvnew Hlo Hln) in H1; [|exact Hs].
        apply (send_post np size pr_old pr_new Hpos Hvold Hvnew Hlo Hln) in H2; [|exact Hs].
        destruct H1 as [g1 [G1 [_ [A1 [A2 K1]]]]], H2 as [g2 [G2 [_ [B1 [B2 K2]]]]].
        fold co in A1, B1. fold cn in A2, B2.
        assert (g1 = g2) by (eapply TI; eassumption). subst g2. congruence.
    - unfold phase_recvs. apply (NoDup_flat_map _ _ (fun ch => snd (fst ch))).
      + apply NoDup_zrange.
      + intros t ch Ht H. destruct (patch_targets dom_new dom_old t); [|destruct H].
        apply in_map_iff in H. destruct H as [[[s k] p] [<- _]]. reflexivity.
      + intros t Ht. apply in_zrange in Ht.
        rewrite (recv_targets c np gdims per size pr_old pr_new dom_old dom_new Hpos Hold Hnew Hvold Hvnew Hln t Ht).
        fold co cn. fold (rinfos t). apply NoDup_map_inj_in; [|apply Hnd].
        intros [[s1 k1] p1] [[s2 k2] p2] H1 H2 EQ. injection EQ as <- <-.
        apply Hsp in H1, H2.
        apply (recv_post np size pr_old pr_new Hpos Hvold Hvnew Hlo Hln) in H1; [|exact Ht].
        apply (recv_post np size pr_old pr_new Hpos Hvold Hvnew Hlo Hln) in H2; [|exact Ht].
        destruct H1 as [g1 [G1 [_ [A1 [A2 K1]]]]], H2 as [g2 [G2 [_ [B1 [B2 K2]]]]].
        fold cn in A1, B1. fold co in A2, B2.
        assert (g1 = g2).
        { apply (TI s1 t g1 g2 (snd (own co g1)) (snd (own co g2)) k1); try assumption.
          - rewrite <- A2. apply surjective_pairing.
          - rewrite A1. reflexivity.
          - rewrite <- B2. apply surjective_pairing.
          - rewrite B1. reflexivity. }
        subst g2. congruence.
    - intros ch. rewrite HK. unfold phase_recvs. rewrite !in_flat_map. split.
      + intros [s [Hs H]]. apply in_zrange in Hs. apply in_map_iff in H. destruct H as [[[t k] p] [<- H]].
        apply Hsp in H. apply (send_post np size pr_old pr_new Hpos Hvold Hvnew Hlo Hln) in H; [|exact Hs].
        destruct H as [g [G [Hst [A1 [A2 K]]]]]. fold co in A1. fold cn in A2.
        assert (Ht : 0 <= t < size) by (rewrite <- A2; apply (own_rank_range np size cn g); assumption).
        exists t. split; [apply in_zrange; exact Ht|].
        rewrite (recv_targets c np gdims per size pr_old pr_new dom_old dom_new Hpos Hold Hnew Hvold Hvnew Hln t Ht).
        fold co cn. fold (rinfos t). apply in_map_iff. exists (s, k, snd (own cn g)). split; [reflexivity|].
        apply Hsp. apply (recv_post np size pr_old pr_new Hpos Hvold Hvnew Hlo Hln); [exact Ht|].
        fold co cn. exists g. split; [exact G|]. split; [exact Hst|]. split.
        { rewrite <- A2. apply surjective_pairing. } split; [rewrite A1; reflexivity|exact K].
      + intros [t [Ht H]]. apply in_zrange in Ht.
        rewrite (recv_targets c np gdims per size pr_old pr_new dom_old dom_new Hpos Hold Hnew Hvold Hvnew Hln t Ht) in H.
        fold co cn in H. fold (rinfos t) in H. apply in_map_iff in H. destruct H as [[[s k] p] [<- H]].
        apply Hsp in H. apply (recv_post np size pr_old pr_new Hpos Hvold Hvnew Hlo Hln) in H; [|exact Ht].
        destruct H as [g [G [Hst [A1 [A2 K]]]]]. fold cn in A1. fold co in A2.
        assert (Hs : 0 <= s < size) by (rewrite <- A2; apply (own_rank_range np size co g); assumption).
        exists s. split; [apply in_zrange; exact Hs|]. apply in_map_iff.
        exists (t, k, snd (own co g)). split; [reflexivity|].
        apply Hsp. apply (send_post np size pr_old pr_new Hpos Hvold Hvnew Hlo Hln); [exact Hs|].
        fold co cn. exists g. split; [exact G|]. split; [exact Hst|]. split.
        { rewrite <- A2. apply surjective_pairing. } split; [rewrite A1; reflexivity|exact K].
  Qed.

  (** *** Particle numbers *)

  Lemma positions_shift (f : Z -> Z * Z) a n t : 0 <= n ->
    map (fun p => a + p) (positions (map f (zrange a (a + n))) t)
    = filter (fun gp => fst (f gp) =? t) (zrange a (a + n)).
  Proof.
    intros Hn. pattern n. apply natlike_ind; [| |exact Hn].
    - rewrite (zrange_empty a (a + 0)) by lia. reflexivity.
    - clear n Hn. intros n Hn IH. replace (a + Z.succ n) with (a + n + 1) by lia.
      rewrite zrange_snoc by lia. rewrite map_app, filter_app. cbn [map].
      destruct (f (a + n)) as [r q] eqn:E. rewrite positions_snoc, map_app, IH.
      f_equal. cbn [filter]. rewrite E. cbn [fst]. destruct (r =? t); [|reflexivity].
      cbn [map]. rewrite map_length, zrange_length. do 2 f_equal. lia.
  Qed.

  Lemma filter_split (f : Z -> bool) a b : 0 <= a <= b -> b <= volume np ->
    (forall x, 0 <= x < volume np -> f x = true -> a <= x < b) ->
    filter f (zrange 0 (volume np)) = filter f (zrange a b).
  Proof.
    intros Ha Hb Hf. rewrite (zrange_app 0 a (volume np)) by lia. rewrite (zrange_app a b (volume np)) by lia.
    rewrite !filter_app.
    assert (Z : forall u v, 0 <= u -> v <= volume np -> (v <= a \/ b <= u) -> filter f (zrange u v) = []).
    { intros u v Hu Hv Hw. destruct (filter f (zrange u v)) as [|x l] eqn:E; [reflexivity|].
      assert (H : In x (filter f (zrange u v))) by (rewrite E; now left).
      apply filter_In in H. destruct H as [H1 H2]. apply in_zrange in H1. apply Hf in H2; lia. }
    rewrite (Z 0 a), (Z b (volume np)) by lia. cbn [app]. apply app_nil_r.
  Qed.

  Definition moving (s t : Z) : list Z := filter (both s t) (zrange 0 (volume np)).

  Lemma send_positions s t : 0 <= s < size ->
    map (fun p => off_of co s + p) (positions (sinfos s) t) = moving s t.
  Proof.
    intros Hs. destruct Hco as [Hc1 Hc2]. fold co in Hc1, Hc2.
    destruct (off_bounds co (volume np) Hc1 Hc2 s ltac:(lia)) as [O1 [O2 O3]].
    unfold BalanceMoveProofs.sinfos. fold co cn. rewrite positions_shift by exact O2. unfold moving.
    rewrite (filter_split _ (off_of co s) (off_of co s + cnt_of co s)); [|lia|lia|].
    - apply filter_ext_in. intros x Hx. apply in_zrange in Hx. unfold BalanceMoveProofs.both. fold co cn.
      destruct (own_rank_iff co (volume np) Hc1 Hc2 x s ltac:(lia) ltac:(lia)) as [_ H].
      rewrite (proj2 (Z.eqb_eq _ _) (H Hx)). reflexivity.
    - intros x Hx H. unfold BalanceMoveProofs.both in H. fold co cn in H. apply andb_true_iff in H.
      destruct H as [H _]. apply Z.eqb_eq in H. apply (own_rank_iff co (volume np) Hc1 Hc2 x s); lia.
  Qed.

  Lemma recv_positions s t : 0 <= t < size ->
    map (fun p => off_of cn t + p) (positions (rinfos t) s) = moving s t.
  Proof.
    intros Ht. destruct Hcn as [Hd1 Hd2]. fold cn in Hd1, Hd2.
    destruct (off_bounds cn (volume np) Hd1 Hd2 t ltac:(lia)) as [O1 [O2 O3]].
    unfold BalanceMoveProofs.rinfos. fold co cn. rewrite positions_shift by exact O2. unfold moving.
    rewrite (filter_split _ (off_of cn t) (off_of cn t + cnt_of cn t)); [|lia|lia|].
    - apply filter_ext_in. intros x Hx. apply in_zrange in Hx. unfold BalanceMoveProofs.both. fold co cn.
      destruct (own_rank_iff cn (volume np) Hd1 Hd2 x t ltac:(lia) ltac:(lia)) as [_ H].
      rewrite (proj2 (Z.eqb_eq _ _) (H Hx)), andb_true_r. reflexivity.
    - intros x Hx H. unfold BalanceMoveProofs.both in H. fold co cn in H. apply andb_true_iff in H.
      destruct H as [_ H]. apply Z.eqb_eq in H. apply (own_rank_iff cn (volume np) Hd1 Hd2 x t); lia.
  Qed.

  Definition gval (n : list Z) (gp : Z) : Z := nth (Z.to_nat gp) n 0.

  Lemma zgets_ok (n : list Z) s t : Z.of_nat (length n) = volume np -> 0 <= s < size ->
    zgets (distribute co n s) (positions (sinfos s) t) = Some (map (gval n) (moving s t)).
  Proof.
    intros Hl Hs. destruct Hco as [Hc1 Hc2]. fold co in Hc1, Hc2.
    rewrite <- (send_positions s t Hs), map_map. unfold zgets. apply sequence_map_some.
    intros p Hp. apply positions_in in Hp. destruct Hp as [Hp [q Hq]].
    apply (nth_targets co cn) in Hq; [|exact Hp]. destruct Hq as [Hpc _].
    destruct (off_bounds co (volume np) Hc1 Hc2 s ltac:(lia)) as [O1 [O2 O3]].
    unfold zget. destruct (Z.ltb_spec p 0); [lia|].
    rewrite (distribute_nth np) by (assumption || lia).
    destruct (Z.ltb_spec p (cnt_of co s)); [|lia]. unfold gval. apply nth_error_nth'. lia.
  Qed.

  Lemma ri_lookup_ok infos r : 0 <= r -> positions infos r <> [] ->
    ri_lookup (build_by_ri infos) r = Some (positions infos r).
  Proof.
    intros Hr Hne. destruct (build_by_ri_ok infos) as [_ HT]. unfold ri_lookup.
    destruct (find _ _) as [[r' ps]|] eqn:E.
    - apply find_some in E. destruct E as [Hin E]. cbn [fst] in E. apply Z.eqb_eq in E. subst r'.
      apply HT in Hin. destruct Hin as [_ [-> _]]. reflexivity.
    - exfalso. assert (Hin : In (r, positions infos r) (build_by_ri infos)) by (apply HT; auto).
      apply (find_none _ _ E) in Hin. cbn in Hin. rewrite Z.eqb_refl in Hin. discriminate.
  Qed.

  Lemma index_of_spec p l : forall i0 i, index_of p l i0 = Some i ->
    i0 <= i /\ nth_error l (Z.to_nat (i - i0)) = Some p.
  Proof.
    induction l as [|x l IH]; intros i0 i H; cbn in H; [discriminate|].
    destruct (Z.eqb_spec x p) as [->|].
    - injection H as <-. rewrite Z.sub_diag. split; [lia|reflexivity].
    - apply IH in H. destruct H as [H1 H2]. split; [lia|].
      replace (Z.to_nat (i - i0)) with (S (Z.to_nat (i - (i0 + 1)))) by lia. exact H2.
  Qed.

  Lemma index_of_in p l : forall i0, In p l -> exists i, index_of p l i0 = Some i.
  Proof.
    induction l as [|x l IH]; intros i0 H; [destruct H|]. cbn.
    destruct (Z.eqb_spec x p); [eauto|]. destruct H; [congruence|]. apply IH, H.
  Qed.

  Lemma find_pi_ok infos p r q : 0 <= p -> nth_error infos (Z.to_nat p) = Some (r, q) -> 0 <= r ->
    exists i, 0 <= i /\ find_pi (build_by_ri infos) p = Some (r, positions infos r, i) /\
              nth_error (positions infos r) (Z.to_nat i) = Some p.
  Proof.
    intros Hp Hn Hr. destruct (build_by_ri_ok infos) as [_ HT].
    assert (Hpos' : In p (positions infos r)) by (apply positions_in; eauto).
    assert (Hin : In (r, positions infos r) (build_by_ri infos)).
    { apply HT. split; [exact Hr|]. split; [reflexivity|]. intros E. rewrite E in Hpos'. destruct Hpos'. }
    assert (HF : forall t ps, In (t, ps) (build_by_ri infos) -> In p ps -> t = r /\ ps = positions infos r).
    { intros t ps H1 H2. apply HT in H1. destruct H1 as [_ [-> _]]. apply positions_in in H2.
      destruct H2 as [_ [q' Hq']]. rewrite Hn in Hq'. injection Hq' as <- <-. auto. }
    clear HT. induction (build_by_ri infos) as [|[t ps] tbl IH]; [destruct Hin|].
    cbn [find_pi]. destruct (index_of p ps 0) as [i|] eqn:E.
    - apply index_of_spec in E. destruct E as [E1 E2]. rewrite Z.sub_0_r in E2.
      destruct (HF t ps) as [-> ->]; [now left|eapply nth_error_In; exact E2|]. eauto.
    - destruct Hin as [H|Hin].
      + exfalso. injection H as E1 E2. subst t ps. destruct (index_of_in p _ 0 Hpos') as [i Hi]. congruence.
      + apply IH; [exact Hin|]. intros t' ps' H1 H2. apply HF; [now right|exact H2].
  Qed.

  Lemma count_posts_spec rank infos t tag ps :
    In (t, tag, ps) (count_posts rank (build_by_ri infos)) <->
    t <> rank /\ 0 <= t /\ tag = 10 /\ ps = positions infos t /\ ps <> [].
  Proof.
    unfold count_posts. rewrite in_flat_map. destruct (build_by_ri_ok infos) as [_ HT]. split.
    - intros [[r ps'] [Hin H]]. apply HT in Hin. destruct Hin as [Hr [-> Hne]].
      destruct (Z.eqb_spec r rank); [destruct H|]. destruct H as [H|[]]. injection H as <- <- <-. auto.
    - intros [Hr [Ht [-> [-> Hne]]]]. exists (t, positions infos t). split; [apply HT; auto|].
      destruct (Z.eqb_spec t rank); [contradiction|]. now left.
  Qed.

  Lemma moving_nil_send s t : 0 <= s < size -> (positions (sinfos s) t = [] <-> moving s t = []).
  Proof.
    intros Hs. rewrite <- (send_positions s t Hs). destruct (positions (sinfos s) t); cbn; split; congruence.
  Qed.

  Lemma counts_ok (n : list Z) : Z.of_nat (length n) = volume np ->
    exists msgs, count_messages dom_old dom_new (zrange 0 size) (distribute co n) = Some msgs /\
    (forall s t k d, In ((s, t, k), d) msgs <->
       0 <= s < size /\ 0 <= t /\ s <> t /\ k = 10 /\ moving s t <> [] /\ d = map (gval n) (moving s t)) /\
    forall pool t, Permutation pool msgs -> 0 <= t < size ->
      new_n_prts dom_old dom_new pool (distribute co n) t = Some (distribute cn n t).
  Proof.
    intros Hl. destruct Hco as [Hc1 Hc2]. destruct Hcn as [Hd1 Hd2]. fold co in Hc1, Hc2. fold cn in Hd1, Hd2.
    assert (Hmsg : forall r, 0 <= r < size -> exists m,
      post_payloads r (count_posts r (build_by_ri (sinfos r))) (zgets (distribute co n r)) = Some m /\
      forall s t k d, In ((s, t, k), d) m <->
        s = r /\ 0 <= t /\ s <> t /\ k = 10 /\ moving s t <> [] /\ d = map (gval n) (moving s t)).
    { intros r Hr. unfold post_payloads.
      set (g := fun '((t, tag, _) : Z * Z * list Z) => ((r, t, tag), map (gval n) (moving r t)) : chan * list Z).
      exists (map g (count_posts r (build_by_ri (sinfos r)))). split.
      - apply sequence_map_some. intros [[t tag] ps] Hin. apply count_posts_spec in Hin.
        destruct Hin as [_ [_ [-> [-> _]]]]. rewrite (zgets_ok n r t Hl Hr). reflexivity.
      - intros s t k d. rewrite in_map_iff. split.
        + intros [[[t' tag] ps] [E Hin]]. cbn in E. injection E as <- <- <- <-.
          apply count_posts_spec in Hin. destruct Hin as [Hne [Ht [-> [-> Hnn]]]].
          repeat split; auto. intros H. apply Hnn. apply (moving_nil_send r t' Hr), H.
        + intros [-> [Ht [Hst [-> [Hm ->]]]]]. exists (t, 10, positions (sinfos r) t). split; [reflexivity|].
          apply count_posts_spec. repeat split; auto. intros H. apply Hm. apply (moving_nil_send r t Hr), H. }
    set (g := fun r => match post_payloads r (count_posts r (build_by_ri (sinfos r))) (zgets (distribute co n r)) with Some m => m | None => [] end).
    assert (Hall : forall s t k d, In ((s, t, k), d) (flat_map g (zrange 0 size)) <->
       0 <= s < size /\ 0 <= t /\ s <> t /\ k = 10 /\ moving s t <> [] /\ d = map (gval n) (moving s t)).
    { intros s t k d. rewrite in_flat_map. split.
      + intros [r [Hr Hin]]. apply in_zrange in Hr. unfold g in Hin.
        destruct (Hmsg r Hr) as [m [E Hm]]. rewrite E in Hin.
        apply Hm in Hin. destruct Hin as [-> H]. auto.
      + intros [Hs H]. exists s. split; [apply in_zrange; exact Hs|]. unfold g.
        destruct (Hmsg s Hs) as [m [E Hm]]. rewrite E. apply Hm. auto. }
    exists (flat_map g (zrange 0 size)). split; [|split; [exact Hall|]].
    - apply concat_option_some. intros r Hr. apply in_zrange in Hr.
      rewrite (send_targets c np gdims per size pr_old pr_new dom_old dom_new Hpos Hold Hnew Hvold Hvnew Hlo r Hr).
      change (post_payloads r (count_posts r (build_by_ri (sinfos r))) (zgets (distribute co n r)) = Some (g r)). unfold g. destruct (Hmsg r Hr) as [m [-> _]]. reflexivity.
    - intros pool t HP Ht. unfold new_n_prts.
      rewrite (send_targets c np gdims per size pr_old pr_new dom_old dom_new Hpos Hold Hnew Hvold Hvnew Hlo t Ht).
      rewrite (recv_targets c np gdims per size pr_old pr_new dom_old dom_new Hpos Hold Hnew Hvold Hvnew Hln t Ht).
      fold co cn.
      change (map (own co) (zrange (off_of cn t) (off_of cn t + cnt_of cn t))) with (rinfos t).
      change (map (own cn) (zrange (off_of co t) (off_of co t + cnt_of co t))) with (sinfos t).
      apply (sequence_distribute np); try assumption; [lia|apply rinfos_length, Ht|].
      intros p Hp. destruct (off_bounds cn (volume np) Hd1 Hd2 t ltac:(lia)) as [O1 [O2 O3]].
      set (gp := off_of cn t + p).
      assert (Hg : 0 <= gp < volume np) by (unfold gp; lia).
      destruct (own co gp) as [s q] eqn:Eo.
      assert (Hi : nth_error (rinfos t) (Z.to_nat p) = Some (s, q)).
      { apply (nth_targets cn co); [lia|]. split; [lia|]. fold gp. auto. }
      assert (Hs : 0 <= s < size).
      { pose proof (own_rank_range np size co gp Hc1 Hc2 Hlo Hg) as H. rewrite Eo in H. exact H. }
      destruct (find_pi_ok (rinfos t) p s q ltac:(lia) Hi ltac:(lia)) as [i [Hi0 [-> Hnth]]].
      assert (Hlen : length (positions (rinfos t) s) = length (moving s t)).
      { rewrite <- (recv_positions s t Ht), map_length. reflexivity. }
      assert (Hlen2 : length (positions (sinfos s) t) = length (moving s t)).
      { rewrite <- (send_positions s t Hs), map_length. reflexivity. }
      assert (Hgp : nth_error (moving s t) (Z.to_nat i) = Some gp).
      { rewrite <- (recv_positions s t Ht), nth_error_map, Hnth. reflexivity. }
      assert (Hmne : moving s t <> []).
      { intros E. rewrite E in Hgp. destruct (Z.to_nat i); discriminate. }
      assert (Hval : zget (map (gval n) (moving s t)) i = nth_error n (Z.to_nat gp)).
      { unfold zget. destruct (Z.ltb_spec i 0); [lia|]. rewrite nth_error_map, Hgp. cbn.
        unfold gval. symmetry. apply nth_error_nth'. lia. }
      cbv zeta. destruct (Z.eqb_spec s t) as [->|Hst].
      + rewrite ri_lookup_ok; [|lia|intros E; apply Hmne; apply (moving_nil_send t t Ht), E].
        rewrite Hlen2, Hlen, Nat.eqb_refl, (zgets_ok n t t Hl Ht). exact Hval.
      + assert (Hrec : receive pool t s 10 = Some (map (gval n) (moving s t))).
        { unfold receive.
          assert (Hmem : forall x, In x pool <-> In x (flat_map g (zrange 0 size))).
          { intros x. split; apply Permutation_in; [exact HP|apply Permutation_sym; exact HP]. }
          apply nth_queue_unique.
          - apply Hmem, Hall. repeat split; auto; lia.
          - intros d Hd. apply Hmem, Hall in Hd. apply Hd. }
        rewrite Hrec, map_length, Hlen, Nat.eqb_refl. exact Hval.
  Qed.

  (** *** Particles *)
  Lemma particles_ok {P} (glob : list (list P)) : Z.of_nat (length glob) = volume np ->
    exists msgs, particle_messages dom_old dom_new (zrange 0 size) (distribute co glob) = Some msgs /\
    forall pool t, Permutation pool msgs -> 0 <= t < size ->
      particles_after dom_old dom_new pool
        (distribute cn (map (fun prts => Z.of_nat (length prts)) glob) t) (distribute co glob) t
      = Some (distribute cn glob t).
  Proof.
    intros Hl. destruct Hcn as [Hd1 Hd2]. fold cn in Hd1, Hd2.
    set (posts := fun r infos => particle_sends r (build_by_ri infos)).
    assert (Hsp : forall rank infos t k p, In (t, k, p) (posts rank infos) <-> post_spec rank infos t k p)
      by (intros; apply particle_sends_spec).
    destruct (phase_messages c np gdims per size pr_old pr_new dom_old dom_new Hpos Hold Hnew Hvold Hvnew Hlo Hln
                posts Hsp glob Hl) as [msgs [E Hm]].
    exists msgs. split; [exact E|]. intros pool t HP Ht. unfold particles_after.
    rewrite (recv_targets c np gdims per size pr_old pr_new dom_old dom_new Hpos Hold Hnew Hvold Hvnew Hln t Ht).
    fold co cn.
    change (map (own co) (zrange (off_of cn t) (off_of cn t + cnt_of cn t))) with (rinfos t).
    apply (sequence_distribute np); try assumption; [lia|apply rinfos_length, Ht|].
    intros p Hp.
    pose proof (phase_after np size pr_old pr_new Hpos Hvold Hvnew Hlo Hln posts Hsp
             glob msgs pool t Hl Ht Hm HP p Hp) as H. fold co cn in H.
    unfold posts in H. unfold particle_recvs. rewrite H.
    unfold zget. destruct (Z.ltb_spec p 0); [lia|].
    rewrite (distribute_nth np); try assumption; try lia; [|rewrite map_length; exact Hl].
    destruct (Z.ltb_spec p (cnt_of cn t)); [|lia]. rewrite nth_error_map.
    destruct (nth_error glob (Z.to_nat (off_of cn t + p))) as [prts|] eqn:Eg.
    - cbn [option_map]. rewrite Z.eqb_refl. reflexivity.
    - reflexivity.
  Qed.

  Lemma count_posts_keys rank infos : NoDup (map (fun '(t, k, _) => (t, k)) (count_posts rank (build_by_ri infos))).
  Proof.
    destruct (build_by_ri_ok infos) as [H1 _]. unfold count_posts.
    clear - H1. induction (build_by_ri infos) as [|[r ps] tbl IH]; [constructor|].
    cbn [map fst] in H1. inversion H1 as [|? ? Hn Hd]; subst. cbn [flat_map].
    destruct (r =? rank); [apply IH, Hd|]. cbn [app map]. constructor; [|apply IH, Hd].
    intros H. apply in_map_iff in H. destruct H as [[[t k] p] [E H]]. injection E as -> ->.
    apply in_flat_map in H. destruct H as [[r' ps'] [Hin H]].
    destruct (r' =? rank); [destruct H|]. destruct H as [H|[]]. injection H as -> _.
    apply Hn. apply in_map_iff. exists (r, ps'). auto.
  Qed.

  Lemma counts_balanced (n : list Z) msgs : Z.of_nat (length n) = volume np ->
    count_messages dom_old dom_new (zrange 0 size) (distribute co n) = Some msgs ->
    balanced msgs (phase_recvs dom_old dom_new (zrange 0 size) (fun r infos => count_posts r (build_by_ri infos))).
  Proof.
    intros Hl E. destruct (counts_ok n Hl) as [msgs' [E' [Hin _]]].
    rewrite E in E'. injection E' as <-.
    assert (HK : map fst msgs = flat_map (fun s => map (fun '(t, k, _) => (s, t, k))
                    (count_posts s (build_by_ri (sinfos s)))) (zrange 0 size)).
    { unfold count_messages, concat_option in E. destruct (sequence _) as [ll|] eqn:Es; [|discriminate].
      injection E as <-. clear Hin.
      assert (G : forall rs ll, (forall r, In r rs -> 0 <= r < size) ->
        sequence (map (fun r => match patch_targets dom_old dom_new r with
        | Some infos => post_payloads r (count_posts r (build_by_ri infos)) (zgets (distribute co n r))
        | None => None end) rs) = Some ll ->
        map fst (concat ll) = flat_map (fun s => map (fun '(t, k, _) => (s, t, k))
                    (count_posts s (build_by_ri (sinfos s)))) rs).
      { induction rs as [|r rs IH]; intros ll' Hrs H; cbn [map sequence flat_map] in *.
        - injection H as <-. reflexivity.
        - rewrite (send_targets c np gdims per size pr_old pr_new dom_old dom_new Hpos Hold Hnew Hvold Hvnew Hlo r) in H
            by (apply Hrs; now left).
          fold co cn in H.
          change (map (own cn) (zrange (off_of co r) (off_of co r + cnt_of co r))) with (sinfos r) in H.
          destruct (post_payloads _ _ _) as [m|] eqn:Ep; [|discriminate].
          destruct (sequence _) as [l2|] eqn:El in H; [|discriminate]. injection H as <-.
          cbn [concat]. rewrite map_app. f_equal; [|apply IH; [intros; apply Hrs; now right|exact El]].
          unfold post_payloads in Ep. eapply sequence_map_keys; [|exact Ep].
          intros [[t k] p] [ch d] H. destruct (zgets _ _); [|discriminate].
          injection H as <- <-. reflexivity. }
      apply (G _ _ (fun r Hr => proj1 (in_zrange 0 size r) Hr) Es). }
    assert (KN : forall s infos (f : Z * Z * list Z -> chan),
        (forall t k p t' k' p', f (t, k, p) = f (t', k', p') -> (t, k) = (t', k')) ->
        NoDup (map f (count_posts s (build_by_ri infos)))).
    { intros s infos f Hf. pose proof (count_posts_keys s infos) as H.
      clear - Hf H. induction (count_posts s (build_by_ri infos)) as [|[[t k] p] l IH]; [constructor|].
      cbn [map] in *. inversion H as [|? ? Hn Hd]; subst. constructor; [|apply IH, Hd].
      intros Hi. apply in_map_iff in Hi. destruct Hi as [[[t' k'] p'] [Ef Hi]]. apply Hf in Ef.
      apply Hn. apply in_map_iff. exists (t', k', p'). split; assumption. }
    apply balanced_intro.
    - rewrite HK. apply (NoDup_flat_map _ _ (fun ch => fst (fst ch))).
      + apply NoDup_zrange.
      + intros s ch _ H. apply in_map_iff in H. destruct H as [[[t k] p] [<- _]]. reflexivity.
      + intros s Hs. apply KN. intros t k p t' k' p' H. congruence.
    - unfold phase_recvs. apply (NoDup_flat_map _ _ (fun ch => snd (fst ch))).
      + apply NoDup_zrange.
      + intros t ch Ht H. destruct (patch_targets dom_new dom_old t); [|destruct H].
        apply in_map_iff in H. destruct H as [[[s k] p] [<- _]]. reflexivity.
      + intros t Ht. destruct (patch_targets dom_new dom_old t); [|constructor].
        apply KN. intros s k p s' k' p' H. congruence.
    - intros [[s t] k]. rewrite in_map_iff. unfold phase_recvs. rewrite in_flat_map.
      assert (RP : forall s t, 0 <= t < size -> (positions (rinfos t) s = [] <-> moving s t = [])).
      { intros s' t' Ht. rewrite <- (recv_positions s' t' Ht). destruct (positions (rinfos t') s'); cbn; split; congruence. }
      assert (MR : forall s t, moving s t <> [] -> 0 <= s < size /\ 0 <= t < size).
      { intros s' t' Hne. destruct Hco as [Hc1 Hc2]. destruct Hcn as [Hd1 Hd2]. fold co in Hc1, Hc2. fold cn in Hd1, Hd2.
        destruct (moving s' t') as [|g l] eqn:Em; [congruence|].
        assert (Hg : In g (moving s' t')) by (rewrite Em; now left). unfold moving in Hg.
        apply filter_In in Hg. destruct Hg as [Hg Hb]. apply in_zrange in Hg. unfold BalanceMoveProofs.both in Hb.
        apply andb_true_iff in Hb. destruct Hb as [B1 B2]. apply Z.eqb_eq in B1, B2. subst s' t'.
        split; [apply (own_rank_range np size co g)|apply (own_rank_range np size cn g)]; assumption. }
      split.
      + intros [[[[s' t'] k'] d] [Ek Hm]]. cbn in Ek. injection Ek as -> -> ->.
        apply Hin in Hm. destruct Hm as [Hs [Ht [Hst [-> [Hne _]]]]].
        destruct (MR s t Hne) as [_ Ht'].
        exists t. split; [apply in_zrange; exact Ht'|].
        rewrite (recv_targets c np gdims per size pr_old pr_new dom_old dom_new Hpos Hold Hnew Hvold Hvnew Hln t Ht').
        fold co cn.
        change (map (own co) (zrange (off_of cn t) (off_of cn t + cnt_of cn t))) with (rinfos t).
        apply in_map_iff. exists (s, 10, positions (rinfos t) s). split; [reflexivity|].
        apply count_posts_spec. repeat split; auto; [lia|]. intros H. apply Hne, (RP s t Ht'), H.
      + intros [t' [Ht H]]. apply in_zrange in Ht.
        rewrite (recv_targets c np gdims per size pr_old pr_new dom_old dom_new Hpos Hold Hnew Hvold Hvnew Hln t' Ht) in H.
        fold co cn in H.
        change (map (own co) (zrange (off_of cn t') (off_of cn t' + cnt_of cn t'))) with (rinfos t') in H.
        apply in_map_iff in H. destruct H as [[[s' k'] ps] [Ek H]]. injection Ek as -> -> ->.
        apply count_posts_spec in H. destruct H as [Hst [Hs [-> [-> Hne]]]].
        assert (Hm : moving s t <> []) by (intros H; apply Hne, (RP s t Ht), H).
        destruct (MR s t Hm) as [Hs' _].
        exists ((s, t, 10), map (gval n) (moving s t)). split; [reflexivity|]. apply Hin.
        repeat split; auto; lia.
  Qed.
End Move.
