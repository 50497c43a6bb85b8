From Verif Require Import Base DomainModel DomainSpec DomainProofs HilbertDomainProofs DomainBoxProofs
  MpiModel MpiProofs BalanceModel BalanceSpec.
Local Open Scope Z_scope.

(** ** Lists of options *)

Lemma sequence_map_some {A B} (f : A -> option B) (g : A -> B) l :
  (forall a, In a l -> f a = Some (g a)) -> sequence (map f l) = Some (map g l).
Proof.
  induction l as [|a l IH]; intros H; cbn [map sequence]; [reflexivity|].
  rewrite (H a) by now left. rewrite IH; [reflexivity|]. intros b Hb. apply H. now right.
Qed.

(** ** Counting in ranges *)

Definition cnt (f : Z -> bool) (lo hi : Z) : Z := Z.of_nat (length (filter f (zrange lo hi))).

Lemma zrange_app lo mid hi : lo <= mid <= hi -> zrange lo hi = zrange lo mid ++ zrange mid hi.
Proof.
  intros H. unfold zrange.
  replace (Z.to_nat (hi - lo)) with (Z.to_nat (mid - lo) + Z.to_nat (hi - mid))%nat by lia.
  rewrite seq_app, map_app. f_equal. rewrite Nat.add_0_l.
  rewrite <- (Nat.add_0_r (Z.to_nat (mid - lo))) at 1.
  generalize (Z.to_nat (hi - mid)). intros n.
  assert (G : forall k s, map (fun m => lo + Z.of_nat m) (seq (Z.to_nat (mid - lo) + s) k)
                     = map (fun m => mid + Z.of_nat m) (seq s k)).
  { induction k as [|k IH]; intros s; cbn [seq map]; [reflexivity|]. f_equal; [lia|].
    rewrite <- IH. f_equal. f_equal. lia. }
  apply G.
Qed.

Lemma cnt_app f lo mid hi : lo <= mid <= hi -> cnt f lo hi = cnt f lo mid + cnt f mid hi.
Proof.
  intros H. unfold cnt. rewrite (zrange_app lo mid hi H), filter_app, app_length. lia.
Qed.

Lemma cnt_ext f g lo hi : (forall x, lo <= x < hi -> f x = g x) -> cnt f lo hi = cnt g lo hi.
Proof.
  intros H. unfold cnt. f_equal. f_equal. apply filter_ext_in. intros x Hx. apply H, in_zrange, Hx.
Qed.

Lemma cnt_false f lo hi : (forall x, lo <= x < hi -> f x = false) -> cnt f lo hi = 0.
Proof.
  intros H. rewrite (cnt_ext f (fun _ => false)) by exact H. unfold cnt.
  induction (zrange lo hi); [reflexivity|]. exact IHl.
Qed.

Lemma cnt_nonneg f lo hi : 0 <= cnt f lo hi.
Proof. unfold cnt. lia. Qed.

Lemma cnt_one f x : cnt f x (x + 1) = if f x then 1 else 0.
Proof.
  unfold cnt. rewrite zrange_cons by lia. rewrite (zrange_empty (x + 1) (x + 1)) by lia. cbn [filter].
  destruct (f x); reflexivity.
Qed.

(** ** Owners *)

Definition own (counts : list Z) (gp : Z) : Z * Z :=
  match gpatch_to_rank_patch (gpatch_off_all_from 0 counts) gp with Some x => x | None => (-1, -1) end.

Definition off_of (counts : list Z) (r : Z) : Z := zsum (firstn (Z.to_nat r) counts).
Definition cnt_of (counts : list Z) (r : Z) : Z := nth (Z.to_nat r) counts 0.

Section Own.
  Variables (counts : list Z) (N : Z).
  Hypothesis Hc : Forall (fun c => 0 <= c) counts.
  Hypothesis HN : zsum counts = N.

  Lemma own_spec gp : 0 <= gp < N -> owns counts (fst (own counts gp)) (snd (own counts gp)) gp.
  Proof.
    intros H. destruct (lookup_correct counts gp Hc ltac:(lia)) as [r [p [E [Ho _]]]].
    unfold own. rewrite E. exact Ho.
  Qed.

  Lemma own_unique r p gp : owns counts r p gp -> own counts gp = (r, p).
  Proof. intros H. unfold own. rewrite (lookup_complete _ _ _ _ Hc H). reflexivity. Qed.

  Lemma owns_range r p gp : owns counts r p gp ->
    0 <= r < Z.of_nat (length counts) /\ 0 <= p < cnt_of counts r /\ gp = off_of counts r + p.
  Proof.
    intros [Hr [c [Hn [Hp E]]]].
    assert (Z.to_nat r < length counts)%nat by (apply nth_error_Some; congruence).
    split; [lia|]. unfold cnt_of. rewrite (nth_error_nth _ _ 0 Hn). auto.
  Qed.

  Lemma owns_intro r p : 0 <= r < Z.of_nat (length counts) -> 0 <= p < cnt_of counts r ->
    owns counts r p (off_of counts r + p).
  Proof.
    intros Hr Hp. split; [lia|]. exists (cnt_of counts r). split; [|split; [exact Hp|reflexivity]].
    unfold cnt_of. apply nth_error_nth'. lia.
  Qed.

  Lemma off_bounds r : 0 <= r < Z.of_nat (length counts) ->
    0 <= off_of counts r /\ 0 <= cnt_of counts r /\ off_of counts r + cnt_of counts r <= N.
  Proof.
    intros Hr. unfold off_of, cnt_of.
    assert (Hn : nth_error counts (Z.to_nat r) = Some (nth (Z.to_nat r) counts 0)) by (apply nth_error_nth'; lia).
    pose proof (zsum_firstn_S _ _ _ Hn) as E. pose proof (zsum_firstn_le counts (S (Z.to_nat r)) Hc).
    split; [|split].
    - apply zsum_nonneg. rewrite Forall_forall in *. intros x Hx. apply Hc.
      rewrite <- (firstn_skipn (Z.to_nat r) counts). apply in_or_app. auto.
    - rewrite Forall_forall in Hc. apply Hc. eapply nth_error_In; eauto.
    - lia.
  Qed.

  Lemma own_rank_iff gp r : 0 <= gp < N -> 0 <= r < Z.of_nat (length counts) ->
    (fst (own counts gp) = r <-> off_of counts r <= gp < off_of counts r + cnt_of counts r).
  Proof.
    intros Hg Hr. split.
    - intros <-. destruct (owns_range _ _ _ (own_spec gp Hg)) as [_ [Hp E]]. lia.
    - intros H. rewrite (own_unique r (gp - off_of counts r)); [reflexivity|].
      replace gp with (off_of counts r + (gp - off_of counts r)) at 2 by lia.
      apply owns_intro; lia.
  Qed.
End Own.

(** ** The posts of a process *)

(** tag = number of earlier patches with the same partner *)
Definition post_spec (rank : Z) (infos : list (Z * Z)) (t k p : Z) : Prop :=
  0 <= p /\ t <> rank /\ 0 <= t /\ (exists q, nth_error infos (Z.to_nat p) = Some (t, q)) /\
  k = Z.of_nat (length (filter (fun x => fst x =? t) (firstn (Z.to_nat p) infos))).

Lemma combine_app {A B} (a1 a2 : list A) (b1 b2 : list B) : length a1 = length b1 ->
  combine (a1 ++ a2) (b1 ++ b2) = combine a1 b1 ++ combine a2 b2.
Proof.
  revert b1. induction a1 as [|x a1 IH]; intros [|y b1] H; cbn in *; try lia; [reflexivity|].
  f_equal. apply IH. lia.
Qed.

Lemma enumerate_app {A} (l : list A) x : enumerate (l ++ [x]) = enumerate l ++ [(Z.of_nat (length l), x)].
Proof.
  unfold enumerate. rewrite app_length. cbn [length].
  replace (Z.of_nat (length l + 1)) with (Z.of_nat (length l) + 1) by lia.
  rewrite zrange_snoc by lia. rewrite combine_app; [reflexivity|]. rewrite zrange_length. lia.
Qed.

Lemma firstn_app_l {A} (l : list A) x n : (n <= length l)%nat -> firstn n (l ++ [x]) = firstn n l.
Proof. intros H. rewrite firstn_app. replace (n - length l)%nat with 0%nat by lia. apply app_nil_r. Qed.

Lemma post_spec_snoc rank infos x t k p :
  post_spec rank (infos ++ [x]) t k p <->
  post_spec rank infos t k p \/
  (p = Z.of_nat (length infos) /\ t = fst x /\ t <> rank /\ 0 <= t /\
   k = Z.of_nat (length (filter (fun y => fst y =? t) infos))).
Proof.
  unfold post_spec. split.
  - intros [Hp [Ht [Ht0 [[q Hq] Hk]]]].
    destruct (Nat.lt_ge_cases (Z.to_nat p) (length infos)) as [Hl|Hl].
    + left. rewrite nth_error_app1 in Hq by exact Hl. rewrite firstn_app_l in Hk by lia. eauto 10.
    + right. rewrite nth_error_app2 in Hq by exact Hl.
      destruct (Z.to_nat p - length infos)%nat as [|m] eqn:Em; [|destruct m; discriminate].
      cbn in Hq. injection Hq as ->. rewrite firstn_app_l in Hk by lia.
      replace (Z.to_nat p) with (length infos) in Hk by lia. rewrite firstn_all in Hk.
      cbn [fst]. repeat split; try assumption; lia.
  - intros [[Hp [Ht [Ht0 [[q Hq] Hk]]]]|[-> [-> [Ht [Ht0 ->]]]]].
    + assert (Hl : (Z.to_nat p < length infos)%nat) by (apply nth_error_Some; congruence).
      rewrite nth_error_app1, firstn_app_l by lia. eauto 10.
    + rewrite Nat2Z.id, nth_error_app2, Nat.sub_diag, firstn_app_l, firstn_all by lia.
      repeat split; try assumption; [lia|]. exists (snd x). destruct x; reflexivity.
Qed.

Lemma field_posts_spec rank infos t k p :
  In (t, k, p) (field_posts rank infos) <-> post_spec rank infos t k p.
Proof.
  unfold field_posts.
  assert (G : (forall r', fst (fold_left (field_step rank) (enumerate infos) (fun _ => 0, [])) r' =
                 if (r' =? rank) || (r' <? 0) then 0 else
                 Z.of_nat (length (filter (fun x => fst x =? r') infos))) /\
              forall t k p, In (t, k, p) (snd (fold_left (field_step rank) (enumerate infos) (fun _ => 0, [])))
                            <-> post_spec rank infos t k p).
  { clear t k p. induction infos as [|[r q] infos IH] using rev_ind.
    - cbn. split.
      + intros r'. destruct (_ || _); reflexivity.
      + intros t k p. split; [tauto|]. intros [_ [_ [_ [[q Hq] _]]]]. destruct (Z.to_nat p); discriminate.
    - rewrite enumerate_app, fold_left_app. cbn [fold_left].
      destruct (fold_left (field_step rank) (enumerate infos) (fun _ => 0, [])) as [c acc].
      destruct IH as [IH1 IH2]. cbn [fst snd] in *. unfold field_step.
      destruct ((r =? rank) || (r <? 0)) eqn:E; cbn [fst snd].
      + split.
        * intros r'. rewrite IH1. destruct ((r' =? rank) || (r' <? 0)) eqn:E'; [reflexivity|].
          rewrite filter_app. cbn [filter fst]. destruct (Z.eqb_spec r r'); [subst; congruence|].
          rewrite app_nil_r. reflexivity.
        * intros t k p. rewrite IH2, post_spec_snoc. cbn [fst]. split; [tauto|].
          intros [H|[_ [-> [H1 [H2 _]]]]]; [exact H|]. lia.
      + split.
        * intros r'. rewrite filter_app. cbn [filter fst].
          destruct (Z.eqb_spec r' r) as [->|Hne].
          -- rewrite IH1, E, Z.eqb_refl, app_length. cbn. lia.
          -- rewrite IH1. destruct (Z.eqb_spec r r'); [congruence|]. rewrite app_nil_r. reflexivity.
        * intros t k p. rewrite in_app_iff, IH2, post_spec_snoc. cbn [fst In].
          rewrite IH1, E. split.
          -- intros [H|[H|[]]]; [auto|]. injection H as <- <- <-. right. repeat split; lia.
          -- intros [H|[-> [-> [H1 [H2 ->]]]]]; auto. }
  apply G.
Qed.

(** the tables *)
Definition positions (infos : list (Z * Z)) (t : Z) : list Z :=
  map fst (filter (fun x => fst (snd x) =? t) (enumerate infos)).

Lemma positions_snoc infos r q t :
  positions (infos ++ [(r, q)]) t = positions infos t ++ (if r =? t then [Z.of_nat (length infos)] else []).
Proof.
  unfold positions. rewrite enumerate_app, filter_app, map_app. cbn [filter fst snd].
  destruct (r =? t); reflexivity.
Qed.

Definition tbl_ok (infos : list (Z * Z)) (tbl : list by_ri) : Prop :=
  NoDup (map fst tbl) /\
  forall t ps, In (t, ps) tbl <-> 0 <= t /\ ps = positions infos t /\ ps <> [].

Lemma add_to_ri_in tbl rank p : NoDup (map fst tbl) ->
  NoDup (map fst (add_to_ri tbl rank p)) /\
  (forall t, In t (map fst (add_to_ri tbl rank p)) -> In t (map fst tbl) \/ t = rank) /\
  (forall t ps, t <> rank -> (In (t, ps) (add_to_ri tbl rank p) <-> In (t, ps) tbl)) /\
  (forall ps, In (rank, ps) (add_to_ri tbl rank p) <->
     (exists ps', In (rank, ps') tbl /\ ps = ps' ++ [p]) \/ (~ In rank (map fst tbl) /\ ps = [p])).
Proof.
  induction tbl as [|[r ps0] tbl IH]; intros Hnd; cbn [add_to_ri map fst].
  - split; [repeat constructor; auto|]. split; [cbn; intuition|]. split.
    + intros t ps Ht. cbn. split; [intros [H|[]]; congruence|tauto].
    + intros ps. cbn. split.
      * intros [H|[]]. injection H as <-. right. auto.
      * intros [[? [[] _]]|[_ ->]]. auto.
  - cbn [map fst] in Hnd. inversion Hnd as [|? ? Hin Hnd']; subst.
    destruct (Z.eqb_spec r rank) as [->|Hne]; cbn [map fst].
    + split; [exact Hnd|]. split; [intros t Ht; auto|]. split.
      * intros t ps Ht. cbn. split; (intros [H|H]; [congruence|auto]).
      * intros ps. cbn. split.
        -- intros [H|H]; [injection H as <-; left; eauto|].
           exfalso. apply Hin. apply in_map_iff. exists (rank, ps). auto.
        -- intros [[ps' [[H|H] ->]]|[H _]].
           ++ injection H as <-. auto.
           ++ exfalso. apply Hin. apply in_map_iff. exists (rank, ps'). auto.
           ++ exfalso. apply H. auto.
    + destruct (IH Hnd') as [I1 [I2 [I3 I4]]]. split; [|split; [|split]].
      * constructor; [|exact I1]. intros H. apply I2 in H. destruct H as [H|H]; auto.
      * intros t [<-|H]; [left; now left|]. apply I2 in H. destruct H; [left; now right|now right].
      * intros t ps Ht. cbn [In]. rewrite (I3 t ps Ht). tauto.
      * intros ps. cbn [In]. rewrite I4. split.
        -- intros [H|[[ps' [H ->]]|[H ->]]]; [congruence|left; eauto|].
           right. split; [|reflexivity]. intros [H'|H']; [congruence|auto].
        -- intros [[ps' [[H|H] ->]]|[H ->]]; [congruence|right; left; eauto|].
           right. right. split; [tauto|reflexivity].
Qed.

Lemma build_by_ri_ok infos : tbl_ok infos (build_by_ri infos).
Proof.
  unfold build_by_ri. fold (enumerate infos).
  induction infos as [|[r q] infos IH] using rev_ind.
  - cbn. split; [constructor|]. intros t ps. cbn. split; [tauto|]. intros [_ [-> H]]. apply H. reflexivity.
  - rewrite enumerate_app, fold_left_app. cbn [fold_left].
    set (tbl := fold_left _ (enumerate infos) []) in *. destruct IH as [H1 H2].
    destruct (Z.ltb_spec r 0) as [Hr|Hr].
    + split; [exact H1|]. intros t ps. rewrite H2, positions_snoc.
      destruct (Z.eqb_spec r t); [|rewrite app_nil_r; reflexivity].
      split; intros [H _]; lia.
    + destruct (add_to_ri_in tbl r (Z.of_nat (length infos)) H1) as [A1 [_ [A3 A4]]].
      split; [exact A1|]. intros t ps. rewrite positions_snoc.
      destruct (Z.eqb_spec r t) as [<-|Hne].
      * rewrite A4. split.
        -- intros [[ps' [Hin ->]]|[Hn ->]].
           ++ apply H2 in Hin. destruct Hin as [_ [-> _]]. split; [lia|]. split; [reflexivity|].
              destruct (positions infos r); discriminate.
           ++ split; [lia|]. split; [|discriminate].
              destruct (positions infos r) as [|x l] eqn:E; [reflexivity|].
              exfalso. apply Hn. apply in_map_iff. exists (r, x :: l). split; [reflexivity|].
              apply H2. split; [lia|]. split; [auto|discriminate].
        -- intros [_ [-> _]]. destruct (positions infos r) as [|x l] eqn:E.
           ++ right. split; [|reflexivity]. intros H. apply in_map_iff in H.
              destruct H as [[t' ps'] [Et Hin]]. cbn in Et. subst t'. apply H2 in Hin.
              destruct Hin as [_ [-> Hne]]. congruence.
           ++ left. exists (x :: l). split; [|reflexivity]. apply H2. split; [lia|]. split; [auto|discriminate].
      * rewrite A3 by auto. rewrite H2, app_nil_r. reflexivity.
Qed.

Lemma positions_in infos t p : In p (positions infos t) <->
  0 <= p /\ exists q, nth_error infos (Z.to_nat p) = Some (t, q).
Proof.
  induction infos as [|[r q] infos IH] using rev_ind.
  - cbn. split; [tauto|]. intros [_ [q H]]. destruct (Z.to_nat p); discriminate.
  - rewrite positions_snoc, in_app_iff, IH. split.
    + intros [[Hp [q' Hq]]|H].
      * split; [exact Hp|]. exists q'. rewrite nth_error_app1; [exact Hq|]. apply nth_error_Some. congruence.
      * destruct (Z.eqb_spec r t) as [<-|]; [|destruct H]. destruct H as [<-|[]]. split; [lia|].
        exists q. rewrite Nat2Z.id, nth_error_app2, Nat.sub_diag by lia. reflexivity.
    + intros [Hp [q' Hq]]. destruct (Nat.lt_ge_cases (Z.to_nat p) (length infos)) as [Hl|Hl].
      * left. rewrite nth_error_app1 in Hq by exact Hl. eauto.
      * right. rewrite nth_error_app2 in Hq by exact Hl.
        destruct (Z.to_nat p - length infos)%nat as [|m] eqn:Em; [|destruct m; discriminate].
        cbn in Hq. injection Hq as -> ->. rewrite Z.eqb_refl. left. lia.
Qed.

Lemma positions_length infos t :
  length (positions infos t) = length (filter (fun x => fst x =? t) infos).
Proof.
  induction infos as [|[r q] infos IH] using rev_ind; [reflexivity|].
  rewrite positions_snoc, filter_app, !app_length, IH. cbn [filter fst].
  destruct (r =? t); reflexivity.
Qed.

Lemma positions_nth infos t k p :
  nth_error (positions infos t) k = Some p <->
  0 <= p /\ (exists q, nth_error infos (Z.to_nat p) = Some (t, q)) /\
  k = length (filter (fun x => fst x =? t) (firstn (Z.to_nat p) infos)).
Proof.
  induction infos as [|[r q] infos IH] using rev_ind.
  - cbn. split; [destruct k; discriminate|]. intros [_ [[q H] _]]. destruct (Z.to_nat p); discriminate.
  - rewrite positions_snoc. pose proof (positions_length infos t) as HL.
    destruct (Nat.lt_ge_cases k (length (positions infos t))) as [Hk|Hk].
    + rewrite nth_error_app1 by exact Hk. rewrite IH. split.
      * intros [Hp [[q' Hq] E]]. assert (Hl : (Z.to_nat p < length infos)%nat) by (apply nth_error_Some; congruence).
        rewrite nth_error_app1, firstn_app_l by lia. eauto.
      * intros [Hp [[q' Hq] E]].
        destruct (Nat.lt_ge_cases (Z.to_nat p) (length infos)) as [Hl|Hl].
        -- rewrite nth_error_app1 in Hq by exact Hl. rewrite firstn_app_l in E by lia. eauto.
        -- exfalso. rewrite nth_error_app2 in Hq by exact Hl.
           destruct (Z.to_nat p - length infos)%nat as [|m] eqn:Em; [|destruct m; discriminate].
           rewrite firstn_app_l in E by lia. replace (Z.to_nat p) with (length infos) in E by lia.
           rewrite firstn_all in E. lia.
    + rewrite nth_error_app2 by exact Hk. split.
      * intros H. destruct (Z.eqb_spec r t) as [<-|]; [|destruct (k - _)%nat; discriminate].
        destruct (k - length (positions infos r))%nat as [|m] eqn:Em; [|destruct m; discriminate].
        cbn in H. injection H as <-. split; [lia|].
        rewrite Nat2Z.id, nth_error_app2, Nat.sub_diag, firstn_app_l, firstn_all by lia.
        split; [exists q; reflexivity|]. lia.
      * intros [Hp [[q' Hq] E]].
        destruct (Nat.lt_ge_cases (Z.to_nat p) (length infos)) as [Hl|Hl].
        -- exfalso. rewrite nth_error_app1 in Hq by exact Hl. rewrite firstn_app_l in E by lia.
           assert (HH : nth_error (positions infos t) k = Some p) by (apply IH; eauto).
           assert (k < length (positions infos t))%nat by (apply nth_error_Some; congruence). lia.
        -- rewrite nth_error_app2 in Hq by exact Hl.
           destruct (Z.to_nat p - length infos)%nat as [|m] eqn:Em; [|destruct m; discriminate].
           cbn in Hq. injection Hq as -> ->. rewrite Z.eqb_refl.
           rewrite firstn_app_l in E by lia. replace (Z.to_nat p) with (length infos) in E by lia.
           rewrite firstn_all in E. replace (k - length (positions infos t))%nat with 0%nat by lia.
           cbn. f_equal. lia.
Qed.

Lemma enumerate_in {A} (l : list A) i x : In (i, x) (enumerate l) <-> 0 <= i /\ nth_error l (Z.to_nat i) = Some x.
Proof.
  induction l as [|y l IH] using rev_ind.
  - cbn. split; [tauto|]. intros [_ H]. destruct (Z.to_nat i); discriminate.
  - rewrite enumerate_app, in_app_iff, IH. cbn [In]. split.
    + intros [[Hi H]|[H|[]]].
      * split; [exact Hi|]. rewrite nth_error_app1; [exact H|]. apply nth_error_Some. congruence.
      * injection H as <- <-. split; [lia|]. rewrite Nat2Z.id, nth_error_app2, Nat.sub_diag by lia. reflexivity.
    + intros [Hi H]. destruct (Nat.lt_ge_cases (Z.to_nat i) (length l)) as [Hl|Hl].
      * left. rewrite nth_error_app1 in H by exact Hl. auto.
      * right. left. rewrite nth_error_app2 in H by exact Hl.
        destruct (Z.to_nat i - length l)%nat as [|m] eqn:Em; [|destruct m; discriminate].
        cbn in H. injection H as ->. f_equal. lia.
Qed.

Lemma particle_sends_spec rank infos t k p :
  In (t, k, p) (particle_sends rank (build_by_ri infos)) <-> post_spec rank infos t k p.
Proof.
  unfold particle_sends. rewrite in_flat_map.
  destruct (build_by_ri_ok infos) as [_ HT]. split.
  - intros [[r ps] [Hin H]]. apply HT in Hin. destruct Hin as [Hr [-> _]].
    destruct (Z.eqb_spec r rank) as [|Hne]; [destruct H|].
    apply in_map_iff in H. destruct H as [[pi p'] [E H]]. injection E as -> -> ->.
    apply enumerate_in in H. destruct H as [Hk Hn]. apply positions_nth in Hn.
    destruct Hn as [Hp [Hq Ek]]. unfold post_spec. repeat split; try assumption. lia.
  - intros [Hp [Ht [Ht0 [Hq Hk]]]]. exists (t, positions infos t). split.
    + apply HT. split; [exact Ht0|]. split; [reflexivity|].
      intros E. assert (In p (positions infos t)) by (apply positions_in; auto). rewrite E in H. destruct H.
    + destruct (Z.eqb_spec t rank); [contradiction|]. apply in_map_iff. exists (k, p).
      split; [reflexivity|]. apply enumerate_in. split; [lia|]. apply positions_nth.
      split; [exact Hp|]. split; [exact Hq|]. lia.
Qed.

(** ** Generic facts about distributions *)

  Lemma filter_targets_len (cA cB : list Z) r t p :
    0 <= p ->
    Z.of_nat (length (filter (fun x => fst x =? t)
      (firstn (Z.to_nat p) (map (own cB) (zrange (off_of cA r) (off_of cA r + cnt_of cA r))))))
    = cnt (fun gp => fst (own cB gp) =? t) (off_of cA r) (Z.min (off_of cA r + p) (off_of cA r + cnt_of cA r)).
  Proof.
    intros Hp. unfold cnt. f_equal. rewrite firstn_map.
    assert (E : firstn (Z.to_nat p) (zrange (off_of cA r) (off_of cA r + cnt_of cA r))
                = zrange (off_of cA r) (Z.min (off_of cA r + p) (off_of cA r + cnt_of cA r))).
    { unfold zrange. rewrite firstn_map. f_equal.
      assert (G : forall a b s, firstn a (seq s b) = seq s (Nat.min a b)).
      { induction a as [|a IH]; intros [|b] s; cbn; try reflexivity. rewrite IH. reflexivity. }
      rewrite G. f_equal. lia. }
    rewrite E. generalize (zrange (off_of cA r) (Z.min (off_of cA r + p) (off_of cA r + cnt_of cA r))).
    induction l as [|x l IH]; [reflexivity|]. cbn [map filter].
    destruct (fst (own cB x) =? t); cbn [length]; now rewrite IH.
  Qed.

  Lemma nth_targets (cA cB : list Z) r p x : 0 <= p ->
    nth_error (map (own cB) (zrange (off_of cA r) (off_of cA r + cnt_of cA r))) (Z.to_nat p) = Some x <->
    p < cnt_of cA r /\ x = own cB (off_of cA r + p).
  Proof.
    intros Hp. split.
    - intros H. assert (Hl : (Z.to_nat p < length (map (own cB) (zrange (off_of cA r) (off_of cA r + cnt_of cA r))))%nat)
        by (apply nth_error_Some; congruence).
      rewrite map_length, zrange_length in Hl. split; [lia|].
      unfold zrange in H. rewrite map_map, nth_error_map in H.
      rewrite (nth_error_nth' _ 0%nat) in H by (rewrite seq_length; lia).
      cbn in H. rewrite seq_nth in H by lia. cbn in H. injection H as <-. f_equal. lia.
    - intros [Hl ->]. unfold zrange. rewrite map_map, nth_error_map.
      rewrite (nth_error_nth' _ 0%nat) by (rewrite seq_length; lia).
      cbn. rewrite seq_nth by lia. cbn. f_equal. f_equal. lia.
  Qed.

  Lemma own_rank_range (np : V3 Z) size (counts : list Z) gp : Forall (fun c => 0 <= c) counts -> zsum counts = volume np ->
    Z.of_nat (length counts) = size -> 0 <= gp < volume np -> 0 <= fst (own counts gp) < size.
  Proof.
    intros H1 H2 H3 Hg. destruct (owns_range _ _ _ _ (own_spec counts _ H1 H2 gp Hg)) as [Hr _]. lia.
  Qed.

  Lemma distribute_nth {D} (np : V3 Z) (counts : list Z) (glob : list D) r p :
    Forall (fun c => 0 <= c) counts -> zsum counts = volume np -> Z.of_nat (length glob) = volume np ->
    0 <= r < Z.of_nat (length counts) -> 0 <= p ->
    nth_error (distribute counts glob r) (Z.to_nat p) =
    if p <? cnt_of counts r then nth_error glob (Z.to_nat (off_of counts r + p)) else None.
  Proof.
    intros Hc Hs Hl Hr Hp. unfold distribute. fold (off_of counts r). fold (cnt_of counts r).
    destruct (off_bounds counts (volume np) Hc Hs r Hr) as [O1 [O2 O3]].
    assert (HS : forall (l : list D) a i, nth_error (skipn a l) i = nth_error l (a + i)).
    { induction l as [|x l IH]; intros [|a] i; cbn; try reflexivity; [destruct i; reflexivity|apply IH]. }
    destruct (Z.ltb_spec p (cnt_of counts r)).
    - assert (HF : forall (l : list D) a i, (i < a)%nat -> nth_error (firstn a l) i = nth_error l i).
      { induction l as [|x l IH]; intros [|a] [|i] Hi; cbn; try reflexivity; try lia. apply IH. lia. }
      rewrite HF by lia. rewrite HS. f_equal. lia.
    - apply nth_error_None. rewrite firstn_length. lia.
  Qed.

  Lemma distribute_length {D} (np : V3 Z) (counts : list Z) (glob : list D) r :
    Forall (fun c => 0 <= c) counts -> zsum counts = volume np -> Z.of_nat (length glob) = volume np ->
    0 <= r < Z.of_nat (length counts) ->
    Z.of_nat (length (distribute counts glob r)) = cnt_of counts r.
  Proof.
    intros Hc Hs Hl Hr. unfold distribute. fold (off_of counts r). fold (cnt_of counts r).
    destruct (off_bounds counts (volume np) Hc Hs r Hr) as [O1 [O2 O3]].
    rewrite firstn_length, skipn_length. lia.
  Qed.

  Lemma sequence_distribute {D} (np : V3 Z) (counts : list Z) (glob : list D) r (f : Z -> option D) n :
    Forall (fun c => 0 <= c) counts -> zsum counts = volume np -> Z.of_nat (length glob) = volume np ->
    0 <= r < Z.of_nat (length counts) -> n = cnt_of counts r ->
    (forall p, 0 <= p < cnt_of counts r -> f p = nth_error glob (Z.to_nat (off_of counts r + p))) ->
    sequence (map f (zrange 0 n)) = Some (distribute counts glob r).
  Proof.
    intros Hc Hs Hl Hr -> Hf.
    assert (G : forall (l : list D), sequence (map (fun p => nth_error l (Z.to_nat p)) (zrange 0 (Z.of_nat (length l)))) = Some l).
    { induction l as [|x l IH] using rev_ind; [reflexivity|].
      rewrite app_length. cbn [length].
      replace (Z.of_nat (length l + 1)) with (Z.of_nat (length l) + 1) by lia.
      rewrite zrange_snoc by lia. rewrite map_app.
      assert (E : map (fun p => nth_error (l ++ [x]) (Z.to_nat p)) (zrange 0 (Z.of_nat (length l)))
                  = map (fun p => nth_error l (Z.to_nat p)) (zrange 0 (Z.of_nat (length l)))).
      { apply map_ext_in. intros a Ha. apply in_zrange in Ha. apply nth_error_app1. lia. }
      rewrite E. cbn [map]. rewrite Nat2Z.id, nth_error_app2, Nat.sub_diag by lia. cbn [nth_error].
      clear E. revert IH. generalize (map (fun p => nth_error l (Z.to_nat p)) (zrange 0 (Z.of_nat (length l)))).
      intros os. clear. revert l. induction os as [|[o|] os IH]; intros l H; cbn in *.
      - injection H as <-. reflexivity.
      - destruct (sequence os) as [l'|]; [|discriminate]. injection H as <-.
        rewrite (IH l' eq_refl). reflexivity.
      - discriminate. }
    rewrite <- (G (distribute counts glob r)). rewrite (distribute_length np) by assumption.
    f_equal. apply map_ext_in. intros p Hp. apply in_zrange in Hp.
    rewrite Hf by exact Hp. rewrite (distribute_nth np) by (assumption || lia).
    destruct (Z.ltb_spec p (cnt_of counts r)); [reflexivity|lia].
  Qed.

  Lemma concat_option_some {A B} (f : A -> option (list B)) (g : A -> list B) l :
    (forall a, In a l -> f a = Some (g a)) ->
    concat_option (map f l) = Some (flat_map g l).
  Proof.
    intros H. unfold concat_option. rewrite (sequence_map_some f g) by exact H.
    f_equal. rewrite flat_map_concat_map. reflexivity.
  Qed.

(** ** Two domains that differ in the distribution only *)

Section Move.
  Variables (c : curve) (np gdims : V3 Z) (per : V3 bool) (size : Z).
  Variables (pr_old pr_new : option (list Z)) (dom_old dom_new : domain).
  Hypothesis Hpos : all_pos np.
  Hypothesis Hold : domain_setup c np gdims per pr_old size = Some dom_old.
  Hypothesis Hnew : domain_setup c np gdims per pr_new size = Some dom_new.
  Hypothesis Hvold : counts_valid pr_old (volume np) size.
  Hypothesis Hvnew : counts_valid pr_new (volume np) size.
  Let co := counts_of pr_old (volume np) size.
  Let cn := counts_of pr_new (volume np) size.
  Hypothesis Hlo : Z.of_nat (length co) = size.
  Hypothesis Hln : Z.of_nat (length cn) = size.

  Let HV := volume_pos np Hpos.
  Let Hco := counts_of_ok pr_old (volume np) size (Z.lt_le_incl _ _ HV) Hvold.
  Let Hcn := counts_of_ok pr_new (volume np) size (Z.lt_le_incl _ _ HV) Hvnew.

  (** generic: targets of the patches of a rank *)
  Lemma targets_gen prA prB domA domB r :
    domain_setup c np gdims per prA size = Some domA ->
    domain_setup c np gdims per prB size = Some domB ->
    counts_valid prA (volume np) size -> counts_valid prB (volume np) size ->
    0 <= r < Z.of_nat (length (counts_of prA (volume np) size)) ->
    patch_targets domA domB r =
    Some (map (own (counts_of prB (volume np) size))
              (zrange (off_of (counts_of prA (volume np) size) r)
                      (off_of (counts_of prA (volume np) size) r + cnt_of (counts_of prA (volume np) size) r))).
  Proof.
    intros HA HB HvA HvB Hr. set (cA := counts_of prA _ _) in *. set (cB := counts_of prB _ _).
    destruct (counts_of_ok prA (volume np) size (Z.lt_le_incl _ _ HV) HvA) as [HcA HsA]. fold cA in HcA, HsA.
    destruct (counts_of_ok prB (volume np) size (Z.lt_le_incl _ _ HV) HvB) as [HcB HsB]. fold cB in HcB, HsB.
    unfold patch_targets.
    rewrite (nr_patches_ok c np gdims per prA size domA HA r (cnt_of cA r)).
    2: lia. 2:{ unfold cnt_of. apply nth_error_nth'. fold cA. lia. }
    rewrite (sequence_map_some _ (fun p => own cB (off_of cA r + p))).
    - f_equal. unfold zrange. rewrite !map_map.
      replace (Z.to_nat (off_of cA r + cnt_of cA r - off_of cA r)) with (Z.to_nat (cnt_of cA r - 0)) by lia.
      apply map_ext. intros a. f_equal.
    - intros p Hp. apply in_zrange in Hp.
      pose proof (owns_intro cA r p Hr Hp) as Ho.
      destruct (owns_local c np gdims per prA size domA Hpos HA HvA r p _ Ho) as [Hgp EL].
      destruct (global_info c np gdims per prA size domA Hpos HA HvA _ Hgp) as [info [EI [_ [_ [Hb [E3 _]]]]]].
      rewrite EL, EI. unfold get_level_idx3_patch_info.
      assert (Hsfc : forall dA dB prA prB, domain_setup c np gdims per prA size = Some dA ->
         domain_setup c np gdims per prB size = Some dB -> dm_sfc dA = dm_sfc dB /\ sfc_setup c np = Some (dm_sfc dA)).
      { clear. intros dA dB pA pB. unfold domain_setup.
        destruct (dim_ldims _ _); [|discriminate]. destruct (dim_ldims _ _); [|discriminate].
        destruct (dim_ldims _ _); [|discriminate]. destruct (sfc_setup c np); [|discriminate].
        intros [= <-] [= <-]. auto. }
      destruct (Hsfc domA domB prA prB HA HB) as [Es1 Es2].
      rewrite <- Es1. destruct (curve_bijective c np _ Hpos Es2) as [B1 _].
      destruct (B1 _ Hgp) as [p3 [Ep [_ Eq]]]. rewrite E3 in Ep. injection Ep as <-. rewrite Eq.
      destruct (global_info c np gdims per prB size domB Hpos HB HvB _ Hgp) as [infoB [EB [_ [HoB _]]]].
      rewrite EB. f_equal. fold cB in HoB. symmetry. apply own_unique; assumption.
  Qed.

  Lemma send_targets r : 0 <= r < size ->
    patch_targets dom_old dom_new r = Some (map (own cn) (zrange (off_of co r) (off_of co r + cnt_of co r))).
  Proof. intros Hr. apply targets_gen; try assumption. fold co. lia. Qed.

  Lemma recv_targets r : 0 <= r < size ->
    patch_targets dom_new dom_old r = Some (map (own co) (zrange (off_of cn r) (off_of cn r + cnt_of cn r))).
  Proof. intros Hr. apply targets_gen; try assumption. fold cn. lia. Qed.

  (** *** Numbering of the patches going from [s] to [t] *)

  Definition both (s t gp : Z) : bool := (fst (own co gp) =? s) && (fst (own cn gp) =? t).

  (** the number of patches before [gp] that go from its old to its new owner *)
  Lemma send_rank_cnt s t p : 0 <= s < size -> 0 <= p <= cnt_of co s ->
    cnt (fun gp => fst (own cn gp) =? t) (off_of co s) (off_of co s + p)
    = cnt (both s t) 0 (off_of co s + p).
  Proof.
    intros Hs Hp. destruct Hco as [Hc1 Hc2]. fold co in Hc1, Hc2.
    destruct (off_bounds co (volume np) Hc1 Hc2 s ltac:(lia)) as [O1 [O2 O3]].
    rewrite (cnt_app (both s t) 0 (off_of co s) (off_of co s + p)) by lia.
    rewrite (cnt_false (both s t) 0 (off_of co s)).
    - rewrite Z.add_0_l. apply cnt_ext. intros x Hx. unfold both.
      destruct (own_rank_iff co (volume np) Hc1 Hc2 x s ltac:(lia) ltac:(lia)) as [_ H].
      rewrite (proj2 (Z.eqb_eq _ _) (H ltac:(lia))). reflexivity.
    - intros x Hx. unfold both. apply andb_false_iff. left. apply Z.eqb_neq. intros E.
      apply (own_rank_iff co (volume np) Hc1 Hc2 x s) in E; lia.
  Qed.

  Lemma recv_rank_cnt s t p : 0 <= t < size -> 0 <= p <= cnt_of cn t ->
    cnt (fun gp => fst (own co gp) =? s) (off_of cn t) (off_of cn t + p)
    = cnt (both s t) 0 (off_of cn t + p).
  Proof.
    intros Ht Hp. destruct Hcn as [Hc1 Hc2]. fold cn in Hc1, Hc2.
    destruct (off_bounds cn (volume np) Hc1 Hc2 t ltac:(lia)) as [O1 [O2 O3]].
    rewrite (cnt_app (both s t) 0 (off_of cn t) (off_of cn t + p)) by lia.
    rewrite (cnt_false (both s t) 0 (off_of cn t)).
    - rewrite Z.add_0_l. apply cnt_ext. intros x Hx. unfold both.
      destruct (own_rank_iff cn (volume np) Hc1 Hc2 x t ltac:(lia) ltac:(lia)) as [_ H].
      rewrite (proj2 (Z.eqb_eq _ _) (H ltac:(lia))), andb_true_r. reflexivity.
    - intros x Hx. unfold both. apply andb_false_iff. right. apply Z.eqb_neq. intros E.
      apply (own_rank_iff cn (volume np) Hc1 Hc2 x t) in E; lia.
  Qed.

  (** what is posted, in terms of global patch numbers *)
  Lemma send_post s t k p : 0 <= s < size ->
    post_spec s (map (own cn) (zrange (off_of co s) (off_of co s + cnt_of co s))) t k p <->
    exists gp, 0 <= gp < volume np /\ s <> t /\ own co gp = (s, p) /\ fst (own cn gp) = t /\ k = cnt (both s t) 0 gp.
  Proof.
    intros Hs. destruct Hco as [Hc1 Hc2]. destruct Hcn as [Hd1 Hd2]. fold co in Hc1, Hc2. fold cn in Hd1, Hd2.
    destruct (off_bounds co (volume np) Hc1 Hc2 s ltac:(lia)) as [O1 [O2 O3]].
    unfold post_spec. split.
    - intros [Hp [Hts [Ht0 [[q Hq] Hk]]]]. apply (nth_targets co cn) in Hq; [|exact Hp]. destruct Hq as [Hpl Eq].
      rewrite (filter_targets_len co cn) in Hk by exact Hp.
      rewrite Z.min_l in Hk by lia. rewrite send_rank_cnt in Hk by lia.
      exists (off_of co s + p). split; [lia|]. split; [auto|]. split; [|split; [rewrite <- Eq; reflexivity|exact Hk]].
      apply own_unique; [exact Hc1|]. apply owns_intro; lia.
    - intros [gp [Hg [Hst [Eo [En Hk]]]]].
      pose proof (own_spec co _ Hc1 Hc2 gp Hg) as Ho. rewrite Eo in Ho. cbn [fst snd] in Ho.
      destruct (owns_range _ _ _ _ Ho) as [_ [Hp Egp]].
      split; [lia|]. split; [auto|]. split.
      { rewrite <- En. apply (own_rank_range np size cn gp); assumption. }
      split.
      + exists (snd (own cn gp)). apply (nth_targets co cn); [lia|]. split; [lia|].
        rewrite <- Egp, <- En. symmetry. apply surjective_pairing.
      + rewrite (filter_targets_len co cn) by lia. rewrite Z.min_l by lia. rewrite send_rank_cnt by lia.
        rewrite Hk, Egp. reflexivity.
  Qed.

  Lemma recv_post s t k p : 0 <= t < size ->
    post_spec t (map (own co) (zrange (off_of cn t) (off_of cn t + cnt_of cn t))) s k p <->
    exists gp, 0 <= gp < volume np /\ s <> t /\ own cn gp = (t, p) /\ fst (own co gp) = s /\ k = cnt (both s t) 0 gp.
  Proof.
    intros Ht. destruct Hco as [Hc1 Hc2]. destruct Hcn as [Hd1 Hd2]. fold co in Hc1, Hc2. fold cn in Hd1, Hd2.
    destruct (off_bounds cn (volume np) Hd1 Hd2 t ltac:(lia)) as [O1 [O2 O3]].
    unfold post_spec. split.
    - intros [Hp [Hts [Ht0 [[q Hq] Hk]]]]. apply (nth_targets cn co) in Hq; [|exact Hp]. destruct Hq as [Hpl Eq].
      rewrite (filter_targets_len cn co) in Hk by exact Hp.
      rewrite Z.min_l in Hk by lia. rewrite recv_rank_cnt in Hk by lia.
      exists (off_of cn t + p). split; [lia|]. split; [auto|]. split; [|split; [rewrite <- Eq; reflexivity|exact Hk]].
      apply own_unique; [exact Hd1|]. apply owns_intro; lia.
    - intros [gp [Hg [Hst [Eo [En Hk]]]]].
      pose proof (own_spec cn _ Hd1 Hd2 gp Hg) as Ho. rewrite Eo in Ho. cbn [fst snd] in Ho.
      destruct (owns_range _ _ _ _ Ho) as [_ [Hp Egp]].
      split; [lia|]. split; [auto|]. split.
      { rewrite <- En. apply (own_rank_range np size co gp); assumption. }
      split.
      + exists (snd (own co gp)). apply (nth_targets cn co); [lia|]. split; [lia|].
        rewrite <- Egp, <- En. symmetry. apply surjective_pairing.
      + rewrite (filter_targets_len cn co) by lia. rewrite Z.min_l by lia. rewrite recv_rank_cnt by lia.
        rewrite Hk, Egp. reflexivity.
  Qed.

  (** the tag identifies the patch *)
  Lemma tag_inj s t g1 g2 : 0 <= g1 -> 0 <= g2 -> both s t g1 = true -> both s t g2 = true ->
    cnt (both s t) 0 g1 = cnt (both s t) 0 g2 -> g1 = g2.
  Proof.
    intros H1 H2 B1 B2 E.
    destruct (Z.lt_trichotomy g1 g2) as [H|[H|H]]; [|exact H|].
    - rewrite (cnt_app _ 0 g1 g2) in E by lia. rewrite (cnt_app _ g1 (g1 + 1) g2), cnt_one, B1 in E by lia.
      pose proof (cnt_nonneg (both s t) (g1 + 1) g2). lia.
    - rewrite (cnt_app _ 0 g2 g1) in E by lia. rewrite (cnt_app _ g2 (g2 + 1) g1), cnt_one, B2 in E by lia.
      pose proof (cnt_nonneg (both s t) (g2 + 1) g1). lia.
  Qed.

  Lemma both_true s t gp p : own co gp = (s, p) -> fst (own cn gp) = t -> both s t gp = true.
  Proof. intros E1 E2. unfold both. rewrite E1, E2. cbn [fst]. rewrite !Z.eqb_refl. reflexivity. Qed.

  (** *** Data *)

  (** *** Messages of a phase with one message per patch *)

  Variable posts : Z -> list (Z * Z) -> list (Z * Z * Z).
  Hypothesis posts_spec : forall rank infos t k p, In (t, k, p) (posts rank infos) <-> post_spec rank infos t k p.

  Definition sinfos r := map (own cn) (zrange (off_of co r) (off_of co r + cnt_of co r)).
  Definition rinfos r := map (own co) (zrange (off_of cn r) (off_of cn r + cnt_of cn r)).

  Lemma glob_get {D} (glob : list D) gp : Z.of_nat (length glob) = volume np -> 0 <= gp < volume np ->
    exists d, nth_error glob (Z.to_nat gp) = Some d.
  Proof.
    intros Hl Hg. destruct (nth_error glob (Z.to_nat gp)) as [d|] eqn:E; [eauto|].
    apply nth_error_None in E. lia.
  Qed.

  Definition old_get {D} (glob : list D) r p : option D :=
    if p <? 0 then None else nth_error (distribute co glob r) (Z.to_nat p).

  Lemma old_get_ok {D} (glob : list D) r gp p : Z.of_nat (length glob) = volume np ->
    0 <= gp < volume np -> own co gp = (r, p) -> old_get glob r p = nth_error glob (Z.to_nat gp).
  Proof.
    intros Hl Hg E. destruct Hco as [Hc1 Hc2]. fold co in Hc1, Hc2.
    pose proof (own_spec co _ Hc1 Hc2 gp Hg) as Ho. rewrite E in Ho. cbn [fst snd] in Ho.
    destruct (owns_range _ _ _ _ Ho) as [Hr [Hp Egp]].
    unfold old_get. destruct (Z.ltb_spec p 0); [lia|].
    rewrite (distribute_nth np) by (assumption || lia).
    destruct (Z.ltb_spec p (cnt_of co r)); [|lia]. rewrite <- Egp. reflexivity.
  Qed.

  Lemma post_payloads_ok {D} (glob : list D) r : Z.of_nat (length glob) = volume np -> 0 <= r < size ->
    exists msgs, post_payloads r (posts r (sinfos r)) (old_get glob r) = Some msgs /\
    forall s t k d, In ((s, t, k), d) msgs <->
      s = r /\ exists gp p, 0 <= gp < volume np /\ s <> t /\ own co gp = (s, p) /\ fst (own cn gp) = t /\
                 k = cnt (both s t) 0 gp /\ nth_error glob (Z.to_nat gp) = Some d.
  Proof.
    intros Hl Hr. unfold post_payloads.
    set (f := fun '(dst, tag, w) => match old_get glob r w with
                                    | Some d => Some ((r, dst, tag), d) | None => None end).
    assert (Hf : forall x, In x (posts r (sinfos r)) -> exists gp p t k d, x = (t, k, p) /\
              0 <= gp < volume np /\ r <> t /\ own co gp = (r, p) /\ fst (own cn gp) = t /\
              k = cnt (both r t) 0 gp /\ nth_error glob (Z.to_nat gp) = Some d /\ f x = Some ((r, t, k), d)).
    { intros [[t k] p] Hin. apply posts_spec in Hin. apply (send_post r t k p Hr) in Hin.
      destruct Hin as [gp [Hg [Hst [E1 [E2 Hk]]]]]. destruct (glob_get glob gp Hl Hg) as [d Hd].
      exists gp, p, t, k, d. repeat (split; [assumption || reflexivity|]).
      unfold f. rewrite (old_get_ok glob r gp p Hl Hg E1), Hd. reflexivity. }
    assert (Hs : exists msgs, sequence (map f (posts r (sinfos r))) = Some msgs /\
                 forall m, In m msgs <-> exists x, In x (posts r (sinfos r)) /\ f x = Some m).
    { clear - Hf. induction (posts r (sinfos r)) as [|x l IH].
      - exists []. split; [reflexivity|]. intros m. cbn. split; [tauto|]. intros [x [[] _]].
      - destruct IH as [msgs [E Hm]]; [intros y Hy; apply Hf; now right|].
        destruct (Hf x (or_introl eq_refl)) as [gp [p [t [k [d [_ [_ [_ [_ [_ [_ [_ Ex]]]]]]]]]]]].
        exists ((r, t, k, d) :: msgs). cbn [map sequence]. rewrite Ex, E. split; [reflexivity|].
        intros m. cbn [In]. rewrite Hm. split.
        + intros [<-|[y [Hy Ey]]]; [exists x; auto|exists y; auto].
        + intros [y [[<-|Hy] Ey]]; [left; congruence|right; eauto]. }
    destruct Hs as [msgs [E Hm]]. exists msgs. split; [exact E|].
    intros s t k d. rewrite Hm. split.
    - intros [x [Hin Ex]]. destruct (Hf x Hin) as [gp [p [t' [k' [d' [-> [Hg [Hst [E1 [E2 [Hk [Hd Ex']]]]]]]]]]]].
      rewrite Ex' in Ex. injection Ex as <- <- <- <-. split; [reflexivity|]. exists gp, p. auto 10.
    - intros [-> [gp [p [Hg [Hst [E1 [E2 [Hk Hd]]]]]]]]. exists (t, k, p). split.
      + apply posts_spec. apply send_post; [exact Hr|]. exists gp. auto.
      + unfold f. rewrite (old_get_ok glob r gp p Hl Hg E1), Hd. reflexivity.
  Qed.

  Lemma phase_messages {D} (glob : list D) : Z.of_nat (length glob) = volume np ->
    exists msgs,
      concat_option (map (fun r =>
        match patch_targets dom_old dom_new r with
        | Some infos => post_payloads r (posts r infos) (old_get glob r)
        | None => None
        end) (zrange 0 size)) = Some msgs /\
      forall s t k d, In ((s, t, k), d) msgs <->
        0 <= s < size /\ exists gp p, 0 <= gp < volume np /\ s <> t /\ own co gp = (s, p) /\ fst (own cn gp) = t /\
                 k = cnt (both s t) 0 gp /\ nth_error glob (Z.to_nat gp) = Some d.
  Proof.
    intros Hl.
    set (g := fun r => match post_payloads r (posts r (sinfos r)) (old_get glob r) with Some m => m | None => [] end).
    exists (flat_map g (zrange 0 size)). split.
    - apply concat_option_some. intros r Hr. apply in_zrange in Hr.
      rewrite (send_targets r Hr). fold (sinfos r). unfold g.
      destruct (post_payloads_ok glob r Hl Hr) as [m [-> _]]. reflexivity.
    - intros s t k d. rewrite in_flat_map. split.
      + intros [r [Hr Hin]]. apply in_zrange in Hr. unfold g in Hin.
        destruct (post_payloads_ok glob r Hl Hr) as [m [E Hm]]. rewrite E in Hin.
        apply Hm in Hin. destruct Hin as [-> H]. auto.
      + intros [Hs H]. exists s. split; [apply in_zrange; exact Hs|]. unfold g.
        destruct (post_payloads_ok glob s Hl Hs) as [m [E Hm]]. rewrite E. apply Hm. auto.
  Qed.

  Lemma phase_after {D} (glob : list D) msgs pool t :
    Z.of_nat (length glob) = volume np -> 0 <= t < size ->
    (forall s t k d, In ((s, t, k), d) msgs <->
        0 <= s < size /\ exists gp p, 0 <= gp < volume np /\ s <> t /\ own co gp = (s, p) /\ fst (own cn gp) = t /\
                 k = cnt (both s t) 0 gp /\ nth_error glob (Z.to_nat gp) = Some d) ->
    Permutation pool msgs ->
    forall p, 0 <= p < cnt_of cn t ->
    new_patch t (rinfos t) (distribute co glob t) (posts t (rinfos t)) (receive pool t) p
    = nth_error glob (Z.to_nat (off_of cn t + p)).
  Proof.
    intros Hl Ht Hmsgs HP p Hp.
    destruct Hco as [Hc1 Hc2]. destruct Hcn as [Hd1 Hd2]. fold co in Hc1, Hc2. fold cn in Hd1, Hd2.
    destruct (off_bounds cn (volume np) Hd1 Hd2 t ltac:(lia)) as [O1 [O2 O3]].
    set (gp := off_of cn t + p).
    assert (Hg : 0 <= gp < volume np) by (unfold gp; lia).
    assert (En : own cn gp = (t, p)) by (apply own_unique; [exact Hd1|]; apply owns_intro; lia).
    destruct (own co gp) as [s q] eqn:Eo.
    assert (Hi : nth_error (rinfos t) (Z.to_nat p) = Some (s, q)).
    { apply (nth_targets cn co); [lia|]. split; [lia|]. fold gp. auto. }
    unfold new_patch. rewrite Hi.
    destruct (Z.eqb_spec s t) as [->|Hst].
    - pose proof (old_get_ok glob t gp q Hl Hg Eo) as H. unfold old_get in H. exact H.
    - destruct (find _ (posts t (rinfos t))) as [[[s' k'] p']|] eqn:Ef.
      + apply find_some in Ef. destruct Ef as [Hin Ep]. apply Z.eqb_eq in Ep. subst p'.
        apply posts_spec in Hin. apply (recv_post s' t k' p Ht) in Hin.
        destruct Hin as [gp' [Hg' [Hst' [En' [Eo' Hk]]]]].
        assert (gp' = gp).
        { pose proof (own_spec cn _ Hd1 Hd2 gp' Hg') as Ho. rewrite En' in Ho. cbn [fst snd] in Ho.
          destruct (owns_range _ _ _ _ Ho) as [_ [_ Eg]]. unfold gp. exact Eg. }
        subst gp'. rewrite Eo in Eo'. cbn [fst] in Eo'. subst s'.
        destruct (glob_get glob gp Hl Hg) as [d Hd]. rewrite Hd. unfold receive.
        assert (Hmem : forall x, In x pool <-> In x msgs).
        { intros x. split; apply Permutation_in; [exact HP|apply Permutation_sym; exact HP]. }
        apply nth_queue_unique.
        * apply Hmem, Hmsgs. split.
          { pose proof (own_rank_range np size co gp Hc1 Hc2 Hlo Hg) as H. rewrite Eo in H. exact H. }
          exists gp, q. rewrite En. auto 10.
        * intros d' Hd'. apply Hmem, Hmsgs in Hd'.
          destruct Hd' as [_ [g2 [p2 [Hg2 [_ [E1 [E2 [Hk2 Hd2']]]]]]]].
          assert (g2 = gp).
          { apply (tag_inj s t); try lia.
            - eapply both_true; eassumption.
            - eapply both_true; [exact Eo|]. rewrite En. reflexivity. }
          subst g2. congruence.
      + exfalso.
        assert (Hin : In (s, cnt (both s t) 0 gp, p) (posts t (rinfos t))).
        { apply posts_spec. apply recv_post; [exact Ht|]. exists gp. rewrite Eo. auto 10. }
        apply (find_none _ _ Ef) in Hin. cbn in Hin. rewrite Z.eqb_refl in Hin. discriminate.
  Qed.
End Move.
