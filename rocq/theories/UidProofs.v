From Verif Require Import Base UidModel.
Local Open Scope Z_scope.

(** ** Vocabulary of the statements *)

(** number of injections on process r *)
Definition requests (r : Z) (evs : list uid_event) : Z :=
  Z.of_nat (length (filter (fun e => match e with Inject r' => r' =? r | Rebalance => false end) evs)).

Definition no_rebalance (evs : list uid_event) : Prop := Forall (fun e => e <> Rebalance) evs.
Definition ranks_ok (size : Z) (evs : list uid_event) : Prop :=
  Forall (fun e => match e with Inject r => 0 <= r < size | Rebalance => True end) evs.

(** each process stays in the range of the id type *)
Definition no_overflow (size : Z) (evs : list uid_event) : Prop :=
  forall r, 0 <= r < size -> requests r evs * size <= 2 ^ 64.

(** the injections of a run in order: how many the process had before, and the
    process *)
Fixpoint injections (before : Z -> Z) (evs : list uid_event) : list (Z * Z) :=
  match evs with
  | [] => []
  | Inject r :: evs => (before r, r) :: injections (fun r' => if r' =? r then before r + 1 else before r') evs
  | Rebalance :: evs => injections before evs
  end.

(** ** Proofs *)

Lemma requests_nonneg r evs : 0 <= requests r evs.
Proof. unfold requests. lia. Qed.

Lemma requests_cons r e evs : requests r (e :: evs) =
  (match e with Inject r' => if r' =? r then 1 else 0 | Rebalance => 0 end) + requests r evs.
Proof.
  unfold requests. cbn [filter]. destruct e as [r'|]; [|cbn; lia]. destruct (r' =? r); cbn [length]; lia.
Qed.

Lemma run_ids_closed size : forall evs g before, no_rebalance evs ->
  (forall r, g r = u64 (before r)) ->
  run_ids size g evs = map (fun kr => u64 (fst kr * size + snd kr)) (injections before evs).
Proof.
  induction evs as [|e evs IH]; intros g before Hn Hg; [reflexivity|].
  inversion Hn as [|? ? Hne Hn']; subst. destruct e as [r|]; [|congruence].
  cbn [run_ids injections map next_id fst snd]. f_equal.
  - rewrite Hg. unfold u64. rewrite Zplus_mod, Zmult_mod, Zmod_mod, <- Zmult_mod, <- Zplus_mod. reflexivity.
  - apply IH; [exact Hn'|]. intros r'. destruct (Z.eqb_spec r' r) as [->|]; [|apply Hg].
    rewrite Hg. unfold u64. rewrite Zplus_mod_idemp_l. reflexivity.
Qed.

Lemma injections_bounds : forall evs before k r, In (k, r) (injections before evs) ->
  before r <= k < before r + requests r evs.
Proof.
  induction evs as [|e evs IH]; intros before k r Hin; [destruct Hin|].
  rewrite requests_cons. destruct e as [r0|]; cbn [injections] in Hin; [|specialize (IH _ _ _ Hin); lia].
  pose proof (requests_nonneg r evs). destruct Hin as [E|Hin].
  - injection E as <- <-. rewrite Z.eqb_refl. lia.
  - specialize (IH _ _ _ Hin). cbn in IH. destruct (Z.eqb_spec r r0), (Z.eqb_spec r0 r); try congruence; try lia.
    subst. lia.
Qed.

Lemma injections_rank size : forall evs before k r, ranks_ok size evs -> In (k, r) (injections before evs) -> 0 <= r < size.
Proof.
  induction evs as [|e evs IH]; intros before k r Hr Hin; [destruct Hin|]. inversion Hr; subst.
  destruct e as [r0|]; cbn [injections] in Hin; [|eauto]. destruct Hin as [E|Hin]; [|eauto].
  injection E as _ ->. assumption.
Qed.

Lemma injections_NoDup : forall evs before, NoDup (injections before evs).
Proof.
  induction evs as [|e evs IH]; intros before; [constructor|]. destruct e as [r|]; cbn [injections]; [|apply IH].
  constructor; [|apply IH]. intros Hin. apply injections_bounds in Hin. cbn in Hin. rewrite Z.eqb_refl in Hin. lia.
Qed.

Lemma NoDup_map_in {A B} (f : A -> B) l : (forall a b, In a l -> In b l -> f a = f b -> a = b) -> NoDup l -> NoDup (map f l).
Proof.
  intros Hf HN. induction HN as [|x l Hx HN IH]; [constructor|]. cbn. constructor.
  - rewrite in_map_iff. intros [y [E Hy]]. apply Hx. replace x with y; [exact Hy|]. apply Hf; [now right|now left|exact E].
  - apply IH. intros a b Ha Hb. apply Hf; now right.
Qed.

Lemma ids_unique size evs : 0 < size -> no_rebalance evs -> ranks_ok size evs -> no_overflow size evs ->
  NoDup (run_ids size fresh_gens evs).
Proof.
  intros Hs Hn Hr Ho. rewrite (run_ids_closed size evs fresh_gens (fun _ => 0) Hn) by reflexivity.
  apply NoDup_map_in; [|apply injections_NoDup].
  assert (HB : forall k r, In (k, r) (injections (fun _ => 0) evs) -> 0 <= k /\ 0 <= r < size /\ 0 <= k * size /\ k * size + r < 2 ^ 64).
  { intros k r Hin. pose proof (injections_bounds _ _ _ _ Hin) as Hk. cbv beta in Hk. pose proof (injections_rank _ _ _ _ _ Hr Hin) as Hrr.
    specialize (Ho r Hrr). split; [lia|]. split; [exact Hrr|].
    assert (0 <= k * size) by (apply Z.mul_nonneg_nonneg; lia).
    assert ((k + 1) * size <= requests r evs * size) by (apply Z.mul_le_mono_nonneg_r; lia). lia. }
  intros [k1 r1] [k2 r2] H1 H2 E. apply HB in H1, H2. cbn [fst snd] in E. unfold u64 in E.
  rewrite !Z.mod_small in E by lia.
  assert (k1 = k2).
  { rewrite (Z.div_unique_pos (k1 * size + r1) size k1 r1), (Z.div_unique_pos (k2 * size + r2) size k2 r2) by lia.
    rewrite E. reflexivity. }
  subst. f_equal. lia.
Qed.

(** which ids coincide, without any bound *)
Lemma ids_collide size evs i j ki ri kj rj : no_rebalance evs ->
  nth_error (injections (fun _ => 0) evs) i = Some (ki, ri) ->
  nth_error (injections (fun _ => 0) evs) j = Some (kj, rj) ->
  exists a b, nth_error (run_ids size fresh_gens evs) i = Some a /\ nth_error (run_ids size fresh_gens evs) j = Some b /\
    (a = b <-> (2 ^ 64 | (ki * size + ri) - (kj * size + rj))).
Proof.
  intros Hn Hi Hj. rewrite (run_ids_closed size evs fresh_gens (fun _ => 0) Hn) by reflexivity.
  rewrite !nth_error_map, Hi, Hj. cbn [option_map fst snd]. eexists _, _. split; [reflexivity|]. split; [reflexivity|].
  unfold u64. split; intros H.
  - apply Z.mod_divide; [lia|]. rewrite Zminus_mod, H, Z.sub_diag. reflexivity.
  - destruct H as [q Hq]. replace (ki * size + ri) with (kj * size + rj + q * 2 ^ 64) by lia. apply Z_mod_plus_full.
Qed.

(** rebalancing before any injection does no harm *)
Lemma run_ids_rebalances_first size n evs :
  run_ids size fresh_gens (repeat Rebalance n ++ evs) = run_ids size fresh_gens evs.
Proof. induction n as [|n IH]; [reflexivity|exact IH]. Qed.

(** any injection after a rebalance on a process which had an injection before
    the first one repeats an id *)
Lemma reset_repeats size r evs1 evs2 evs3 : 0 <= r < size -> size <= 2 ^ 64 ->
  requests r evs1 = 0 -> requests r evs3 = 0 -> no_rebalance evs1 -> no_rebalance evs3 ->
  ~ NoDup (run_ids size fresh_gens (evs1 ++ Inject r :: evs2 ++ Rebalance :: evs3 ++ [Inject r])).
Proof.
  intros Hr Hs H1 H3 Hn1 Hn3.
  assert (G : forall evs g tl, no_rebalance evs -> requests r evs = 0 -> g r = 0 ->
    exists l g', run_ids size g (evs ++ tl) = l ++ run_ids size g' tl /\ g' r = 0).
  { induction evs as [|e evs IH]; intros g tl Hn Hq Hg; [exists [], g; auto|].
    inversion Hn as [|? ? Hne Hn']; subst. destruct e as [r0|]; [|congruence].
    rewrite requests_cons in Hq. pose proof (requests_nonneg r evs). destruct (Z.eqb_spec r0 r); [lia|].
    cbn [app run_ids next_id].
    destruct (IH (fun r' => if r' =? r0 then u64 (g r0 + 1) else g r') tl Hn' ltac:(lia)) as [l [g' [E Hg']]].
    { destruct (Z.eqb_spec r r0); [congruence|exact Hg]. }
    rewrite E. eexists (_ :: l), g'. split; [reflexivity|exact Hg']. }
  assert (Hid : u64 (0 * size + r) = r) by (unfold u64; apply Z.mod_small; lia).
  destruct (G evs1 fresh_gens (Inject r :: evs2 ++ Rebalance :: evs3 ++ [Inject r]) Hn1 H1 eq_refl) as [l [g [E Hg]]].
  rewrite E. cbn [run_ids next_id]. rewrite Hg, Hid.
  assert (G2 : forall evs g, In r (run_ids size g (evs ++ Rebalance :: evs3 ++ [Inject r]))).
  { induction evs as [|e evs IH]; intros g2.
    - cbn [app run_ids]. destruct (G evs3 fresh_gens [Inject r] Hn3 H3 eq_refl) as [l3 [g3 [E3 Hg3]]]. rewrite E3.
      apply in_or_app. right. cbn [run_ids next_id]. rewrite Hg3, Hid. now left.
    - destruct e; cbn [app run_ids next_id]; [right|]; apply IH. }
  intros HN. apply NoDup_remove_2 in HN. apply HN. apply in_or_app. right. apply G2.
Qed.
