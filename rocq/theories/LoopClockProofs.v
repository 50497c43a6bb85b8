From Verif Require Import Base OutputModel LoopModel LoopSpec LoopProofs.
Local Open Scope Z_scope.

(** ** Time centering and ghost points *)

Lemma exec_all_app walls l l' s : exec_all walls (l ++ l') s = match exec_all walls l s with Some s' => exec_all walls l' s' | None => None end.
Proof. revert s. induction l as [|o l IH]; intros s; [reflexivity|]. cbn [app exec_all]. destruct (exec walls o s); [apply IH|reflexivity]. Qed.

Lemma seq walls l l' s s1 s2 : exec_all walls l s = Some s1 -> exec_all walls l' s1 = Some s2 -> exec_all walls (l ++ l') s = Some s2.
Proof. intros H1 H2. rewrite exec_all_app, H1. exact H2. Qed.

Lemma seq_inv walls l l' s s2 : exec_all walls (l ++ l') s = Some s2 -> exists s1, exec_all walls l s = Some s1 /\ exec_all walls l' s1 = Some s2.
Proof. rewrite exec_all_app. destruct (exec_all walls l s) as [s1|]; [intros H; exists s1; auto|discriminate]. Qed.

Lemma exec_repeat walls o n s : exec walls o s = Some s -> exec_all walls (repeat o n) s = Some s.
Proof. intros H. induction n as [|n IH]; [reflexivity|]. cbn [repeat exec_all]. rewrite H. exact IH. Qed.

Lemma exec_when walls b o s : exec walls o s = Some s -> exec_all walls (when b o) s = Some s.
Proof. intros H. destruct b; cbn [when exec_all]; [rewrite H|]; reflexivity. Qed.

Definition ready (walls : bool) (n : Z) (s : clocks) : Prop :=
  at_time n s /\ gE s = true /\ gH s = true /\ (walls = true -> wE s = true /\ wH s = true) /\
  j_is (js s) JDeposited || j_is (js s) JWalled = false.

Ltac clean_if := repeat match goal with
  | |- context [?a =? ?b] => destruct (Z.eqb_spec a b); [|lia]
  end.

Lemma clocks_eq x p E H J rho x' p' E' H' J' rho' b1 b2 b3 b4 b5 j :
  x = x' -> p = p' -> E = E' -> H = H' -> J = J' -> rho = rho' ->
  Some (Clocks x p E H J rho b1 b2 b3 b4 b5 j) = Some (Clocks x' p' E' H' J' rho' b1 b2 b3 b4 b5 j).
Proof. intros. subst. reflexivity. Qed.

Lemma step_ready walls cfg n s :
  (walls = false \/ due (marder_interval cfg) (n + 1) = false \/ n_correctors cfg = 0%nat) ->
  ready walls n s -> exists s', exec_all walls (step_ops cfg (n + 1)) s = Some s' /\ ready walls (n + 1) s'.
Proof.
  intros Hm [[Hx [Hp [HE [HH Hi]]]] [HgE [HgH [Hw Hj]]]]. destruct s as [x p E H J rho ins gE0 gH0 wE0 wH0 js0].
  cbn in Hx, Hp, HE, HH, Hi, HgE, HgH, Hw, Hj. subst.
  set (c := due (continuity_interval cfg) (n + 1)).
  assert (Ec : exists rho', exec_all walls (when c ContinuityBefore)
    (Clocks (2 * n + 1) (2 * n) (2 * n + 1) (2 * n + 1) J rho true true true wE0 wH0 js0) =
    Some (Clocks (2 * n + 1) (2 * n) (2 * n + 1) (2 * n + 1) J rho' true true true wE0 wH0 js0) /\ (c = true -> rho' = 2 * n + 1)).
  { destruct c; eexists; split; try reflexivity; discriminate. }
  destruct Ec as [rho' [Ec Hrho]].
  assert (Ew : negb walls || wE0 && wH0 = true).
  { destruct walls; [|reflexivity]. destruct (Hw eq_refl) as [-> ->]. reflexivity. }
  assert (Em : exists wE', exec_all walls (if due (marder_interval cfg) (n + 1) then repeat Marder (n_correctors cfg) else [])
     (Clocks (2 * n + 3) (2 * n + 2) (2 * n + 3) (2 * n + 2) (2 * n + 2) rho' true true true true true JReady) =
     Some (Clocks (2 * n + 3) (2 * n + 2) (2 * n + 3) (2 * n + 2) (2 * n + 2) rho' true true true wE' true JReady) /\
     (walls = true -> wE' = true)).
  { destruct (due (marder_interval cfg) (n + 1)); [|exists true; split; reflexivity].
    destruct Hm as [->|[D|D]]; [|discriminate D|].
    - assert (G : forall k w, exists wE', exec_all false (repeat Marder k)
        (Clocks (2 * n + 3) (2 * n + 2) (2 * n + 3) (2 * n + 2) (2 * n + 2) rho' true true true w true JReady) =
        Some (Clocks (2 * n + 3) (2 * n + 2) (2 * n + 3) (2 * n + 2) (2 * n + 2) rho' true true true wE' true JReady)).
      { induction k as [|k IH]; intros w; [exists w; reflexivity|]. cbn [repeat exec_all exec]. rewrite Z.eqb_refl. cbn [andb demand]. apply IH. }
      destruct (G (n_correctors cfg) true) as [w' Hw']. exists w'. split; [exact Hw'|discriminate].
    - rewrite D. exists true. split; reflexivity. }
  destruct Em as [wE' [Em HwE']].
  exists (Clocks (2 * n + 3) (2 * n + 2) (2 * n + 3) (2 * n + 3) (2 * n + 2) rho' true true true wE' true JReady). split.
  - unfold step_ops. fold c.
    eapply seq; [apply exec_when; reflexivity|]. eapply seq; [apply exec_when; reflexivity|].
    eapply seq; [apply exec_when; reflexivity|]. eapply seq; [exact Ec|].
    apply (seq _ _ _ _ (Clocks (2 * n + 3) (2 * n + 2) (2 * n + 1) (2 * n + 1) (2 * n + 2) rho' false true true wE0 wH0 JDeposited)).
    { cbn [exec_all exec]. rewrite Ew. clean_if. cbn [andb demand]. apply clocks_eq; lia. }
    eapply seq; [apply exec_repeat; reflexivity|]. eapply seq; [apply exec_repeat; reflexivity|].
    apply (seq _ _ _ _ (Clocks (2 * n + 3) (2 * n + 2) (2 * n + 3) (2 * n + 2) (2 * n + 2) rho' true true true true true JReady)).
    { cbn [exec_all exec j_is demand orb negb andb]. rewrite Z.eqb_refl. cbn [orb demand exec_all exec andb negb].
      replace (negb walls || true) with true by (destruct walls; reflexivity). clean_if. cbn [andb demand exec_all exec]. apply clocks_eq; lia. }
    eapply seq; [exact Em|].
    apply (seq _ _ _ _ (Clocks (2 * n + 3) (2 * n + 2) (2 * n + 3) (2 * n + 3) (2 * n + 2) rho' true true true wE' true JReady)).
    { cbn [exec_all exec]. replace (2 * n + 3 =? 2 * n + 2 + 1) with true by (symmetry; apply Z.eqb_eq; lia). rewrite orb_true_r.
      cbn [andb demand exec_all exec]. apply clocks_eq; lia. }
    eapply seq.
    { instantiate (1 := Clocks (2 * n + 3) (2 * n + 2) (2 * n + 3) (2 * n + 3) (2 * n + 2) rho' true true true wE' true JReady).
      destruct c; [|reflexivity]. rewrite Hrho by reflexivity. cbn [when exec_all exec]. clean_if. reflexivity. }
    apply exec_when. cbn [exec]. rewrite Z.eqb_refl. reflexivity.
  - unfold ready, at_time. cbn [t_x t_p t_E t_H inside gE gH wE wH js j_is orb]. repeat split; try lia; auto.
Qed.

Lemma diag_ready walls n s : ready walls n s -> exec walls Diagnostics s = Some s /\ exec walls Checkpoint s = Some s.
Proof.
  intros [[Hx [Hp [HE [HH Hi]]]] [HgE [HgH _]]]. destruct s. cbn in *. subst. unfold sync. cbn. clean_if. split; reflexivity.
Qed.

Definition no_marder_at_walls (walls : bool) (cfg : config) : Prop :=
  walls = false \/ marder_interval cfg <= 0 \/ n_correctors cfg = 0%nat.

Lemma loop_ready walls cfg : stats_every cfg <> 0 -> no_marder_at_walls walls cfg -> forall n t first s,
  nmax cfg - t <= Z.of_nat n -> ready walls t s ->
  exists tend trace s', ends_at cfg t tend /\ time_loop n cfg first t = Some trace /\
    exec_all walls (map snd trace) s = Some s' /\ ready walls tend s'.
Proof.
  intros Hst Hm. 
  assert (Hfin : forall t s, ready walls t s -> exec_all walls (map snd (at_step t (checkpoint_final (write_checkpoint_every_step cfg)))) s = Some s).
  { intros t s Hr. unfold checkpoint_final. destruct (_ <=? _); [reflexivity|]. cbn [at_step map snd exec_all].
    rewrite (proj2 (diag_ready _ _ _ Hr)). reflexivity. }
  assert (Hsnd : forall t l, map snd (at_step t l) = l).
  { intros t l. unfold at_step. rewrite map_map. apply map_id. }
  induction n as [|n IH]; intros t first s Hn Hr; cbn [time_loop].
  - destruct (Z.ltb_spec t (nmax cfg)); [lia|]. exists t, (at_step t (checkpoint_final (write_checkpoint_every_step cfg))), s.
    split; [left; lia|]. split; [reflexivity|]. split; [apply Hfin; exact Hr|exact Hr].
  - destruct (Z.ltb_spec t (nmax cfg)) as [Hlt|Hge].
    2:{ exists t, (at_step t (checkpoint_final (write_checkpoint_every_step cfg))), s.
        split; [left; lia|]. split; [reflexivity|]. split; [apply Hfin; exact Hr|exact Hr]. }
    set (k := write_checkpoint_every_step cfg) in *.
    destruct (checkpointing k first t) as [first' cps] eqn:Ec.
    unfold stats_out, c_mod. destruct (Z.eqb_spec (stats_every cfg) 0); [congruence|].
    set (this := at_step t cps ++ at_step (t + 1) _).
    destruct (step_ready walls cfg t s) as [s1 [E1 R1]]; [|exact Hr|].
    { destruct Hm as [Hm|[Hm|Hm]]; [now left| |now right; right]. right. left. unfold due. destruct (Z.ltb_spec 0 (marder_interval cfg)); [lia|reflexivity]. }
    assert (Ethis : exec_all walls (map snd this) s = Some s1).
    { unfold this. rewrite map_app, !Hsnd, exec_all_app.
      assert (Ecp : exec_all walls cps s = Some s).
      { unfold checkpointing in Ec. destruct (k <=? 0); [injection Ec as <- <-; reflexivity|].
        destruct first; injection Ec as <- <-; [reflexivity|]. apply exec_when. apply (diag_ready _ _ _ Hr). }
      rewrite Ecp. eapply seq; [exact E1|]. eapply seq; [cbn [exec_all]; rewrite (proj1 (diag_ready _ _ _ R1)); reflexivity|].
      apply exec_when. destruct s1; reflexivity. }
    destruct (time_exceeded cfg (t + 1)) eqn:Ex.
    + exists (t + 1), (this ++ at_step (t + 1) (checkpoint_final k)), s1.
      split; [right; split; [lia|]; split; [intros; lia|right; exact Ex]|]. split; [reflexivity|]. split; [|exact R1].
      rewrite map_app, exec_all_app, Ethis. apply Hfin. exact R1.
    + destruct (IH (t + 1) first' s1 ltac:(lia) R1) as [tend [tr [s2 [He [El [E2 R2]]]]]]. rewrite El.
      exists tend, (this ++ tr), s2. split; [apply ends_next; assumption|]. split; [reflexivity|]. split; [|exact R2].
      rewrite map_app, exec_all_app, Ethis. exact E2.
Qed.

Lemma integrate_ready walls cfg t0 s : stats_every cfg <> 0 -> no_marder_at_walls walls cfg ->
  at_time t0 s -> js s = JOld ->
  exists tend trace s', ends_at cfg t0 tend /\ integrate (Z.to_nat (nmax cfg - t0)) cfg t0 = Some trace /\
    exec_all walls (map snd trace) s = Some s' /\ at_time tend s'.
Proof.
  intros Hst Hm [Hx [Hp [HE [HH Hi]]]] Hj. destruct s as [x p E H J rho ins gE0 gH0 wE0 wH0 js0].
  cbn in Hx, Hp, HE, HH, Hi, Hj. subst.
  set (s1 := Clocks (2 * t0 + 1) (2 * t0) (2 * t0 + 1) (2 * t0 + 1) J rho true true true true true JReady).
  assert (R1 : ready walls t0 s1) by (unfold ready, at_time; cbn; repeat split; reflexivity).
  destruct (loop_ready walls cfg Hst Hm (Z.to_nat (nmax cfg - t0)) t0 true s1 ltac:(lia) R1) as [tend [tr [s2 [He [El [E2 R2]]]]]].
  unfold integrate. rewrite El. eexists tend, _, s2. split; [exact He|]. split; [reflexivity|]. split; [|apply R2].
  rewrite map_app.
  replace (map snd (at_step t0 (pre_first_step cfg t0 ++ [Diagnostics; PrintStatus]))) with (pre_first_step cfg t0 ++ [Diagnostics; PrintStatus]).
  2:{ unfold at_step. rewrite map_map. symmetry. apply map_id. }
  eapply seq; [|exact E2]. apply (seq _ _ _ _ s1).
  - unfold pre_first_step. apply (seq _ _ _ _ s1); [reflexivity|].
    apply exec_when. unfold s1. cbn [exec]. rewrite Z.eqb_refl. reflexivity.
  - cbn [exec_all]. rewrite (proj1 (diag_ready _ _ _ R1)). reflexivity.
Qed.

(** ** With walls and Marder correction, wall ghost points are out of date *)

Lemma marder_stale cfg n s s1 :
  due (marder_interval cfg) (n + 1) = true -> n_correctors cfg <> 0%nat -> ready true n s ->
  exec_all true (step_ops cfg (n + 1)) s = Some s1 -> wE s1 = false.
Proof.
  intros Hd Hn [[Hx [Hp [HE [HH Hi]]]] [HgE [HgH [Hw Hj]]]]. destruct s as [x p E H J rho ins gE0 gH0 wE0 wH0 js0].
  cbn in Hx, Hp, HE, HH, Hi, HgE, HgH, Hw, Hj. subst. destruct (Hw eq_refl). subst.
  assert (Hwhen : forall b o s0 s2, (forall u v, exec true o u = Some v -> wE v = wE u) ->
    exec_all true (when b o) s0 = Some s2 -> wE s2 = wE s0).
  { intros b o s0 s2 H1 H2. destruct b; cbn in H2; [|injection H2 as <-; reflexivity].
    destruct (exec true o s0) eqn:Eo; [injection H2 as <-; apply H1; exact Eo|discriminate]. }
  assert (HM : forall k u v, k <> 0%nat -> exec_all true (repeat Marder k) u = Some v -> wE v = false).
  { induction k as [|k IH]; intros u v Hk Hv; [congruence|]. cbn [repeat exec_all] in Hv.
    destruct (exec true Marder u) as [w|] eqn:Em; [|discriminate].
    assert (Hww : wE w = false).
    { destruct u. cbn in Em. unfold demand in Em. destruct (_ && _) in Em; [injection Em as <-; reflexivity|discriminate]. }
    destruct k as [|k]; [cbn in Hv; injection Hv as <-; exact Hww|]. apply (IH w v); [congruence|exact Hv]. }
  unfold step_ops. rewrite Hd. intros Es.
  do 7 (apply seq_inv in Es; destruct Es as [? [_ Es]]).
  apply seq_inv in Es; destruct Es as [s4 [_ Es]].
  apply seq_inv in Es; destruct Es as [s5 [E5 Es]]. apply HM in E5; [|exact Hn].
  apply seq_inv in Es; destruct Es as [s6 [E6 Es]].
  assert (W6 : wE s6 = false).
  { destruct s5. cbn in E5, E6. unfold demand in E6. destruct (_ && _) in E6; [|discriminate]. cbn in E6. injection E6 as <-. exact E5. }
  apply seq_inv in Es; destruct Es as [s7 [E7 E8]].
  apply Hwhen in E7. 2:{ intros u v Huv. destruct u. cbn in Huv. unfold demand in Huv. destruct (_ && _) in Huv; [injection Huv as <-; reflexivity|discriminate]. }
  apply Hwhen in E8. 2:{ intros u v Huv. destruct u. cbn in Huv. unfold demand in Huv. destruct (_ && _) in Huv; [injection Huv as <-; reflexivity|discriminate]. }
  congruence.
Qed.

(** the next step then pushes particles with them *)
Lemma stale_push cfg n s : wE s = false -> exec_all true (step_ops cfg (n + 1)) s = None.
Proof.
  intros Hw.
  assert (Hwhen : forall b o u v, (o = Balance \/ o = Sort \/ o = Collide \/ o = ContinuityBefore) -> wE u = false ->
    exec_all true (when b o) u = Some v -> wE v = false).
  { intros b o u v Ho Hu Hv. destruct b; cbn in Hv; [|injection Hv as <-; exact Hu].
    destruct u; cbn in Hu; subst; destruct Ho as [->|[->|[->| ->]]]; cbn in Hv; unfold demand in Hv;
      (match type of Hv with context [if ?b then _ else _] => destruct b end; [injection Hv as <-; reflexivity|discriminate]). }
  destruct (exec_all true (step_ops cfg (n + 1)) s) as [r|] eqn:Es; [exfalso|reflexivity].
  unfold step_ops in Es.
  apply seq_inv in Es; destruct Es as [s1 [E1 Es]]. apply Hwhen in E1; [|tauto|exact Hw].
  apply seq_inv in Es; destruct Es as [s2 [E2 Es]]. apply Hwhen in E2; [|tauto|exact E1].
  apply seq_inv in Es; destruct Es as [s3 [E3 Es]]. apply Hwhen in E3; [|tauto|exact E2].
  apply seq_inv in Es; destruct Es as [s4 [E4 Es]]. apply Hwhen in E4; [|tauto|exact E3].
  apply seq_inv in Es; destruct Es as [s5 [E5 _]].
  destruct s4. cbn in E4. subst. cbn [exec_all exec] in E5. cbn [negb orb andb] in E5. rewrite andb_false_r in E5. discriminate.
Qed.

