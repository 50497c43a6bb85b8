From Verif Require Import Base MpiModel.
Local Open Scope Z_scope.

Lemma chan_eqb_eq a b : chan_eqb a b = true <-> a = b.
Proof.
  destruct a as [[s d] t], b as [[s' d'] t']. cbn. rewrite !andb_true_iff, !Z.eqb_eq.
  split; [intros [[-> ->] ->]; reflexivity|intros [= -> -> ->]; auto].
Qed.

Lemma chan_eqb_refl a : chan_eqb a a = true.
Proof. apply chan_eqb_eq. reflexivity. Qed.

Section Mpi.
  Context {D : Type}.
  Implicit Types (sends : list (chan * D)).

  Lemma queue_app c s1 s2 : queue c (s1 ++ s2) = queue (D := D) c s1 ++ queue c s2.
  Proof. unfold queue. rewrite filter_app, map_app. reflexivity. Qed.

  Lemma count_app c l1 l2 : count_chan c (l1 ++ l2) = (count_chan c l1 + count_chan c l2)%nat.
  Proof. unfold count_chan. rewrite filter_app, app_length. reflexivity. Qed.

  Lemma fifo_app sends before r1 r2 :
    fifo sends before (r1 ++ r2) = fifo sends before r1 ++ fifo sends (before ++ r1) r2.
  Proof.
    revert before. induction r1 as [|c r1 IH]; intros before; cbn [app fifo].
    - rewrite app_nil_r. reflexivity.
    - rewrite IH, <- app_assoc. reflexivity.
  Qed.

  Lemma fifo_length sends before recvs : length (fifo sends before recvs) = length recvs.
  Proof. revert before. induction recvs; intros; cbn; [reflexivity|]. now rewrite IHrecvs. Qed.

  (** earlier phases that are balanced do not influence later receives *)
  Lemma fifo_skip (s1 s2 : list (chan * D)) : forall recvs before1 before2,
    (forall c, length (queue c s1) = count_chan c before1) ->
    fifo (s1 ++ s2) (before1 ++ before2) recvs = fifo s2 before2 recvs.
  Proof.
    induction recvs as [|c r IH]; intros before1 before2 Hb; cbn [fifo]; [reflexivity|].
    f_equal.
    - rewrite queue_app, count_app, <- Hb, nth_error_app2 by lia. f_equal. lia.
    - rewrite <- app_assoc. apply IH. exact Hb.
  Qed.

  (** later phases do not influence earlier receives *)
  Lemma fifo_prefix (s1 s2 : list (chan * D)) : forall recvs before,
    (forall c, (count_chan c before + count_chan c recvs <= length (queue c s1))%nat) ->
    fifo (s1 ++ s2) before recvs = fifo s1 before recvs.
  Proof.
    induction recvs as [|c r IH]; intros before Hb; cbn [fifo]; [reflexivity|].
    f_equal.
    - rewrite queue_app. apply nth_error_app1. specialize (Hb c).
      unfold count_chan in Hb at 2. cbn [filter] in Hb. rewrite chan_eqb_refl in Hb. cbn in Hb. lia.
    - apply IH. intros c'. specialize (Hb c'). rewrite count_app.
      unfold count_chan in *. cbn [filter] in *.
      destruct (chan_eqb c' c); cbn [length] in *; lia.
  Qed.

  Lemma fifo_phases : forall phases : list (list (chan * D) * list chan),
    Forall (fun ph => balanced (fst ph) (snd ph)) phases ->
    fifo (concat (map fst phases)) [] (concat (map snd phases))
    = concat (map (fun ph => fifo (fst ph) [] (snd ph)) phases).
  Proof.
    induction phases as [|[s r] phases IH]; intros HF; [reflexivity|].
    inversion HF as [|? ? Hb HF']; subst. cbn [map concat fst snd] in *.
    rewrite fifo_app, fifo_prefix.
    - f_equal. rewrite <- IH by exact HF'.
      rewrite <- (app_nil_r ([] ++ r)). cbn [app]. apply fifo_skip. exact Hb.
    - intros c. unfold count_chan at 1. cbn. rewrite (Hb c). lia.
  Qed.

  (** the order in which different sources post does not matter *)
  Lemma queue_by_source c (trace : list (chan * D)) (prog : Z -> list (chan * D)) :
    (forall src, filter (fun m => fst (fst (fst m)) =? src) trace = prog src) ->
    queue c trace = queue c (prog (fst (fst c))).
  Proof.
    intros H. unfold queue. rewrite <- (H (fst (fst c))). clear H. apply (f_equal (map snd)).
    induction trace as [|[c' x] tr IH]; [reflexivity|]. cbn [filter fst].
    destruct (chan_eqb c c') eqn:E.
    - assert (E' := E). apply chan_eqb_eq in E'. subst c'. rewrite Z.eqb_refl. cbn [filter fst].
      rewrite E. f_equal. exact IH.
    - destruct (fst (fst c') =? fst (fst c)); cbn [filter fst]; rewrite ?E; exact IH.
  Qed.

  Lemma nth_queue_unique c d sends :
    In (c, d) sends -> (forall d', In (c, d') sends -> d' = d) -> nth_error (queue c sends) 0 = Some d.
  Proof.
    intros Hin Hu. unfold queue. induction sends as [|[c' d'] s IH]; [destruct Hin|].
    cbn [filter fst]. destruct (chan_eqb c c') eqn:E.
    - apply chan_eqb_eq in E. subst c'. cbn. f_equal. apply Hu. now left.
    - apply IH.
      + destruct Hin as [Hin|Hin]; [|exact Hin]. injection Hin as -> ->.
        rewrite chan_eqb_refl in E. discriminate.
      + intros d2 H. apply Hu. now right.
  Qed.
End Mpi.
