From Verif Require Import Base Arr DomainModel DomainSpec DomainProofs DomainBoxProofs MpiModel MpiProofs BalanceModel BalanceMoveProofs BalanceCommProofs
  BndPrtModel DdcPrtModel.
Local Open Scope Z_scope.

(** ** directions *)
Lemma in_dirs27 dir : In dir dirs27 <-> forall d, -1 <= get3 dir d <= 1.
Proof.
  unfold dirs27. rewrite in_flat_map. split.
  - intros [k [Hk H]]. apply in_flat_map in H. destruct H as [j [Hj H]]. apply in_map_iff in H. destruct H as [i [<- Hi]].
    apply in_zrange in Hi, Hj, Hk. intros []; cbn; lia.
  - intros H. pose proof (H D0). pose proof (H D1). pose proof (H D2). cbn [get3] in *. exists (c2 dir). split; [apply in_zrange; lia|].
    apply in_flat_map. exists (c1 dir). split; [apply in_zrange; lia|]. apply in_map_iff. exists (c0 dir). split; [destruct dir; reflexivity|apply in_zrange; lia].
Qed.

Lemma NoDup_dirs27 : NoDup dirs27.
Proof.
  unfold dirs27. apply (NoDup_flat_map _ _ c2); [apply NoDup_zrange|..].
  - intros k b _ H. apply in_flat_map in H. destruct H as [j [_ H]]. apply in_map_iff in H. destruct H as [i [<- _]]. reflexivity.
  - intros k _. apply (NoDup_flat_map _ _ c1); [apply NoDup_zrange|..].
    + intros j b _ H. apply in_map_iff in H. destruct H as [i [<- _]]. reflexivity.
    + intros j _. apply NoDup_map_inj_in; [|apply NoDup_zrange]. intros x y _ _ [= ->]. reflexivity.
Qed.

Lemma negdir_invol dir : negdir (negdir dir) = dir.
Proof. destruct dir as [a b c]. unfold negdir. cbn [c0 c1 c2]. f_equal; lia. Qed.

Lemma negdir_in dir : In dir dirs27 -> In (negdir dir) dirs27.
Proof.
  rewrite !in_dirs27. intros H d. pose proof (H D0). pose proof (H D1). pose proof (H D2). destruct d; cbn in *; lia.
Qed.

Lemma map_flat_map' {A B C} (f : B -> C) (g : A -> list B) l : map f (flat_map g l) = flat_map (fun a => map f (g a)) l.
Proof. induction l as [|a l IH]; [reflexivity|]. cbn [flat_map]. rewrite map_app, IH. reflexivity. Qed.

Lemma flat_map_flat {A B C} (g : A -> list B) (f : B -> list C) l : flat_map f (flat_map g l) = flat_map (fun a => flat_map f (g a)) l.
Proof. induction l as [|a l IH]; [reflexivity|]. cbn [flat_map]. rewrite flat_map_app, IH. reflexivity. Qed.

Lemma flat_map_map' {A B C} (h : A -> B) (f : B -> list C) l : flat_map f (map h l) = flat_map (fun a => f (h a)) l.
Proof. induction l as [|a l IH]; [reflexivity|]. cbn [flat_map map]. rewrite IH. reflexivity. Qed.

Lemma flat_map_ext_in {A B} (f h : A -> list B) l : (forall a, In a l -> f a = h a) -> flat_map f l = flat_map h l.
Proof.
  intros H. induction l as [|a l IH]; [reflexivity|]. cbn [flat_map]. rewrite (H a) by now left. rewrite IH; [reflexivity|]. intros b Hb. apply H. now right.
Qed.

Lemma flat_map_none {A B} (f : A -> list B) l : (forall a, In a l -> f a = []) -> flat_map f l = [].
Proof. intros H. rewrite (flat_map_ext_in f (fun _ => []) l H). clear H. induction l; [reflexivity|]. exact IHl. Qed.

Lemma alen_flat {A B} (f : A -> list B) l : alen (flat_map f l) = zsum (map (fun a => alen (f a)) l).
Proof. induction l as [|a l IH]; [reflexivity|]. cbn [flat_map map zsum]. rewrite alen_app, IH. reflexivity. Qed.

Lemma alen_concat {A} (l : list (list A)) : alen (concat l) = zsum (map (@alen A) l).
Proof. induction l as [|a l IH]; [reflexivity|]. cbn [concat map zsum]. rewrite alen_app, IH. reflexivity. Qed.

Lemma sequence_flat_some {A B C} (f : A -> list C) (h : C -> option B) (v : C -> B) l :
  (forall a c, In a l -> In c (f a) -> h c = Some (v c)) -> sequence (flat_map (fun a => map h (f a)) l) = Some (flat_map (fun a => map v (f a)) l).
Proof.
  intros H. rewrite <- !map_flat_map'. apply sequence_map_some. intros c Hc. apply in_flat_map in Hc. destruct Hc as [a [Ha Hc]]. eapply H; eassumption.
Qed.

Lemma receive_unique {D} (pool msgs : list (chan * D)) rank src tag d : Permutation pool msgs ->
  In ((src, rank, tag), d) msgs -> (forall d', In ((src, rank, tag), d') msgs -> d' = d) -> receive pool rank src tag = Some d.
Proof.
  intros HP HI HU. unfold receive. apply nth_queue_unique.
  - apply (Permutation_in _ (Permutation_sym HP)). exact HI.
  - intros d' H. apply HU. apply (Permutation_in _ HP). exact H.
Qed.

(** ** the exchange for any symmetric neighbour relation *)
Section Exchange.
  Context {P : Type}.
  Variables (size : Z) (N : Z -> Z) (nb : Z -> Z -> V3 Z -> option (Z * Z)).
  Definition valid (r p : Z) : Prop := 0 <= r < size /\ 0 <= p < N r.
  Hypothesis sym : forall r p dir r' p', valid r p -> In dir dirs27 -> nb r p dir = Some (r', p') -> valid r' p' /\ nb r' p' (negdir dir) = Some (r, p).

  Definition tbl (r : Z) : list (Z * V3 Z * option (Z * Z)) := flat_map (fun p => map (fun dir => (p, dir, nb r p dir)) dirs27) (zrange 0 (N r)).
  Definition SE (r r' : Z) : list dsend_entry := send_entries (tbl r) r r'.
  Definition parts (r : Z) : list Z := partners (tbl r) r size.

  Lemma in_tbl r p dir o : In (p, dir, o) (tbl r) <-> 0 <= p < N r /\ In dir dirs27 /\ o = nb r p dir.
  Proof.
    unfold tbl. rewrite in_flat_map. split.
    - intros [p' [Hp H]]. apply in_map_iff in H. destruct H as [dir' [[= <- <- <-] Hd]]. apply in_zrange in Hp. auto.
    - intros [Hp [Hd ->]]. exists p. split; [apply in_zrange; lia|]. apply in_map_iff. exists dir. auto.
  Qed.

  Lemma NoDup_tbl r : NoDup (tbl r).
  Proof.
    unfold tbl. apply (NoDup_flat_map _ _ (fun x => fst (fst x))); [apply NoDup_zrange|..].
    - intros p b _ H. apply in_map_iff in H. destruct H as [dir [<- _]]. reflexivity.
    - intros p _. apply NoDup_map_inj_in; [|apply NoDup_dirs27]. intros x y _ _ [= -> _]. reflexivity.
  Qed.

  Lemma in_SE r r' e : In e (SE r r') <-> 0 <= se_patch e < N r /\ In (se_dir e) dirs27 /\ nb r (se_patch e) (se_dir e) = Some (r', se_nei_patch e) /\ r' <> r.
  Proof.
    unfold SE, send_entries. rewrite in_flat_map. split.
    - intros [[[p dir] o] [Ht H]]. apply in_tbl in Ht. destruct Ht as [Hp [Hd ->]]. destruct (nb r p dir) as [[r'' q]|] eqn:E; [|destruct H].
      destruct (Z.eqb_spec r'' r'); [|destruct H]. destruct (Z.eqb_spec r'' r); [destruct H|]. cbn in H. destruct H as [<-|[]].
      cbn [se_patch se_dir se_nei_patch]. subst. auto.
    - intros [Hp [Hd [E Hn]]]. exists (se_patch e, se_dir e, nb r (se_patch e) (se_dir e)). split; [apply in_tbl; auto|].
      rewrite E, Z.eqb_refl. destruct (Z.eqb_spec r' r); [contradiction|]. left. destruct e; reflexivity.
  Qed.

  Lemma NoDup_SE r r' : NoDup (SE r r').
  Proof.
    unfold SE, send_entries. apply (NoDup_flat_map _ _ (fun e => (se_patch e, se_dir e, nb r (se_patch e) (se_dir e)))); [apply NoDup_tbl|..].
    - intros [[p dir] o] e Ht H. apply in_tbl in Ht. destruct Ht as [Hp [Hd ->]]. destruct (nb r p dir) as [[r'' q]|] eqn:E; [|destruct H].
      destruct ((r'' =? r') && negb (r'' =? r)); [|destruct H]. destruct H as [<-|[]]. cbn [se_patch se_dir]. rewrite E. reflexivity.
    - intros [[p dir] o] _. destruct o as [[r'' q]|]; [|constructor]. destruct ((r'' =? r') && negb (r'' =? r)); constructor; [intros []|constructor].
  Qed.

  Definition flip (e : dsend_entry) : dsend_entry := mkSE (se_nei_patch e) (se_patch e) (negdir (se_dir e)).

  Lemma flip_flip e : flip (flip e) = e.
  Proof. destruct e. unfold flip. cbn. rewrite negdir_invol. reflexivity. Qed.

  Lemma flip_in r r' e : 0 <= r < size -> In e (SE r r') -> In (flip e) (SE r' r).
  Proof.
    intros Hr H. apply in_SE in H. destruct H as [Hp [Hd [E Hn]]]. destruct (sym r _ _ _ _ (conj Hr Hp) Hd E) as [[Hr' Hq] E'].
    apply in_SE. cbn [flip se_patch se_dir se_nei_patch]. split; [exact Hq|]. split; [apply negdir_in; exact Hd|]. split; [exact E'|]. auto.
  Qed.

  Lemma SE_flip r r' : 0 <= r < size -> 0 <= r' < size -> Permutation (map flip (SE r r')) (SE r' r).
  Proof.
    intros Hr Hr'. apply NoDup_Permutation.
    - apply NoDup_map_inj_in; [|apply NoDup_SE]. intros x y _ _ E. rewrite <- (flip_flip x), E. apply flip_flip.
    - apply NoDup_SE.
    - intros e. rewrite in_map_iff. split.
      + intros [e' [<- He]]. apply flip_in; assumption.
      + intros He. exists (flip e). split; [apply flip_flip|]. apply flip_in; assumption.
  Qed.

  Lemma SE_length r r' : 0 <= r < size -> 0 <= r' < size -> alen (SE r r') = alen (SE r' r).
  Proof. intros Hr Hr'. unfold alen. rewrite <- (Permutation_length (SE_flip r r' Hr Hr')), map_length. reflexivity. Qed.

  Lemma in_parts r r' : In r' (parts r) <-> 0 <= r' < size /\ SE r r' <> [].
  Proof.
    unfold parts, partners. rewrite filter_In, in_zrange. change (send_entries (tbl r) r r') with (SE r r').
    destruct (SE r r'); split; intros [H1 H2]; split; try assumption; try discriminate; congruence.
  Qed.

  Lemma parts_sym r r' : 0 <= r < size -> In r' (parts r) -> In r (parts r').
  Proof.
    intros Hr H. apply in_parts in H. destruct H as [Hr' H]. apply in_parts. split; [exact Hr|]. intros E. apply H.
    pose proof (SE_length r r' Hr Hr') as L. rewrite E in L. destruct (SE r r'); [reflexivity|]. cbn in L. discriminate L.
  Qed.

  Lemma NoDup_parts r : NoDup (parts r).
  Proof. apply NoDup_filter', NoDup_zrange. Qed.

  (** the send buffers of all processes *)
  Variable sbuf : Z -> list (Z -> list P).
  Hypothesis sbuf_len : forall r, 0 <= r < size -> alen (sbuf r) = N r.
  Definition S (r p : Z) (dir : V3 Z) : list P := match send_buf (sbuf r) p dir with Some b => b | None => [] end.

  Lemma send_buf_some r p dir : valid r p -> send_buf (sbuf r) p dir = Some (S r p dir).
  Proof.
    intros [Hr Hp]. unfold S, send_buf. destruct (aget_some (sbuf r) p) as [s E]; [rewrite sbuf_len; lia|]. rewrite E. reflexivity.
  Qed.

  Definition eS (r : Z) (e : dsend_entry) : list P := S r (se_patch e) (se_dir e).

  Lemma seq_send r r' : 0 <= r < size -> sequence (map (fun e => send_buf (sbuf r) (se_patch e) (se_dir e)) (SE r r')) = Some (map (eS r) (SE r r')).
  Proof.
    intros Hr. apply sequence_map_some. intros e He. apply in_SE in He. apply send_buf_some. split; [exact Hr|apply He].
  Qed.

  (** *** the messages *)
  Definition entry_msgs : list (chan * list dsend_entry) := flat_map (fun r => entry_posts (tbl r) r size) (zrange 0 size).
  Definition count_msgs : list (chan * list Z) :=
    flat_map (fun r => map (fun r' => ((r, r', 222), map (@alen P) (map (eS r) (SE r r')))) (parts r)) (zrange 0 size).
  Definition data_msgs : list (chan * list P) :=
    flat_map (fun r => flat_map (fun r' => match concat (map (eS r) (SE r r')) with [] => [] | b => [((r, r', 1), b)] end) (parts r)) (zrange 0 size).

  Lemma count_posts_some r : 0 <= r < size -> count_posts_prt (tbl r) (sbuf r) r size
    = Some (map (fun r' => ((r, r', 222), map (@alen P) (map (eS r) (SE r r')))) (parts r)).
  Proof.
    intros Hr. unfold count_posts_prt. apply sequence_map_some. intros r' _. fold (SE r r'). rewrite seq_send by exact Hr. reflexivity.
  Qed.

  Lemma data_posts_some r : 0 <= r < size -> data_posts (tbl r) (sbuf r) r size
    = Some (flat_map (fun r' => match concat (map (eS r) (SE r r')) with [] => [] | b => [((r, r', 1), b)] end) (parts r)).
  Proof.
    intros Hr. unfold data_posts. apply concat_option_some. intros r' _. fold (SE r r'). rewrite seq_send by exact Hr. reflexivity.
  Qed.

  Lemma in_entry_msgs c es : In (c, es) entry_msgs <-> exists r r', 0 <= r < size /\ In r' (parts r) /\ c = (r, r', 111) /\ es = SE r r'.
  Proof.
    unfold entry_msgs. rewrite in_flat_map. split.
    - intros [r [Hr H]]. apply in_map_iff in H. destruct H as [r' [[= <- <-] H]]. apply in_zrange in Hr. exists r, r'. auto.
    - intros [r [r' [Hr [H [-> ->]]]]]. exists r. split; [apply in_zrange; lia|]. apply in_map_iff. exists r'. auto.
  Qed.

  Lemma in_count_msgs c cs : In (c, cs) count_msgs <-> exists r r', 0 <= r < size /\ In r' (parts r) /\ c = (r, r', 222) /\ cs = map (@alen P) (map (eS r) (SE r r')).
  Proof.
    unfold count_msgs. rewrite in_flat_map. split.
    - intros [r [Hr H]]. apply in_map_iff in H. destruct H as [r' [[= <- <-] H]]. apply in_zrange in Hr. exists r, r'. auto.
    - intros [r [r' [Hr [H [-> ->]]]]]. exists r. split; [apply in_zrange; lia|]. apply in_map_iff. exists r'. auto.
  Qed.

  Lemma in_data_msgs c b : In (c, b) data_msgs <-> exists r r', 0 <= r < size /\ In r' (parts r) /\ c = (r, r', 1) /\ b = concat (map (eS r) (SE r r')) /\ b <> [].
  Proof.
    unfold data_msgs. rewrite in_flat_map. split.
    - intros [r [Hr H]]. apply in_flat_map in H. destruct H as [r' [Hr' H]]. apply in_zrange in Hr. exists r, r'.
      destruct (concat (map (eS r) (SE r r'))) eqn:E; [destruct H|]. destruct H as [[= <- <-]|[]]. repeat split; auto; try lia. discriminate.
    - intros [r [r' [Hr [H [-> [-> Hn]]]]]]. exists r. split; [apply in_zrange; lia|]. apply in_flat_map. exists r'. split; [exact H|].
      destruct (concat (map (eS r) (SE r r'))) eqn:E; [congruence|]. left. reflexivity.
  Qed.

  Lemma NoDup_fst_pairs {D} (f : Z -> list (chan * D)) (t : Z) :
    (forall r c d, In (c, d) (f r) -> exists r', c = (r, r', t)) -> (forall r, NoDup (map fst (f r))) ->
    NoDup (map fst (flat_map f (zrange 0 size))).
  Proof.
    intros H1 H2. rewrite map_flat_map'. apply (NoDup_flat_map _ _ (fun c => fst (fst c))); [apply NoDup_zrange|..].
    - intros r c _ H. apply in_map_iff in H. destruct H as [[c' d] [<- H]]. apply H1 in H. destruct H as [r' ->]. reflexivity.
    - intros r _. apply H2.
  Qed.

  (** *** balance: as many messages as receives on every channel *)
  (** the receives: every process posts one for each partner; for the particles only if the counts say so *)
  Definition pair_recvs (t : Z) : list chan := flat_map (fun r => map (fun r' => (r', r, t)) (parts r)) (zrange 0 size).
  Definition data_recvs : list chan :=
    flat_map (fun r => flat_map (fun r' => if zsum (map (@alen P) (map (eS r') (SE r' r))) =? 0 then [] else [(r', r, 1)]) (parts r)) (zrange 0 size).

  Lemma NoDup_pair_recvs t : NoDup (pair_recvs t).
  Proof.
    unfold pair_recvs. apply (NoDup_flat_map _ _ (fun c => snd (fst c))); [apply NoDup_zrange|..].
    - intros r c _ H. apply in_map_iff in H. destruct H as [r' [<- _]]. reflexivity.
    - intros r _. apply NoDup_map_inj_in; [|apply NoDup_parts]. intros x y _ _ [= ->]. reflexivity.
  Qed.

  Lemma in_pair_recvs t c : In c (pair_recvs t) <-> exists r r', 0 <= r < size /\ In r' (parts r) /\ c = (r', r, t).
  Proof.
    unfold pair_recvs. rewrite in_flat_map. split.
    - intros [r [Hr H]]. apply in_map_iff in H. destruct H as [r' [<- H]]. apply in_zrange in Hr. exists r, r'. auto.
    - intros [r [r' [Hr [H ->]]]]. exists r. split; [apply in_zrange; lia|]. apply in_map_iff. exists r'. auto.
  Qed.

  Lemma parts_range r r' : In r' (parts r) -> 0 <= r' < size.
  Proof. intros H. apply in_parts in H. apply H. Qed.

  Lemma entries_balanced : balanced entry_msgs (pair_recvs 111).
  Proof.
    apply balanced_intro; [|apply NoDup_pair_recvs|].
    - apply (NoDup_fst_pairs _ 111).
      + intros r c d H. apply in_map_iff in H. destruct H as [r' [[= <- <-] _]]. exists r'. reflexivity.
      + intros r. unfold entry_posts. rewrite map_map. cbn [fst]. apply NoDup_map_inj_in; [|apply NoDup_parts]. intros x y _ _ [= ->]. reflexivity.
    - intros c. rewrite in_pair_recvs, in_map_iff. split.
      + intros [[c' d] [<- H]]. apply in_entry_msgs in H. destruct H as [r [r' [Hr [H [-> ->]]]]]. exists r', r.
        split; [eapply parts_range; exact H|]. split; [apply parts_sym; assumption|reflexivity].
      + intros [r [r' [Hr [H ->]]]]. exists ((r', r, 111), SE r' r). split; [reflexivity|]. apply in_entry_msgs. exists r', r.
        split; [eapply parts_range; exact H|]. split; [apply parts_sym; assumption|auto].
  Qed.

  Lemma counts_balanced' : balanced count_msgs (pair_recvs 222).
  Proof.
    apply balanced_intro; [|apply NoDup_pair_recvs|].
    - apply (NoDup_fst_pairs _ 222).
      + intros r c d H. apply in_map_iff in H. destruct H as [r' [[= <- <-] _]]. exists r'. reflexivity.
      + intros r. rewrite map_map. cbn [fst]. apply NoDup_map_inj_in; [|apply NoDup_parts]. intros x y _ _ [= ->]. reflexivity.
    - intros c. rewrite in_pair_recvs, in_map_iff. split.
      + intros [[c' d] [<- H]]. apply in_count_msgs in H. destruct H as [r [r' [Hr [H [-> ->]]]]]. exists r', r.
        split; [eapply parts_range; exact H|]. split; [apply parts_sym; assumption|reflexivity].
      + intros [r [r' [Hr [H ->]]]]. eexists ((r', r, 222), _). split; [reflexivity|]. apply in_count_msgs. exists r', r.
        split; [eapply parts_range; exact H|]. split; [apply parts_sym; assumption|split; reflexivity].
  Qed.

  Lemma zsum_zero_nil (ls : list (list P)) : zsum (map (@alen P) ls) = 0 <-> concat ls = [].
  Proof.
    rewrite <- alen_concat. unfold alen. destruct (concat ls); cbn [length]; split; intros H; try reflexivity; try discriminate H; lia.
  Qed.

  Lemma data_balanced : balanced data_msgs data_recvs.
  Proof.
    apply balanced_intro.
    - apply (NoDup_fst_pairs _ 1).
      + intros r c d H. apply in_flat_map in H. destruct H as [r' [_ H]]. destruct (concat _); [destruct H|]. destruct H as [[= <- <-]|[]]. exists r'. reflexivity.
      + intros r. rewrite map_flat_map'. apply (NoDup_flat_map _ _ (fun c => snd (fst c))); [apply NoDup_parts|..].
        * intros r' c _ H. destruct (concat _); [destruct H|]. destruct H as [<-|[]]. reflexivity.
        * intros r' _. destruct (concat _); constructor; [intros []|constructor].
    - unfold data_recvs. apply (NoDup_flat_map _ _ (fun c => snd (fst c))); [apply NoDup_zrange|..].
      + intros r c _ H. apply in_flat_map in H. destruct H as [r' [_ H]]. destruct (_ =? 0); [destruct H|]. destruct H as [<-|[]]. reflexivity.
      + intros r _. apply (NoDup_flat_map _ _ (fun c => fst (fst c))); [apply NoDup_parts|..].
        * intros r' c _ H. destruct (_ =? 0); [destruct H|]. destruct H as [<-|[]]. reflexivity.
        * intros r' _. destruct (_ =? 0); constructor; [intros []|constructor].
    - intros c. unfold data_recvs. rewrite in_map_iff, in_flat_map. split.
      + intros [[c' d] [<- H]]. apply in_data_msgs in H. destruct H as [r [r' [Hr [H [-> [-> Hn]]]]]]. exists r'. split; [apply in_zrange; eapply parts_range; exact H|].
        apply in_flat_map. exists r. split; [apply parts_sym; assumption|]. destruct (Z.eqb_spec (zsum (map (@alen P) (map (eS r) (SE r r')))) 0) as [E|E].
        * apply zsum_zero_nil in E. contradiction.
        * left. reflexivity.
      + intros [r [Hr H]]. apply in_zrange in Hr. apply in_flat_map in H. destruct H as [r' [Hp H]].
        destruct (Z.eqb_spec (zsum (map (@alen P) (map (eS r') (SE r' r)))) 0) as [E|E]; [destruct H|]. destruct H as [<-|[]].
        exists ((r', r, 1), concat (map (eS r') (SE r' r))). split; [reflexivity|]. apply in_data_msgs. exists r', r.
        split; [eapply parts_range; exact Hp|]. split; [apply parts_sym; assumption|]. split; [reflexivity|]. split; [reflexivity|].
        intros E'. apply E. apply zsum_zero_nil. exact E'.
  Qed.

  (** *** one process *)
  Variables (epool : list (chan * list dsend_entry)) (cpool : list (chan * list Z)) (dpool : list (chan * list P)).
  Hypothesis HE : Permutation epool entry_msgs.
  Hypothesis HC : Permutation cpool count_msgs.
  Hypothesis HD : Permutation dpool data_msgs.

  Definition from (r r' : Z) : list dsend_entry * list Z * list P :=
    (SE r' r, map (@alen P) (map (eS r') (SE r' r)), concat (map (eS r') (SE r' r))).

  Lemma received r r' : 0 <= r < size -> In r' (parts r) -> received_from epool cpool dpool (tbl r) r r' = Some (from r r').
  Proof.
    intros Hr Hp. pose proof (parts_range _ _ Hp) as Hr'. pose proof (parts_sym r r' Hr Hp) as Hp'.
    unfold received_from, recv_entries, recv_cnts. fold (SE r r').
    rewrite (receive_unique epool entry_msgs r r' 111 (SE r' r) HE).
    2: apply in_entry_msgs; exists r', r; auto.
    2: { intros d' H. apply in_entry_msgs in H. destruct H as [s [s' [_ [_ [[= <- <-] ->]]]]]. reflexivity. }
    rewrite (SE_length r' r Hr' Hr), Z.eqb_refl.
    rewrite (receive_unique cpool count_msgs r r' 222 (map (@alen P) (map (eS r') (SE r' r))) HC).
    2: apply in_count_msgs; exists r', r; auto.
    2: { intros d' H. apply in_count_msgs in H. destruct H as [s [s' [_ [_ [[= <- <-] ->]]]]]. reflexivity. }
    replace (alen (map (@alen P) (map (eS r') (SE r' r)))) with (alen (SE r' r)) by (unfold alen; rewrite !map_length; reflexivity).
    rewrite (SE_length r' r Hr' Hr), Z.eqb_refl. unfold recv_data.
    destruct (Z.eqb_spec (zsum (map (@alen P) (map (eS r') (SE r' r)))) 0) as [E|E].
    - unfold from. apply zsum_zero_nil in E. rewrite E. reflexivity.
    - assert (Hn : concat (map (eS r') (SE r' r)) <> []) by (intros E'; apply E, zsum_zero_nil, E').
      rewrite (receive_unique dpool data_msgs r r' 1 (concat (map (eS r') (SE r' r))) HD).
      + rewrite alen_concat, Z.eqb_refl. reflexivity.
      + apply in_data_msgs; exists r', r; auto.
      + intros d' H. apply in_data_msgs in H. destruct H as [s [s' [_ [_ [[= <- <-] [-> _]]]]]]. reflexivity.
  Qed.

  Lemma unpack_ok r' es rest : unpack es (map (@alen P) (map (eS r') es)) (concat (map (eS r') es) ++ rest)
    = Some (map (fun e => (se_nei_patch e, eS r' e)) es, rest).
  Proof.
    induction es as [|e es IH]; [reflexivity|]. cbn [map concat unpack]. pose proof (alen_nonneg (eS r' e)).
    destruct (Z.ltb_spec (alen (eS r' e)) 0); [lia|]. cbn [orb]. rewrite <- app_assoc, alen_app.
    pose proof (alen_nonneg (concat (map (eS r') es) ++ rest)). destruct (Z.ltb_spec (alen (eS r' e) + alen (concat (map (eS r') es) ++ rest)) (alen (eS r' e))); [lia|].
    replace (Z.to_nat (alen (eS r' e))) with (length (eS r' e)) by (unfold alen; lia).
    rewrite skipn_app, skipn_all, Nat.sub_diag, firstn_app, firstn_all, Nat.sub_diag. cbn [skipn firstn app]. rewrite app_nil_r, IH. reflexivity.
  Qed.

  Lemma unpack_all_ok r rs : unpack_all (map (from r) rs) (concat (map (fun '(_, _, b) => b) (map (from r) rs)))
    = Some (flat_map (fun r' => map (fun e => (se_nei_patch e, eS r' e)) (SE r' r)) rs).
  Proof.
    induction rs as [|r' rs IH]; [reflexivity|]. cbn [map concat unpack_all flat_map]. unfold from at 1 2. rewrite unpack_ok, IH. reflexivity.
  Qed.

  (** the pieces patch p of process r gets: from its own process, and from others *)
  Definition loc_keys (r p : Z) : list (Z * Z * V3 Z) :=
    flat_map (fun dir => match nb r p dir with Some (r', q) => if r' =? r then [(r, q, negdir dir)] else [] | None => [] end) dirs27.
  Definition rem_keys (r p : Z) : list (Z * Z * V3 Z) :=
    flat_map (fun r' => flat_map (fun e => if se_nei_patch e =? p then [(r', se_patch e, se_dir e)] else []) (SE r' r)) (parts r).
  Definition all_keys (r p : Z) : list (Z * Z * V3 Z) :=
    flat_map (fun dir => match nb r p dir with Some (r', q) => [(r', q, negdir dir)] | None => [] end) dirs27.
  Definition kS (k : Z * Z * V3 Z) : list P := let '(r, p, dir) := k in S r p dir.

  Lemma tbl_local {B} (f : Z -> V3 Z -> list B) r p : 0 <= p < N r ->
    flat_map (fun '(p', dir, o) => match o with Some (r', q) => if (p' =? p) && (r' =? r) then f q dir else [] | None => [] end) (tbl r)
    = flat_map (fun dir => match nb r p dir with Some (r', q) => if r' =? r then f q dir else [] | None => [] end) dirs27.
  Proof.
    intros Hp. unfold tbl. rewrite flat_map_flat.
    rewrite (flat_map_ext_in _ (fun p' => if p' =? p then flat_map (fun dir => match nb r p dir with Some (r', q) => if r' =? r then f q dir else [] | None => [] end) dirs27 else [])).
    - generalize (flat_map (fun dir => match nb r p dir with Some (r', q) => if r' =? r then f q dir else [] | None => [] end) dirs27). intros v.
      assert (HI : In p (zrange 0 (N r))) by (apply in_zrange; lia). pose proof (NoDup_zrange 0 (N r)) as ND.
      induction (zrange 0 (N r)) as [|i l IH]; [destruct HI|]. inversion ND as [|? ? Nn ND']; subst. cbn [flat_map]. destruct HI as [->|HI].
      + rewrite Z.eqb_refl. replace (flat_map _ l) with (@nil B); [apply app_nil_r|]. symmetry. clear IH ND ND'.
        induction l as [|k l IH]; [reflexivity|]. cbn [flat_map]. destruct (Z.eqb_spec k p) as [->|]; [exfalso; apply Nn; now left|].
        apply IH. intros H. apply Nn. now right.
      + destruct (Z.eqb_spec i p) as [->|]; [contradiction|]. apply IH; assumption.
    - intros p' _. rewrite flat_map_map'. destruct (Z.eqb_spec p' p) as [->|].
      + apply flat_map_ext. intros dir. destruct (nb r p dir) as [[r' q]|]; reflexivity.
      + apply flat_map_none. intros dir _. destruct (nb r p' dir) as [[r' q]|]; reflexivity.
  Qed.

  Lemma local_ok r p : valid r p -> local_copies (tbl r) (sbuf r) r p = Some (flat_map kS (loc_keys r p)).
  Proof.
    intros [Hr Hp]. unfold local_copies. rewrite (tbl_local (fun q dir => [send_buf (sbuf r) q (negdir dir)]) r p Hp).
    unfold loc_keys. rewrite flat_map_flat.
    replace (flat_map _ dirs27) with (flat_map (fun dir => map (fun '(r', q, dn) => send_buf (sbuf r) q dn)
      (match nb r p dir with Some (r', q) => if r' =? r then [(r, q, negdir dir)] else [] | None => [] end)) dirs27).
    2: { apply flat_map_ext. intros dir. destruct (nb r p dir) as [[r' q]|]; [|reflexivity]. destruct (r' =? r); reflexivity. }
    unfold concat_option. rewrite (sequence_flat_some _ _ (fun '(r', q, dn) => S r q dn)).
    - cbn [option_map]. f_equal. clear. generalize dirs27. intros L. induction L as [|dir l IH]; [reflexivity|]. cbn [flat_map]. rewrite concat_app, IH. f_equal.
      destruct (nb r p dir) as [[r' q]|]; [|reflexivity]. destruct (r' =? r); reflexivity.
    - intros dir [[r' q] dn] Hd H. destruct (nb r p dir) as [[r'' q']|] eqn:E; [|destruct H]. destruct (Z.eqb_spec r'' r) as [->|]; [|destruct H].
      destruct H as [[= <- <- <-]|[]]. apply send_buf_some. apply (sym r p dir r q' (conj Hr Hp) Hd E).
  Qed.

  Lemma rem_pieces r p : flat_map (fun '(q, b) => if q =? p then b else []) (flat_map (fun r' => map (fun e => (se_nei_patch e, eS r' e)) (SE r' r)) (parts r))
    = flat_map kS (rem_keys r p).
  Proof.
    unfold rem_keys. rewrite !flat_map_flat. apply flat_map_ext. intros r'. rewrite flat_map_map', flat_map_flat. apply flat_map_ext. intros e.
    destruct (se_nei_patch e =? p); [cbn [flat_map kS]; rewrite app_nil_r; reflexivity|reflexivity].
  Qed.

  Lemma rem_counts r p : flat_map (fun '(es, cs, _) => flat_map (fun '(e, c) => if se_nei_patch e =? p then [c] else []) (combine es cs)) (map (from r) (parts r))
    = map (fun k => alen (kS k)) (rem_keys r p).
  Proof.
    unfold rem_keys. rewrite flat_map_map', map_flat_map'. apply flat_map_ext. intros r'. unfold from. rewrite map_flat_map', map_map.
    induction (SE r' r) as [|e es IH]; [reflexivity|]. cbn [map combine flat_map]. rewrite IH. destruct (se_nei_patch e =? p); reflexivity.
  Qed.

  Lemma n_recv_ok r p : valid r p -> n_recv (tbl r) (sbuf r) (map (from r) (parts r)) r p
    = Some (alen (flat_map kS (loc_keys r p) ++ flat_map kS (rem_keys r p))).
  Proof.
    intros [Hr Hp]. unfold n_recv. rewrite rem_counts.
    rewrite (tbl_local (fun q dir => [option_map (@alen P) (send_buf (sbuf r) q (negdir dir))]) r p Hp).
    replace (flat_map _ dirs27) with (map (fun k => option_map (@alen P) (send_buf (sbuf r) (snd (fst k)) (snd k))) (loc_keys r p)).
    2: { unfold loc_keys. rewrite map_flat_map'. apply flat_map_ext. intros dir. destruct (nb r p dir) as [[r' q]|]; [|reflexivity]. destruct (r' =? r); reflexivity. }
    rewrite (sequence_map_some _ (fun k => alen (kS k))).
    - rewrite alen_app, !alen_flat. reflexivity.
    - intros [[r' q] dn] H. unfold loc_keys in H. apply in_flat_map in H. destruct H as [dir [Hd H]]. destruct (nb r p dir) as [[r'' q']|] eqn:E; [|destruct H].
      destruct (Z.eqb_spec r'' r) as [->|]; [|destruct H]. destruct H as [[= <- <- <-]|[]]. cbn [fst snd kS]. rewrite send_buf_some; [reflexivity|].
      apply (sym r p dir r q' (conj Hr Hp) Hd E).
  Qed.

  Lemma in_all_keys r p k : In k (all_keys r p) <-> In (negdir (snd k)) dirs27 /\ nb r p (negdir (snd k)) = Some (fst k).
  Proof.
    unfold all_keys. rewrite in_flat_map. destruct k as [[r' q] dn]. cbn [fst snd]. split.
    - intros [dir [Hd H]]. destruct (nb r p dir) as [[r'' q']|] eqn:E; [|destruct H]. destruct H as [[= <- <- <-]|[]]. rewrite negdir_invol. auto.
    - intros [Hd E]. exists (negdir dn). split; [exact Hd|]. rewrite E, negdir_invol. now left.
  Qed.

  Lemma in_loc_keys r p k : In k (loc_keys r p) <-> In k (all_keys r p) /\ fst (fst k) = r.
  Proof.
    rewrite in_all_keys. unfold loc_keys. rewrite in_flat_map. destruct k as [[r' q] dn]. cbn [fst snd]. split.
    - intros [dir [Hd H]]. destruct (nb r p dir) as [[r'' q']|] eqn:E; [|destruct H]. destruct (Z.eqb_spec r'' r) as [->|]; [|destruct H].
      destruct H as [[= <- <- <-]|[]]. rewrite negdir_invol. auto.
    - intros [[Hd E] ->]. exists (negdir dn). split; [exact Hd|]. rewrite E, negdir_invol, Z.eqb_refl. now left.
  Qed.

  Lemma in_rem_keys r p k : valid r p -> In k (rem_keys r p) <-> In k (all_keys r p) /\ fst (fst k) <> r.
  Proof.
    intros Hv. rewrite in_all_keys. unfold rem_keys. rewrite in_flat_map. destruct k as [[r' q] dn]. cbn [fst snd]. split.
    - intros [r'' [Hr H]]. apply in_flat_map in H. destruct H as [e [He H]]. destruct (Z.eqb_spec (se_nei_patch e) p) as [<-|]; [|destruct H].
      destruct H as [[= <- <- <-]|[]]. apply in_SE in He. destruct He as [Hp [Hd [E Hn]]].
      destruct (sym r'' _ _ _ _ (conj (parts_range _ _ Hr) Hp) Hd E) as [_ E']. split; [|auto]. split; [apply negdir_in; exact Hd|exact E'].
    - intros [[Hd E] Hn]. destruct (sym r p _ _ _ Hv Hd E) as [[Hr' Hq] E']. rewrite negdir_invol in E'.
      assert (Hin : In (mkSE q p dn) (SE r' r)).
      { apply in_SE. cbn [se_patch se_dir se_nei_patch]. split; [exact Hq|]. split; [rewrite <- (negdir_invol dn); apply negdir_in; exact Hd|]. split; [exact E'|]. auto. }
      exists r'. split.
      + apply parts_sym; [exact Hr'|]. apply in_parts. split; [apply Hv|]. intros Z. rewrite Z in Hin. destruct Hin.
      + apply in_flat_map. exists (mkSE q p dn). split; [exact Hin|]. cbn [se_patch se_dir se_nei_patch]. rewrite Z.eqb_refl. now left.
  Qed.

  Lemma keys_perm r p : valid r p -> Permutation (loc_keys r p ++ rem_keys r p) (all_keys r p).
  Proof.
    intros Hv. apply NoDup_Permutation.
    - apply NoDup_app_intro.
      + unfold loc_keys. apply (NoDup_flat_map _ _ (fun k => negdir (snd k))); [apply NoDup_dirs27|..].
        * intros dir k _ H. destruct (nb r p dir) as [[r' q]|]; [|destruct H]. destruct (r' =? r); [|destruct H]. destruct H as [<-|[]]. cbn [snd]. apply negdir_invol.
        * intros dir _. destruct (nb r p dir) as [[r' q]|]; [|constructor]. destruct (r' =? r); constructor; [intros []|constructor].
      + unfold rem_keys. apply (NoDup_flat_map _ _ (fun k => fst (fst k))); [apply NoDup_parts|..].
        * intros r' k _ H. apply in_flat_map in H. destruct H as [e [_ H]]. destruct (se_nei_patch e =? p); [|destruct H]. destruct H as [<-|[]]. reflexivity.
        * intros r' _. apply (NoDup_flat_map _ _ (fun k => mkSE (snd (fst k)) p (snd k))); [apply NoDup_SE|..].
          -- intros e k _ H. destruct (Z.eqb_spec (se_nei_patch e) p) as [<-|]; [|destruct H]. destruct H as [<-|[]]. destruct e; reflexivity.
          -- intros e _. destruct (se_nei_patch e =? p); constructor; [intros []|constructor].
      + intros k H1 H2. apply in_loc_keys in H1. apply (in_rem_keys r p k Hv) in H2. destruct H1, H2. contradiction.
    - unfold all_keys. apply (NoDup_flat_map _ _ (fun k => negdir (snd k))); [apply NoDup_dirs27|..].
      + intros dir k _ H. destruct (nb r p dir) as [[r' q]|]; [|destruct H]. destruct H as [<-|[]]. cbn [snd]. apply negdir_invol.
      + intros dir _. destruct (nb r p dir) as [[r' q]|]; constructor; [intros []|constructor].
    - intros k. rewrite in_app_iff, in_loc_keys, (in_rem_keys r p k Hv). destruct (Z.eq_dec (fst (fst k)) r); tauto.
  Qed.

  Definition arrivals (r p : Z) : list P := flat_map kS (loc_keys r p) ++ flat_map kS (rem_keys r p).

  Lemma arrivals_perm r p : valid r p -> Permutation (arrivals r p)
    (flat_map (fun dir => match nb r p dir with Some (r', q) => S r' q (negdir dir) | None => [] end) dirs27).
  Proof.
    intros Hv. unfold arrivals. rewrite <- flat_map_app. etransitivity; [apply Permutation_flat_map, keys_perm; exact Hv|].
    unfold all_keys. rewrite flat_map_flat. match goal with |- Permutation ?a ?b => replace a with b; [apply Permutation_refl|] end. apply flat_map_ext. intros dir. destruct (nb r p dir) as [[r' q]|]; [|reflexivity].
    cbn [flat_map kS]. rewrite app_nil_r. reflexivity.
  Qed.

  Lemma comm_ok dm r kept : 0 <= r < size -> nei_table dm r = Some (tbl r) -> alen kept = N r ->
    comm dm size epool cpool dpool kept (sbuf r) r = Some (map (fun '(p, k) => k ++ arrivals r p) (enumerate kept)).
  Proof.
    intros Hr Ht Hk. unfold comm. rewrite Ht.
    change (partners (tbl r) r size) with (parts r).
    rewrite (sequence_map_some _ (from r)) by (intros r' H; apply received; assumption).
    rewrite unpack_all_ok. apply sequence_map_some. intros [p k] H. apply enumerate_in in H.
    assert (Hv : valid r p). { split; [exact Hr|]. rewrite <- Hk. unfold alen. destruct H as [H0 H1]. assert (Hl : nth_error kept (Z.to_nat p) <> None) by congruence. apply nth_error_Some in Hl. lia. }
    rewrite local_ok, n_recv_ok by exact Hv. cbv zeta. rewrite rem_pieces, Z.eqb_refl. reflexivity.
  Qed.
End Exchange.

(** ** the neighbour relation of the domain *)
From Verif Require Import DdcPrtSpec.

Definition nbd (dm : domain) (r p : Z) (dir : V3 Z) : option (Z * Z) := dest dm (r, p, dir).

Lemma counts_length pr n size : counts_valid pr n size -> processes pr size -> alen (counts_of pr n size) = size.
Proof.
  intros Hc Hp. destruct pr as [l|]; cbn in *; [exact Hp|]. unfold default_counts, alen. rewrite map_length, zrange_length. lia.
Qed.

Section Domain.
  Variables (c : curve) (np gdims : V3 Z) (per : V3 bool) (pr : option (list Z)) (size : Z) (dm : domain).
  Hypothesis Hpos : all_pos np.
  Hypothesis Hset : domain_setup c np gdims per pr size = Some dm.
  Hypothesis Hcnt : counts_valid pr (volume np) size.
  Hypothesis Hproc : processes pr size.

  Lemma nr_some r : 0 <= r < size -> nr_patches dm r = Some (patches_of dm r).
  Proof.
    intros Hr. pose proof (counts_length pr (volume np) size Hcnt Hproc) as HL.
    destruct (nth_error (counts_of pr (volume np) size) (Z.to_nat r)) as [k|] eqn:E.
    - unfold patches_of. rewrite (nr_patches_ok c np gdims per pr size dm Hset r k (proj1 Hr) E). reflexivity.
    - apply nth_error_None in E. unfold alen in HL. lia.
  Qed.

  Lemma nei_valid r p dir r' p' : valid size (patches_of dm) r p -> In dir dirs27 -> get_neighbor_rank_patch dm r p dir = Some (Some (r', p')) ->
    valid size (patches_of dm) r' p'.
  Proof.
    intros [Hr Hp] Hd H. pose proof (counts_length pr (volume np) size Hcnt Hproc) as HL.
    destruct (nth_error (counts_of pr (volume np) size) (Z.to_nat r)) as [k|] eqn:E; [|apply nth_error_None in E; unfold alen in HL; lia].
    assert (Ek : patches_of dm r = k) by (unfold patches_of; rewrite (nr_patches_ok c np gdims per pr size dm Hset r k (proj1 Hr) E); reflexivity).
    assert (Ho : owns (counts_of pr (volume np) size) r p (zsum (firstn (Z.to_nat r) (counts_of pr (volume np) size)) + p)).
    { split; [lia|]. exists k. split; [exact E|]. split; [lia|reflexivity]. }
    destruct (owns_local c np gdims per pr size dm Hpos Hset Hcnt r p _ Ho) as [Hgp EL].
    destruct (global_info c np gdims per pr size dm Hpos Hset Hcnt _ Hgp) as [info [EI _]]. rewrite <- EL in EI.
    pose proof (proj1 (in_dirs27 dir) Hd) as Hd'.
    destruct (neighbour_cases c np gdims per pr size dm Hpos Hset Hcnt r p _ info dir Ho EI Hd') as [[_ K]|[_ [r1 [p1 [gp' [info' [K [Ho' _]]]]]]]].
    - rewrite K in H. discriminate H.
    - rewrite K in H. injection H as -> ->. destruct Ho' as [Hr' [k' [En [Hp' _]]]]. split.
      + assert (Hn : nth_error (counts_of pr (volume np) size) (Z.to_nat r') <> None) by congruence. apply nth_error_Some in Hn. unfold alen in HL. lia.
      + unfold patches_of. rewrite (nr_patches_ok c np gdims per pr size dm Hset r' k' Hr' En). exact Hp'.
  Qed.

  Lemma negdir_gen dir : gen3 (fun d => - get3 dir d) = negdir dir.
  Proof. reflexivity. Qed.

  Lemma nei_of_some r p dir : valid size (patches_of dm) r p -> In dir dirs27 -> nei_of dm r p dir = Some (nbd dm r p dir).
  Proof.
    intros [Hr Hp] Hd. unfold nei_of, nbd, dest. destruct ((c0 dir =? 0) && (c1 dir =? 0) && (c2 dir =? 0)); [reflexivity|].
    destruct (neighbour_full c np gdims per pr size dm r (patches_of dm r) p dir Hpos Hset Hcnt (proj1 Hr) (nr_some r Hr) Hp (proj1 (in_dirs27 dir) Hd))
      as [info [_ [[_ K]|[_ [r' [p' [i' [K _]]]]]]]]; rewrite K; reflexivity.
  Qed.

  Lemma nbd_sym r p dir r' p' : valid size (patches_of dm) r p -> In dir dirs27 -> nbd dm r p dir = Some (r', p') ->
    valid size (patches_of dm) r' p' /\ nbd dm r' p' (negdir dir) = Some (r, p).
  Proof.
    intros Hv Hd H. pose proof Hv as [Hr Hp]. unfold nbd, dest in *. destruct ((c0 dir =? 0) && (c1 dir =? 0) && (c2 dir =? 0)) eqn:E0; [discriminate H|].
    destruct (neighbour_full c np gdims per pr size dm r (patches_of dm r) p dir Hpos Hset Hcnt (proj1 Hr) (nr_some r Hr) Hp (proj1 (in_dirs27 dir) Hd))
      as [info [_ [[_ K]|[_ [r1 [p1 [i' [K [_ [_ [_ [_ K2]]]]]]]]]]]]; rewrite K in H; [discriminate H|]. injection H as -> ->.
    split; [eapply nei_valid; eassumption|]. rewrite negdir_gen in K2. rewrite K2.
    replace ((c0 (negdir dir) =? 0) && (c1 (negdir dir) =? 0) && (c2 (negdir dir) =? 0)) with false; [reflexivity|].
    rewrite <- E0. unfold negdir. cbn [c0 c1 c2]. destruct (Z.eqb_spec (c0 dir) 0), (Z.eqb_spec (- c0 dir) 0), (Z.eqb_spec (c1 dir) 0), (Z.eqb_spec (- c1 dir) 0),
      (Z.eqb_spec (c2 dir) 0), (Z.eqb_spec (- c2 dir) 0); try reflexivity; lia.
  Qed.

  Lemma nei_table_some r : 0 <= r < size -> nei_table dm r = Some (tbl (patches_of dm) (nbd dm) r).
  Proof.
    intros Hr. unfold nei_table. rewrite (nr_some r Hr). unfold tbl.
    pose proof (sequence_flat_some (fun p => map (fun dir => (p, dir)) dirs27) (fun '(p, dir) => option_map (fun o => (p, dir, o)) (nei_of dm r p dir))
      (fun '(p, dir) => (p, dir, nbd dm r p dir)) (zrange 0 (patches_of dm r))) as H.
    etransitivity; [|etransitivity; [apply H|]].
    - apply f_equal, flat_map_ext. intros p. rewrite map_map. reflexivity.
    - intros p [p' dir] Hp Hi. apply in_map_iff in Hi. destruct Hi as [dir' [[= <- <-] Hd]]. apply in_zrange in Hp.
      rewrite nei_of_some; [reflexivity| |exact Hd]. split; [exact Hr|lia].
    - apply f_equal, flat_map_ext. intros p. rewrite map_map. reflexivity.
  Qed.

  (** *** the buffers by destination *)
  Lemma buffers_eq : buffers dm size = flat_map (fun r => flat_map (fun p => map (fun dir => (r, p, dir)) dirs27) (zrange 0 (patches_of dm r))) (zrange 0 size).
  Proof.
    unfold buffers, dirs27. apply flat_map_ext. intros r. apply flat_map_ext. intros p. rewrite map_flat_map'. apply flat_map_ext. intros k.
    rewrite map_flat_map'. apply flat_map_ext. intros j. rewrite map_map. reflexivity.
  Qed.

  Lemma in_buffers r p dir : In (r, p, dir) (buffers dm size) <-> valid size (patches_of dm) r p /\ In dir dirs27.
  Proof.
    rewrite buffers_eq, in_flat_map. split.
    - intros [r' [Hr H]]. apply in_flat_map in H. destruct H as [p' [Hp H]]. apply in_map_iff in H. destruct H as [dir' [[= <- <- <-] Hd]].
      apply in_zrange in Hr, Hp. split; [split; lia|exact Hd].
    - intros [[Hr Hp] Hd]. exists r. split; [apply in_zrange; lia|]. apply in_flat_map. exists p. split; [apply in_zrange; lia|]. apply in_map. exact Hd.
  Qed.

  Lemma NoDup_buffers : NoDup (buffers dm size).
  Proof.
    rewrite buffers_eq. apply (NoDup_flat_map _ _ (fun k => fst (fst k))); [apply NoDup_zrange|..].
    - intros r k _ H. apply in_flat_map in H. destruct H as [p [_ H]]. apply in_map_iff in H. destruct H as [dir [<- _]]. reflexivity.
    - intros r _. apply (NoDup_flat_map _ _ (fun k => snd (fst k))); [apply NoDup_zrange|..].
      + intros p k _ H. apply in_map_iff in H. destruct H as [dir [<- _]]. reflexivity.
      + intros p _. apply NoDup_map_inj_in; [|apply NoDup_dirs27]. intros x y _ _ [= ->]. reflexivity.
  Qed.

  Lemma meant_for_iff r p s : meant_for dm r p s = true <-> dest dm s = Some (r, p).
  Proof.
    unfold meant_for, pair_eqb. destruct (dest dm s) as [[r' p']|]; cbn [fst snd]; [|split; discriminate].
    rewrite andb_true_iff, !Z.eqb_eq. split; [intros [-> ->]; reflexivity|intros [= -> ->]; auto].
  Qed.

  Lemma keys_meant r p : valid size (patches_of dm) r p ->
    Permutation (all_keys (nbd dm) r p) (filter (meant_for dm r p) (buffers dm size)).
  Proof.
    intros Hv. apply NoDup_Permutation.
    - unfold all_keys. apply (NoDup_flat_map _ _ (fun k => negdir (snd k))); [apply NoDup_dirs27|..].
      + intros dir k _ H. destruct (nbd dm r p dir) as [[r' q]|]; [|destruct H]. destruct H as [<-|[]]. cbn [snd]. apply negdir_invol.
      + intros dir _. destruct (nbd dm r p dir) as [[r' q]|]; constructor; [intros []|constructor].
    - apply NoDup_filter', NoDup_buffers.
    - intros [[r' p'] dir]. rewrite in_all_keys, filter_In, meant_for_iff, in_buffers. cbn [fst snd]. split.
      + intros [Hd E]. destruct (nbd_sym r p _ _ _ Hv Hd E) as [Hv' E']. rewrite negdir_invol in E'. split; [|exact E'].
        split; [exact Hv'|]. rewrite <- (negdir_invol dir). apply negdir_in. exact Hd.
      + intros [[Hv' Hd] E]. destruct (nbd_sym r' p' dir r p Hv' Hd E) as [_ E']. split; [apply negdir_in; exact Hd|exact E'].
  Qed.

  (** the list of all patches *)
  Definition patch_list : list (Z * Z) := flat_map (fun r => map (fun p => (r, p)) (zrange 0 (patches_of dm r))) (zrange 0 size).

  Lemma in_patch_list r p : In (r, p) patch_list <-> valid size (patches_of dm) r p.
  Proof.
    unfold patch_list. rewrite in_flat_map. split.
    - intros [r' [Hr H]]. apply in_map_iff in H. destruct H as [p' [[= <- <-] Hp]]. apply in_zrange in Hr, Hp. split; lia.
    - intros [Hr Hp]. exists r. split; [apply in_zrange; lia|]. apply in_map_iff. exists p. split; [reflexivity|apply in_zrange; lia].
  Qed.

  Lemma NoDup_patch_list : NoDup patch_list.
  Proof.
    unfold patch_list. apply (NoDup_flat_map _ _ fst); [apply NoDup_zrange|..].
    - intros r k _ H. apply in_map_iff in H. destruct H as [p [<- _]]. reflexivity.
    - intros r _. apply NoDup_map_inj_in; [|apply NoDup_zrange]. intros x y _ _ [= ->]. reflexivity.
  Qed.

  Lemma all_meant : Permutation (flat_map (fun '(r, p) => filter (meant_for dm r p) (buffers dm size)) patch_list) (filter (delivered dm) (buffers dm size)).
  Proof.
    apply NoDup_Permutation.
    - apply (NoDup_flat_map _ _ (fun s => match dest dm s with Some q => q | None => (0, 0) end)); [apply NoDup_patch_list|..].
      + intros [r p] s _ H. apply filter_In in H. destruct H as [_ H]. apply meant_for_iff in H. rewrite H. reflexivity.
      + intros [r p] _. apply NoDup_filter', NoDup_buffers.
    - apply NoDup_filter', NoDup_buffers.
    - intros [[r' p'] dir]. rewrite in_flat_map, filter_In. unfold delivered. split.
      + intros [[r p] [_ H]]. apply filter_In in H. destruct H as [H1 H2]. apply meant_for_iff in H2. rewrite H2. auto.
      + intros [H1 H2]. destruct (dest dm (r', p', dir)) as [[r p]|] eqn:E; [|discriminate H2]. pose proof H1 as H1'. apply in_buffers in H1'. destruct H1' as [Hv Hd].
        exists (r, p). split; [|apply filter_In; split; [exact H1|apply meant_for_iff; exact E]].
        apply in_patch_list. apply (nbd_sym r' p' dir r p Hv Hd E).
  Qed.
End Domain.

Lemma flat_filter {A B} (f : A -> list B) (b : A -> bool) l : flat_map f (filter b l) = flat_map (fun a => if b a then f a else []) l.
Proof. induction l as [|a l IH]; [reflexivity|]. cbn [filter flat_map]. destruct (b a); cbn [flat_map]; rewrite IH; reflexivity. Qed.

Lemma aget_enum_map {A B} (f : Z * A -> B) (l : list A) i x : aget l i = Some x -> aget (map f (enumerate l)) i = Some (f (i, x)).
Proof.
  intros H. rewrite aget_map. enough (E : aget (enumerate l) i = Some (i, x)) by (rewrite E; reflexivity).
  revert H. induction l as [|y l IH] using rev_ind; [intros H; apply aget_bounds in H; cbn in H; lia|].
  rewrite enumerate_app, !aget_app. unfold alen. replace (length (enumerate l)) with (length l).
  - destruct (i <? Z.of_nat (length l)) eqn:Ei; [exact IH|]. rewrite !aget_cons. destruct (Z.eqb_spec (i - Z.of_nat (length l)) 0) as [E|E].
    + intros [= ->]. f_equal. f_equal. lia.
    + intros H. apply aget_bounds in H. cbn in H. lia.
  - unfold enumerate. rewrite combine_length, zrange_length. lia.
Qed.

Lemma perm_flat_app {A B} (f g : A -> list B) l : Permutation (flat_map (fun a => f a ++ g a) l) (flat_map f l ++ flat_map g l).
Proof.
  induction l as [|a l IH]; [constructor|]. cbn [flat_map]. rewrite IH. rewrite <- !app_assoc. apply Permutation_app_head.
  rewrite !app_assoc. apply Permutation_app_tail. apply Permutation_app_comm.
Qed.

Lemma perm_flat_ext {A B} (f g : A -> list B) l : (forall a, In a l -> Permutation (f a) (g a)) -> Permutation (flat_map f l) (flat_map g l).
Proof.
  intros H. induction l as [|a l IH]; [constructor|]. cbn [flat_map]. apply Permutation_app; [apply H; now left|]. apply IH. intros b Hb. apply H. now right.
Qed.

Lemma concat_enum {A} (l : list (list A)) (g : Z -> list A) :
  Permutation (concat (map (fun '(p, k) => k ++ g p) (enumerate l))) (concat l ++ flat_map g (zrange 0 (alen l))).
Proof.
  rewrite <- flat_map_concat_map. etransitivity; [|etransitivity; [apply (perm_flat_app (fun '(p, k) => k) (fun '(p, k) => g p))|]].
  - apply perm_flat_ext. intros [p k] _. apply Permutation_refl.
  - apply Permutation_app.
    + match goal with |- Permutation ?a ?b => replace a with b; [apply Permutation_refl|] end.
      induction l as [|x l IH] using rev_ind; [reflexivity|]. rewrite enumerate_app, flat_map_app, <- IH, concat_app. reflexivity.
    + match goal with |- Permutation ?a ?b => replace a with b; [apply Permutation_refl|] end.
      unfold alen. induction l as [|x l IH] using rev_ind; [reflexivity|]. rewrite enumerate_app, flat_map_app, <- IH, app_length. cbn [length].
      replace (Z.of_nat (length l + 1)) with (Z.of_nat (length l) + 1) by lia. rewrite zrange_snoc by lia. rewrite flat_map_app. reflexivity.
Qed.

Lemma contents_S {P} (sb : Z -> list (Z -> list P)) s : contents sb s = kS sb s.
Proof.
  destruct s as [[r p] dir]. unfold contents, kS, S, send_buf, dir2idx. destruct (aget (sb r) p) as [b|]; [|reflexivity]. cbn [option_map]. f_equal. ring.
Qed.

Lemma exchange_full {P} c np gdims per pr size dm (kept : Z -> list (list P)) (sb : Z -> list (Z -> list P)) :
  all_pos np -> domain_setup c np gdims per pr size = Some dm -> counts_valid pr (volume np) size -> processes pr size ->
  per_patch dm size kept -> per_patch dm size sb ->
  exists em cm pm re rc,
    all_entry_posts dm size = Some em /\ all_count_posts dm size sb = Some cm /\ all_data_posts dm size sb = Some pm /\
    all_recv_chans dm size 111 = Some re /\ all_recv_chans dm size 222 = Some rc /\ balanced em re /\ balanced cm rc /\
    forall epool cpool dpool, Permutation epool em -> Permutation cpool cm -> Permutation dpool pm ->
      (exists rd, all_recv_data_chans dm size cpool = Some rd /\ balanced pm rd) /\
      exists res : Z -> list (list P),
        per_patch dm size res /\
        (forall r, 0 <= r < size -> comm dm size epool cpool dpool (kept r) (sb r) r = Some (res r) /\
           forall p k, aget (kept r) p = Some k -> exists new, aget (res r) p = Some (k ++ new) /\
             Permutation new (flat_map (contents sb) (filter (meant_for dm r p) (buffers dm size)))) /\
        Permutation (flat_map (fun r => concat (res r)) (zrange 0 size))
          (flat_map (fun r => concat (kept r)) (zrange 0 size) ++ flat_map (contents sb) (filter (delivered dm) (buffers dm size))).
Proof.
  intros Hpos Hset Hcnt Hproc Hk Hs.
  pose proof (nbd_sym c np gdims per pr size dm Hpos Hset Hcnt Hproc) as SY.
  pose proof (nei_table_some c np gdims per pr size dm Hpos Hset Hcnt Hproc) as TB.
  set (N := patches_of dm) in *. set (nb := nbd dm) in *.
  exists (entry_msgs size N nb), (count_msgs size N nb sb), (data_msgs size N nb sb), (pair_recvs size N nb 111), (pair_recvs size N nb 222).
  split. { unfold all_entry_posts. apply concat_option_some. intros r Hr. apply in_zrange in Hr. rewrite TB by lia. reflexivity. }
  split. { unfold all_count_posts. apply concat_option_some. intros r Hr. apply in_zrange in Hr. rewrite TB by lia. apply (count_posts_some size N nb SY sb Hs). lia. }
  split. { unfold all_data_posts. apply concat_option_some. intros r Hr. apply in_zrange in Hr. rewrite TB by lia. apply (data_posts_some size N nb SY sb Hs). lia. }
  split. { unfold all_recv_chans. apply concat_option_some. intros r Hr. apply in_zrange in Hr. rewrite TB by lia. reflexivity. }
  split. { unfold all_recv_chans. apply concat_option_some. intros r Hr. apply in_zrange in Hr. rewrite TB by lia. reflexivity. }
  split; [apply (entries_balanced size N nb SY sb Hs)|]. split; [apply (counts_balanced' size N nb SY sb Hs)|].
  intros epool cpool dpool HE HC HD. split.
  - exists (data_recvs size N nb sb). split; [|apply (data_balanced size N nb SY sb Hs)].
    unfold all_recv_data_chans. apply concat_option_some. intros r Hr. apply in_zrange in Hr. rewrite TB by lia. unfold recv_data_chans.
    apply concat_option_some. intros r' Hr'. 
    pose proof (received size N nb SY sb Hs epool cpool dpool HE HC HD r r' ltac:(lia) Hr') as RC. unfold received_from in RC.
    destruct (recv_entries epool (tbl N nb r) r r'); [|discriminate RC]. destruct (recv_cnts cpool (tbl N nb r) r r') as [cs|]; [|discriminate RC].
    destruct (recv_data dpool r r' cs); [|discriminate RC]. unfold from in RC. injection RC as _ -> _. reflexivity.
  - exists (fun r => map (fun '(p, k) => k ++ arrivals size N nb sb r p) (enumerate (kept r))). split; [|split].
    + intros r Hr. rewrite <- (Hk r Hr). unfold alen. rewrite map_length. unfold enumerate. rewrite combine_length, zrange_length. lia.
    + intros r Hr. split.
      * apply (comm_ok size N nb SY sb Hs epool cpool dpool HE HC HD); [exact Hr|apply TB; exact Hr|apply Hk; exact Hr].
      * intros p k E. exists (arrivals size N nb sb r p). split; [exact (aget_enum_map _ _ _ _ E)|].
        assert (Hv : valid size N r p) by (split; [exact Hr|]; unfold N; rewrite <- (Hk r Hr); exact (aget_bounds _ _ _ E)).
        unfold arrivals. rewrite <- flat_map_app. assert (KP : Permutation (loc_keys nb r p ++ rem_keys size N nb r p) (all_keys nb r p)) by (eapply keys_perm; eassumption). rewrite (Permutation_flat_map _ KP).
        assert (KM : Permutation (all_keys nb r p) (filter (meant_for dm r p) (buffers dm size))) by (eapply keys_meant; eassumption). rewrite (Permutation_flat_map _ KM).
        apply perm_flat_ext. intros s _. rewrite contents_S. apply Permutation_refl.
    + etransitivity; [apply (perm_flat_ext _ (fun r => concat (kept r) ++ flat_map (arrivals size N nb sb r) (zrange 0 (alen (kept r))))); intros r _; apply concat_enum|].
      etransitivity; [apply perm_flat_app|]. apply Permutation_app_head.
      rewrite <- (Permutation_flat_map (contents sb) (all_meant c np gdims per pr size dm Hpos Hset Hcnt Hproc)).
      unfold patch_list. rewrite !flat_map_flat. apply perm_flat_ext. intros r Hr. apply in_zrange in Hr. rewrite !flat_map_map'.
      rewrite Hk by lia. apply perm_flat_ext. intros p Hp. apply in_zrange in Hp.
      assert (Hv : valid size N r p) by (split; [lia|]; unfold N; lia).
      unfold arrivals. rewrite <- flat_map_app. assert (KP : Permutation (loc_keys nb r p ++ rem_keys size N nb r p) (all_keys nb r p)) by (eapply keys_perm; eassumption). rewrite (Permutation_flat_map _ KP).
      assert (KM : Permutation (all_keys nb r p) (filter (meant_for dm r p) (buffers dm size))) by (eapply keys_meant; eassumption). rewrite (Permutation_flat_map _ KM).
      apply perm_flat_ext. intros s _. rewrite contents_S. apply Permutation_refl.
Qed.
