(** Lemmas for the field updates on the GPU. *)
From Coq Require Import Reals Permutation Lra.
From Verif Require Import Base DomainSpec FieldModel FieldSpec FieldProofs CudaPushFldModel CudaPushFldSpec.
Local Open Scope Z_scope.

Lemma gcomp_eqb_eq a b : gcomp_eqb a b = true <-> a = b.
Proof.
  destruct a as [q d|], b as [q' d'|]; cbn [gcomp_eqb]; try (split; congruence).
  rewrite andb_true_iff, qty_eqb_eq, dim3_eqb_eq. split; [intros [-> ->]; reflexivity|intros E; injection E as -> ->; auto].
Qed.

Lemma trip_inj {A B C} (a a' : A) (b b' : B) (c c' : C) : (a, b, c) = (a', b', c') -> a = a' /\ b = b' /\ c = c'.
Proof. intros E. injection E as -> -> ->. auto. Qed.

Lemma gt_set_at f p c n v : gt_set f p c n v p c n = v.
Proof. unfold gt_set. rewrite Z.eqb_refl, (proj2 (gcomp_eqb_eq c c) eq_refl), v3_eqb_refl. reflexivity. Qed.

Lemma gt_set_other f p c n v p' c' n' : (p, c, n) <> (p', c', n') -> gt_set f p c n v p' c' n' = f p' c' n'.
Proof.
  intros H. unfold gt_set. destruct ((p =? p') && gcomp_eqb c c' && v3_eqb n n') eqn:E; [|reflexivity].
  apply andb_true_iff in E. destruct E as [E E3]. apply andb_true_iff in E. destruct E as [E1 E2].
  apply Z.eqb_eq in E1. apply gcomp_eqb_eq in E2. apply v3_eqb_eq in E3. subst. congruence.
Qed.

(** evaluation without the checks *)
Fixpoint evalR (f : gtf) (p : Z) (i : V3 Z) (e : gexpr) : R :=
  match e with
  | GConst r => r
  | GAt c o _ => f p c (at_off i o)
  | GAdd a b => (evalR f p i a + evalR f p i b)%R
  | GSub a b => (evalR f p i a - evalR f p i b)%R
  | GMul a b => (evalR f p i a * evalR f p i b)%R
  end.

Fixpoint leaves (e : gexpr) : list (gcomp * V3 Z) :=
  match e with
  | GConst _ => []
  | GAt c o _ => [(c, o)]
  | GAdd a b | GSub a b | GMul a b => leaves a ++ leaves b
  end.

Lemma eval_ok sh f p i e : (forall c o, In (c, o) (leaves e) -> gt_in sh (at_off i o) = true) ->
  gt_eval sh f p i e = Some (evalR f p i e).
Proof.
  induction e as [r|c o s|a IHa b IHb|a IHa b IHb|a IHa b IHb]; cbn [gt_eval evalR leaves]; intros H; [reflexivity| | | |].
  - rewrite (H c o) by (left; reflexivity). reflexivity.
  - rewrite IHa, IHb by (intros; eapply H; apply in_or_app; eauto). reflexivity.
  - rewrite IHa, IHb by (intros; eapply H; apply in_or_app; eauto). reflexivity.
  - rewrite IHa, IHb by (intros; eapply H; apply in_or_app; eauto). reflexivity.
Qed.

Lemma evalR_ext f f' p i e : (forall c o, In (c, o) (leaves e) -> f p c (at_off i o) = f' p c (at_off i o)) ->
  evalR f p i e = evalR f' p i e.
Proof.
  induction e as [r|c o s|a IHa b IHb|a IHa b IHb|a IHa b IHb]; cbn [evalR leaves]; intros H; [reflexivity| | | |].
  - apply (H c o). left. reflexivity.
  - rewrite IHa, IHb by (intros; eapply H; apply in_or_app; eauto). reflexivity.
  - rewrite IHa, IHb by (intros; eapply H; apply in_or_app; eauto). reflexivity.
  - rewrite IHa, IHb by (intros; eapply H; apply in_or_app; eauto). reflexivity.
Qed.

(** where a task writes *)
Definition tgt (t : gtask) : Z * gcomp * V3 Z := let '(p, i, s) := t in (p, gs_c s, at_off i (gs_o s)).
Definition tguard (t : gtask) : bool := let '(p, i, s) := t in gs_guard s i.
Definition tread (t : gtask) (x : Z * gcomp * V3 Z) : Prop :=
  let '(p, i, s) := t in exists c o, In (c, o) (leaves (gs_rhs s)) /\ x = (p, c, at_off i o).
Definition tsafe (sh : V3 Z) (t : gtask) : Prop :=
  let '(p, i, s) := t in gs_guard s i = true -> gt_in sh (at_off i (gs_o s)) = true /\
    forall c o, In (c, o) (leaves (gs_rhs s)) -> gt_in sh (at_off i o) = true.
Definition tval (f : gtf) (t : gtask) : R := let '(p, i, s) := t in evalR f p i (gs_rhs s).
Definition gat (f : gtf) (x : Z * gcomp * V3 Z) : R := let '(p, c, n) := x in f p c n.

Lemma exec_ok sh t f : tsafe sh t -> exists f1, gt_exec sh t f = Some f1 /\
  (tguard t = true -> gat f1 (tgt t) = tval f t) /\
  (forall x, x <> tgt t \/ tguard t = false -> gat f1 x = gat f x).
Proof.
  destruct t as [[p i] s]. cbn [tsafe tguard tgt tval gt_exec]. intros H. destruct (gs_guard s i) eqn:G.
  - destruct (H eq_refl) as [H1 H2]. rewrite H1, (eval_ok sh f p i _ H2). eexists. split; [reflexivity|]. split.
    + intros _. cbn [gat]. apply gt_set_at.
    + intros [[p' c'] n'] [D|D]; [|discriminate]. cbn [gat]. apply gt_set_other. congruence.
  - exists f. split; [reflexivity|]. split; [discriminate|]. auto.
Qed.

(** tasks that write different elements, none of which reads what another one writes *)
Definition indep (ts : list gtask) : Prop :=
  NoDup ts /\ forall t t', In t ts -> In t' ts -> t <> t' -> tgt t <> tgt t' /\ ~ tread t' (tgt t).

Lemma indep_tail t ts : indep (t :: ts) -> indep ts.
Proof. intros [N H]. split; [inversion N; assumption|]. intros; apply H; cbn [In]; auto. Qed.

Lemma run_ok sh ts : indep ts -> (forall t, In t ts -> tsafe sh t) -> forall f, exists f', gt_run sh ts f = Some f' /\
  (forall t, In t ts -> tguard t = true -> gat f' (tgt t) = tval f t) /\
  (forall x, (forall t, In t ts -> tguard t = true -> tgt t <> x) -> gat f' x = gat f x).
Proof.
  induction ts as [|t ts IH]; intros I Sf f.
  - exists f. cbn [gt_run In]. split; [reflexivity|]. split; [intros t []|reflexivity].
  - destruct (exec_ok sh t f (Sf t (or_introl eq_refl))) as [f1 [E1 [E2 E3]]].
    destruct (IH (indep_tail t ts I) (fun t' H => Sf t' (or_intror H)) f1) as [f' [F1 [F2 F3]]].
    destruct I as [N I]. inversion N as [|? ? Nt Nts]; subst.
    assert (Ne : forall t', In t' ts -> t <> t') by (intros t' Ht' ->; auto).
    exists f'. cbn [gt_run]. rewrite E1. split; [exact F1|]. split.
    + intros t' [<-|Ht'] Gt.
      * rewrite F3; [apply E2; exact Gt|]. intros t' Ht' _. apply not_eq_sym.
        apply (proj1 (I t t' (or_introl eq_refl) (or_intror Ht') (Ne t' Ht'))).
      * rewrite (F2 t' Ht' Gt). pose proof (proj2 (I t t' (or_introl eq_refl) (or_intror Ht') (Ne t' Ht'))) as Nr.
        destruct t' as [[p i] s]. cbn [tval]. apply evalR_ext. intros c o Hl.
        apply (E3 (p, c, at_off i o)). left. intros E. apply Nr. cbn [tread]. exists c, o. split; [exact Hl|]. symmetry; exact E.
    + intros x Hx. rewrite F3 by (intros t' Ht' Gt; apply Hx; [right; exact Ht'|exact Gt]).
      apply E3. destruct (tguard t) eqn:Gt; [left|right; reflexivity].
      apply not_eq_sym. apply Hx; [left; reflexivity|exact Gt].
Qed.

Lemma indep_perm ts ord : Permutation ts ord -> indep ts -> indep ord.
Proof.
  intros P [N H]. split; [exact (Permutation_NoDup P N)|]. intros t t' H1 H2 D.
  apply H; [exact (Permutation_in _ (Permutation_sym P) H1)|exact (Permutation_in _ (Permutation_sym P) H2)|exact D].
Qed.

(** a launch, whatever its order *)
Lemma stage_ok sh ts rest f Q : indep ts -> (forall t, In t ts -> tsafe sh t) ->
  (forall f', (forall t, In t ts -> tguard t = true -> gat f' (tgt t) = tval f t) ->
     (forall x, (forall t, In t ts -> tguard t = true -> tgt t <> x) -> gat f' x = gat f x) -> gt_always sh rest f' Q) ->
  gt_always sh (ts :: rest) f Q.
Proof.
  intros I Sf H ord P. destruct (run_ok sh ord (indep_perm ts ord P I) (fun t Ht => Sf t (Permutation_in _ (Permutation_sym P) Ht)) f) as [f' [F1 [F2 F3]]].
  exists f'. split; [exact F1|]. apply H.
  - intros t Ht. apply F2. exact (Permutation_in _ P Ht).
  - intros x Hx. apply F3. intros t Ht. apply Hx. exact (Permutation_in _ (Permutation_sym P) Ht).
Qed.

(** ** Launches *)

Lemma in_gt_box e i : In i (gt_box e) <-> forall d, 0 <= get3 i d < get3 e d.
Proof.
  unfold gt_box. rewrite in_flat_map. split.
  - intros [k [Hk H]]. apply in_flat_map in H. destruct H as [j [Hj H]]. apply in_map_iff in H. destruct H as [x [<- Hx]].
    rewrite in_zrange in *. intros []; cbn [get3 c0 c1 c2]; lia.
  - intros H. exists (c2 i). rewrite in_zrange. split; [apply (H D2)|]. apply in_flat_map. exists (c1 i). rewrite in_zrange.
    split; [apply (H D1)|]. apply in_map_iff. exists (c0 i). rewrite in_zrange. split; [destruct i; reflexivity|apply (H D0)].
Qed.

Lemma NoDup_gt_box e : NoDup (gt_box e).
Proof.
  pose proof (foreach_bnd_nodup (FGrid e (v3 0 0 0) (v3 0%R 0%R 0%R) 0%R (v3 true true true)) 0 0) as H.
  unfold foreach_bnd in H. cbn [ldims invar gen3 get3 c0 c1 c2] in H. rewrite !Z.add_0_r in H. exact H.
Qed.

Lemma in_gt_launch e ps ss p i s : In (p, i, s) (gt_launch e ps ss) <-> In p ps /\ (forall d, 0 <= get3 i d < get3 e d) /\ In s ss.
Proof.
  unfold gt_launch. rewrite in_flat_map. split.
  - intros [p' [Hp H]]. apply in_flat_map in H. destruct H as [i' [Hi H]]. apply in_map_iff in H. destruct H as [s' [E Hs]].
    injection E as -> -> ->. pose proof (proj1 (in_gt_box _ _) Hi). auto.
  - intros [Hp [Hi Hs]]. exists p. split; [exact Hp|]. apply in_flat_map. exists i. split; [apply in_gt_box; exact Hi|].
    apply in_map_iff. exists s. auto.
Qed.

Lemma NoDup_flat_map_key {A B K} (key : B -> K) (kf : A -> K) (f : A -> list B) (l : list A) :
  NoDup l -> (forall a, In a l -> NoDup (f a)) -> (forall a b, In a l -> In b (f a) -> key b = kf a) ->
  (forall a a', kf a = kf a' -> a = a') -> NoDup (flat_map f l).
Proof.
  intros N. induction N as [|a l Na Nl IH]; intros Hf Hk Hi; cbn [flat_map]; [constructor|].
  assert (D : forall x, In x (f a) -> ~ In x (flat_map f l)).
  { intros x Hx Hx'. apply in_flat_map in Hx'. destruct Hx' as [a' [Ha' Hx']].
    assert (a = a') as <-; [|contradiction]. apply Hi. rewrite <- (Hk a x (or_introl eq_refl) Hx). apply Hk; [right; exact Ha'|exact Hx']. }
  assert (N1 := Hf a (or_introl eq_refl)).
  assert (N2 : NoDup (flat_map f l)) by (apply IH; [intros; apply Hf; right; assumption|intros; eapply Hk; [right|]; eassumption|exact Hi]).
  revert N1 D. generalize (f a) as m. induction m as [|x m IHm]; intros N1 D; cbn [app]; [exact N2|].
  inversion N1; subst. constructor.
  - rewrite in_app_iff. intros [H|H]; [contradiction|]. apply (D x); [left; reflexivity|exact H].
  - apply IHm; [assumption|]. intros y Hy. apply D. right. exact Hy.
Qed.

Lemma NoDup_gt_launch e ps ss : NoDup ps -> NoDup ss -> NoDup (gt_launch e ps ss).
Proof.
  intros Np Ns. unfold gt_launch.
  apply (NoDup_flat_map_key (fun t : gtask => fst (fst t)) (fun p => p)); [exact Np| | |auto].
  - intros p _. apply (NoDup_flat_map_key (fun t : gtask => snd (fst t)) (fun i => i)); [apply NoDup_gt_box| | |auto].
    + intros i _. induction Ns as [|s ss Hs Ns IH]; cbn [map]; constructor; [|exact IH].
      intros H. apply in_map_iff in H. destruct H as [s' [E H]]. injection E as ->. contradiction.
    + intros i t _ H. apply in_map_iff in H. destruct H as [s [<- _]]. reflexivity.
  - intros p t _ H. apply in_flat_map in H. destruct H as [i [_ H]]. apply in_map_iff in H. destruct H as [s [<- _]]. reflexivity.
Qed.

Lemma at_off_inj i j o : at_off i o = at_off j o -> i = j.
Proof.
  intros H. apply v3_ext. intros d. apply (f_equal (fun v => get3 v d)) in H. unfold at_off in H. rewrite !get3_gen3 in H. lia.
Qed.

(** statements that write different components, and read of these only the element that
    they write *)
Definition sep (ss : list gstmt) : Prop :=
  NoDup (map gs_c ss) /\
  forall s s' c o, In s ss -> In s' ss -> In (c, o) (leaves (gs_rhs s')) -> c = gs_c s -> gs_c s' = gs_c s /\ o = gs_o s.

Lemma sep_same ss s s' : sep ss -> In s ss -> In s' ss -> gs_c s = gs_c s' -> s = s'.
Proof.
  intros [N _]. induction ss as [|a ss IH]; cbn [In map] in *; [tauto|].
  inversion N as [|? ? Na Ns]; subst. intros [<-|H1] [<-|H2] E.
  - reflexivity.
  - exfalso. apply Na. rewrite E. apply in_map. exact H2.
  - exfalso. apply Na. rewrite <- E. apply in_map. exact H1.
  - apply IH; assumption.
Qed.

Lemma NoDup_of_map {A B} (f : A -> B) l : NoDup (map f l) -> NoDup l.
Proof.
  induction l as [|a l IH]; cbn [map]; intros N; [constructor|]. inversion N; subst. constructor; [|auto].
  intros H. apply (in_map f) in H. contradiction.
Qed.

Lemma launch_indep e ps ss : NoDup ps -> sep ss -> indep (gt_launch e ps ss).
Proof.
  intros Np Sp. split; [apply NoDup_gt_launch; [exact Np|apply (NoDup_of_map gs_c), Sp]|].
  intros [[p i] s] [[p' i'] s'] H H' D. apply in_gt_launch in H, H'. destruct H as [_ [_ Hs]], H' as [_ [_ Hs']]. split.
  - cbn [tgt]. intros E. apply trip_inj in E. destruct E as [-> [Ec En]]. apply D. rewrite (sep_same ss s s' Sp Hs Hs' Ec) in *.
    rewrite (at_off_inj _ _ _ En). reflexivity.
  - cbn [tgt tread]. intros [c [o [Hl E]]]. apply trip_inj in E. destruct E as [-> [Ec En]].
    destruct (proj2 Sp s s' c o Hs Hs' Hl (eq_sym Ec)) as [Ec' Eo]. subst o.
    apply D. rewrite (sep_same ss s s' Sp Hs Hs' (eq_sym Ec')) in *. rewrite (at_off_inj _ _ _ En). reflexivity.
Qed.

(** what a launch leaves behind *)
Definition launched (e : V3 Z) (ps : list Z) (ss : list gstmt) (f f' : gtf) : Prop :=
  (forall p i s, In p ps -> (forall d, 0 <= get3 i d < get3 e d) -> In s ss -> gs_guard s i = true ->
     f' p (gs_c s) (at_off i (gs_o s)) = evalR f p i (gs_rhs s)) /\
  (forall p c n, (forall s i, In p ps -> (forall d, 0 <= get3 i d < get3 e d) -> In s ss -> gs_guard s i = true ->
     gs_c s = c -> at_off i (gs_o s) = n -> False) -> f' p c n = f p c n).

Lemma launch_ok sh e ps ss rest f Q : NoDup ps -> sep ss ->
  (forall i s, (forall d, 0 <= get3 i d < get3 e d) -> In s ss -> gs_guard s i = true ->
     gt_in sh (at_off i (gs_o s)) = true /\ forall c o, In (c, o) (leaves (gs_rhs s)) -> gt_in sh (at_off i o) = true) ->
  (forall f', launched e ps ss f f' -> gt_always sh rest f' Q) ->
  gt_always sh (gt_launch e ps ss :: rest) f Q.
Proof.
  intros Np Sp Sf H. apply stage_ok.
  - apply launch_indep; assumption.
  - intros [[p i] s] Ht. apply in_gt_launch in Ht. destruct Ht as [_ [Hi Hs]]. cbn [tsafe]. apply Sf; assumption.
  - intros f' F1 F2. apply H. split.
    + intros p i s Hp Hi Hs G. apply (F1 (p, i, s)); [apply in_gt_launch; auto|exact G].
    + intros p c n Hn. apply (F2 (p, c, n)). intros [[p' i] s] Ht G E. apply in_gt_launch in Ht. destruct Ht as [Hp [Hi Hs]].
      cbn [tgt] in E. apply trip_inj in E. destruct E as [-> [Ec En]]. exact (Hn s i Hp Hi Hs G Ec En).
Qed.

Lemma gt_in_iff sh n : gt_in sh n = true <-> forall d, 0 <= get3 n d < get3 sh d.
Proof.
  unfold gt_in. rewrite !andb_true_iff, !Z.leb_le, !Z.ltb_lt. split.
  - intros H []; cbn [get3]; lia.
  - intros H. pose proof (H D0). pose proof (H D1). pose proof (H D2). cbn [get3] in *. lia.
Qed.

Lemma always_mono sh stages : forall f (Q Q' : gtf -> Prop), (forall f', Q f' -> Q' f') -> gt_always sh stages f Q -> gt_always sh stages f Q'.
Proof.
  induction stages as [|ts r IH]; cbn [gt_always]; intros f Q Q' H; [apply H|].
  intros A ord P. destruct (A ord P) as [f1 [F1 F2]]. exists f1. split; [exact F1|]. eapply IH; eassumption.
Qed.

(** the updates are also runs *)
Lemma always_runs sh stages : forall f Q, gt_always sh stages f Q ->
  (exists f', gt_runs sh stages f f') /\ forall f', gt_runs sh stages f f' -> Q f'.
Proof.
  induction stages as [|ts r IH]; cbn [gt_always gt_runs]; intros f Q H.
  - split; [exists f; reflexivity|]. intros f' ->. exact H.
  - split.
    + destruct (H ts (Permutation_refl _)) as [f1 [F1 F2]]. destruct (IH f1 Q F2) as [[f' Hf'] _].
      exists f', ts, f1. split; [apply Permutation_refl|]. split; assumption.
    + intros f' [ord [f1 [P [F1 F2]]]]. destruct (H ord P) as [f1' [F1' F3]]. rewrite F1 in F1'. injection F1' as <-.
      exact (proj2 (IH f1 Q F3) f' F2).
Qed.

(** ** Checks of the statements *)

Definition sepb (ss : list gstmt) : bool :=
  (fix nd (l : list gcomp) : bool := match l with [] => true | c :: r => negb (existsb (gcomp_eqb c) r) && nd r end) (map gs_c ss) &&
  forallb (fun s => forallb (fun s' => forallb (fun co : gcomp * V3 Z =>
    if gcomp_eqb (fst co) (gs_c s) then gcomp_eqb (gs_c s') (gs_c s) && v3_eqb (snd co) (gs_o s) else true)
    (leaves (gs_rhs s'))) ss) ss.

Lemma sepb_ok ss : sepb ss = true -> sep ss.
Proof.
  unfold sepb. rewrite andb_true_iff. intros [H1 H2]. split.
  - revert H1. generalize (map gs_c ss). intros l. induction l as [|c l IH]; intros H; [constructor|].
    apply andb_true_iff in H. destruct H as [H H']. constructor; [|apply IH; exact H'].
    intros Hc. apply negb_true_iff in H. assert (E : existsb (gcomp_eqb c) l = true).
    { apply existsb_exists. exists c. split; [exact Hc|]. apply gcomp_eqb_eq. reflexivity. }
    congruence.
  - intros s s' c o Hs Hs' Hl E. rewrite forallb_forall in H2. specialize (H2 s Hs). rewrite forallb_forall in H2.
    specialize (H2 s' Hs'). rewrite forallb_forall in H2. specialize (H2 (c, o) Hl). cbn [fst snd] in H2.
    rewrite (proj2 (gcomp_eqb_eq c (gs_c s)) E) in H2. apply andb_true_iff in H2. destruct H2 as [A B].
    apply gcomp_eqb_eq in A. apply v3_eqb_eq in B. auto.
Qed.

(** all displacements lie between two bounds *)
Definition betweenb (lo hi : V3 Z) (ss : list gstmt) : bool :=
  forallb (fun s => forallb (fun o => forallb (fun d => (get3 lo d <=? get3 o d) && (get3 o d <=? get3 hi d)) dims3)
    (gs_o s :: map snd (leaves (gs_rhs s)))) ss.

Lemma betweenb_ok lo hi ss s : betweenb lo hi ss = true -> In s ss ->
  (forall d, get3 lo d <= get3 (gs_o s) d <= get3 hi d) /\
  forall c o, In (c, o) (leaves (gs_rhs s)) -> forall d, get3 lo d <= get3 o d <= get3 hi d.
Proof.
  unfold betweenb. intros H Hs. rewrite forallb_forall in H. specialize (H s Hs). rewrite forallb_forall in H.
  assert (A : forall o, In o (gs_o s :: map snd (leaves (gs_rhs s))) -> forall d, get3 lo d <= get3 o d <= get3 hi d).
  { intros o Ho d. specialize (H o Ho). rewrite forallb_forall in H.
    assert (Hd : In d dims3) by (destruct d; cbn; auto). specialize (H d Hd). apply andb_true_iff in H.
    rewrite !Z.leb_le in H. lia. }
  split; [apply A; left; reflexivity|]. intros c o Hl. apply A. right. apply (in_map snd) in Hl. exact Hl.
Qed.

Lemma between_safe sh lo hi ss i s : betweenb lo hi ss = true -> In s ss ->
  (forall d, 0 <= get3 i d + get3 lo d /\ get3 i d + get3 hi d < get3 sh d) ->
  gt_in sh (at_off i (gs_o s)) = true /\ forall c o, In (c, o) (leaves (gs_rhs s)) -> gt_in sh (at_off i o) = true.
Proof.
  intros B Hs Hi. destruct (betweenb_ok lo hi ss s B Hs) as [H1 H2]. split.
  - apply gt_in_iff. intros d. unfold at_off. rewrite get3_gen3. specialize (H1 d). specialize (Hi d). lia.
  - intros c o Hl. apply gt_in_iff. intros d. unfold at_off. rewrite get3_gen3. specialize (H2 c o Hl d). specialize (Hi d). lia.
Qed.

(** ** Indices *)

Definition raw (g : fgrid) (i : V3 Z) : V3 Z := gen3 (fun e => get3 i e + get3 (ibn g) e).

Lemma raw_inj g i j : raw g i = raw g j -> i = j.
Proof. intros H. apply v3_ext. intros d. apply (f_equal (fun v => get3 v d)) in H. unfold raw in H. rewrite !get3_gen3 in H. lia. Qed.

Lemma at_0 n : at_off n (v3 0 0 0) = n.
Proof. apply v3_ext. intros d. unfold at_off. rewrite get3_gen3. destruct d; cbn [get3 c0 c1 c2]; lia. Qed.

Lemma at_o1 g i e s : at_off (raw g i) (o1 e s) = raw g (shift i e s).
Proof.
  apply v3_ext. intros d. unfold at_off, raw, o1, shift. rewrite !get3_gen3.
  destruct d, e; cbn [set3 get3 c0 c1 c2]; lia.
Qed.

(** the element of a view that is the point i *)
Definition vidx (sy sz : gslice) (g : fgrid) (i : V3 Z) : V3 Z := gen3 (fun d => get3 (raw g i) d - get3 (view_start sy sz) d).

Lemma at_vidx sy sz g i : at_off (vidx sy sz g i) (view_start sy sz) = raw g i.
Proof. apply v3_ext. intros d. unfold at_off, vidx. rewrite !get3_gen3. lia. Qed.

Lemma at_vidx1 sy sz sy' sz' g i : at_off (vidx sy sz g i) (view_start sy' sz') =
  raw g (shift (shift i D1 (sl_start sy' - sl_start sy)) D2 (sl_start sz' - sl_start sz)).
Proof.
  apply v3_ext. intros d. unfold at_off, vidx, raw, shift. rewrite !get3_gen3.
  destruct d; unfold view_start; cbn [set3 get3 c0 c1 c2]; lia.
Qed.

Lemma shift_0 i d : shift i d 0 = i.
Proof. apply v3_ext. intros e. unfold shift. destruct d, e; cbn [set3 get3 c0 c1 c2]; lia. Qed.

Lemma vw_raw g f p q d i : fnorm (invar g) i = i -> vw g (patch_of g f p) q d i = f p (Comp q d) (raw g i).
Proof. intros H. unfold vw. rewrite H. reflexivity. Qed.

Lemma fnorm_shift inv i e s : fnorm inv i = i -> get3 inv e = false -> fnorm inv (shift i e s) = shift i e s.
Proof.
  intros H E. apply v3_ext. intros d. unfold fnorm. rewrite get3_gen3.
  apply (f_equal (fun v => get3 v d)) in H. unfold fnorm in H. rewrite get3_gen3 in H.
  unfold shift. destruct (get3 inv d) eqn:Ed; [|reflexivity].
  rewrite get3_set3_other by congruence. exact H.
Qed.

Lemma vw_shift g f p q d i e s : fnorm (invar g) i = i -> get3 (invar g) e = false ->
  vw g (patch_of g f p) q d (shift i e s) = f p (Comp q d) (raw g (shift i e s)).
Proof. intros H E. apply vw_raw. apply fnorm_shift; assumption. Qed.

(** ** Three dimensions *)

Lemma stored_raw g i : stored g i -> forall d, 0 <= get3 (raw g i) d < get3 (gt_shape g) d.
Proof. intros H d. specialize (H d). unfold raw, gt_shape. rewrite !get3_gen3. lia. Qed.

Lemma fnorm_xyz g i : invar g = v3 false false false -> fnorm (invar g) i = i.
Proof. intros ->. apply v3_ext. intros d. unfold fnorm. rewrite get3_gen3. destruct d; reflexivity. Qed.

Lemma kE_sep g c : sepb (k_push_E g c) = true.
Proof. reflexivity. Qed.
Lemma kH_sep g c : sepb (k_push_H g c) = true.
Proof. reflexivity. Qed.
Lemma kE_between g c : betweenb (v3 (-1) (-1) (-1)) (v3 0 0 0) (k_push_E g c) = true.
Proof. reflexivity. Qed.
Lemma kH_between g c : betweenb (v3 0 0 0) (v3 1 1 1) (k_push_H g c) = true.
Proof. reflexivity. Qed.

Definition kE (g : fgrid) (c : R) (d : dim3) : gstmt := nth (match d with D0 => 0 | D1 => 1 | D2 => 2 end) (k_push_E g c) (kassign (fun _ => true) QE D0 (GConst 0)).
Definition kH (g : fgrid) (c : R) (d : dim3) : gstmt := nth (match d with D0 => 0 | D1 => 1 | D2 => 2 end) (k_push_H g c) (kassign (fun _ => true) QE D0 (GConst 0)).

Lemma in_kE g c s : In s (k_push_E g c) <-> exists d, s = kE g c d.
Proof.
  split.
  - intros [<-|[<-|[<-|[]]]]; [exists D0|exists D1|exists D2]; reflexivity.
  - intros [[] ->]; cbn; auto.
Qed.
Lemma in_kH g c s : In s (k_push_H g c) <-> exists d, s = kH g c d.
Proof.
  split.
  - intros [<-|[<-|[<-|[]]]]; [exists D0|exists D1|exists D2]; reflexivity.
  - intros [[] ->]; cbn; auto.
Qed.

Lemma kE_value g c f p d i : invar g = v3 false false false ->
  evalR f p (raw g i) (gs_rhs (kE g c d)) = (patch_of g f p QE d i + deltaE g c (patch_of g f p) d i)%R.
Proof.
  intros V. unfold deltaE, curl_minus, dminus.
  rewrite !vw_shift, !vw_raw by (rewrite ?(fnorm_xyz g _ V), ?V; try reflexivity; destruct d; reflexivity).
  rewrite V. destruct d; cbn [kE k_push_E nth gs_rhs kassign evalR GF nxt get3 c0 c1 c2];
    rewrite !at_0, !at_o1; unfold gcn, dth; cbn [get3]; unfold patch_of; fold (raw g i); unfold Rdiv; ring.
Qed.

Lemma kH_value g c f p d i : invar g = v3 false false false ->
  evalR f p (raw g i) (gs_rhs (kH g c d)) = (patch_of g f p QH d i + deltaH g c (patch_of g f p) d i)%R.
Proof.
  intros V. unfold deltaH, curl_plus, dplus.
  rewrite !vw_shift, !vw_raw by (rewrite ?(fnorm_xyz g _ V), ?V; try reflexivity; destruct d; reflexivity).
  rewrite V. destruct d; cbn [kH k_push_H nth gs_rhs kassign evalR GF nxt get3 c0 c1 c2];
    rewrite !at_0, !at_o1; unfold gcn, dth; cbn [get3]; unfold patch_of; fold (raw g i); unfold Rdiv; ring.
Qed.

Lemma updated_none g upd f : updated g 0 upd f f.
Proof. intros p Hp. lia. Qed.

Lemma within_dec g l r i : within g l r i \/ ~ within g l r i.
Proof.
  assert (H : forall d, {if get3 (invar g) d then get3 i d = 0 else - l <= get3 i d < get3 (ldims g) d + r} +
                        {~ (if get3 (invar g) d then get3 i d = 0 else - l <= get3 i d < get3 (ldims g) d + r)}).
  { intros d. destruct (get3 (invar g) d); [apply Z.eq_dec|].
    destruct (Z_le_dec (- l) (get3 i d)), (Z_lt_dec (get3 i d) (get3 (ldims g) d + r)); [left; lia| | |]; right; lia. }
  destruct (H D0) as [A|A]; [|right; intros W; apply A, (W D0)].
  destruct (H D1) as [B|B]; [|right; intros W; apply B, (W D1)].
  destruct (H D2) as [C|C]; [|right; intros W; apply C, (W D2)].
  left. intros []; assumption.
Qed.

Lemma E_xyz_updated g np c f f' : grid_xyz g -> launched (gt_shape g) (zrange 0 np) (k_push_E g c) f f' ->
  updated g np (fun _ => push_E g c) f f'.
Proof.
  intros [W [V B]] [L1 L2] p Hp. split.
  - intros q d i Hi. destruct (qty_eqb QE q) eqn:Eq.
    + apply qty_eqb_eq in Eq. subst q. destruct (within_dec g 1 2 i) as [Hw|Hw].
      * rewrite push_E_in by assumption. rewrite <- (kE_value g c f p d i V).
        unfold patch_of. fold (raw g i). rewrite <- (at_0 (raw g i)) at 1.
        assert (Hg : gs_guard (kE g c d) (raw g i) = true).
        { assert (Hx : forall e, 1 <= get3 (raw g i) e).
          { intros e. specialize (Hw e). unfold raw. rewrite get3_gen3, B. rewrite V in Hw. destruct e; cbn [get3 c0 c1 c2] in *; lia. }
          pose proof (Hx D0). pose proof (Hx D1). pose proof (Hx D2). cbn [get3] in *.
          destruct d; cbn [kE k_push_E nth kassign gs_guard]; rewrite !andb_true_iff, !Z.leb_le; auto. }
        pose proof (L1 p (raw g i) (kE g c d) (proj2 (in_zrange _ _ _) Hp) (stored_raw g i Hi) (proj2 (in_kE g c _) (ex_intro _ d eq_refl)) Hg) as H.
        destruct d; exact H.
      * rewrite push_E_other by auto. unfold patch_of. fold (raw g i). apply L2. intros s j _ Hj Hs G Ec En.
        apply Hw. apply in_kE in Hs. destruct Hs as [e ->].
        assert (En' : at_off j (v3 0 0 0) = raw g i) by (destruct e; exact En). rewrite at_0 in En'. subst j.
        assert (G' : (1 <=? c0 (raw g i)) && (1 <=? c1 (raw g i)) && (1 <=? c2 (raw g i)) = true) by (destruct e; exact G).
        rewrite !andb_true_iff, !Z.leb_le in G'. intros x. rewrite V. specialize (Hj x). unfold raw, gt_shape in *.
        rewrite B in *. destruct x; cbn [gen3 get3 c0 c1 c2] in *; lia.
    + rewrite push_E_other; [|exact W|left; intros ->; discriminate].
      unfold patch_of. fold (raw g i). apply L2. intros s j _ Hj Hs G Ec En. apply in_kE in Hs. destruct Hs as [e ->].
      destruct e; cbn [kE k_push_E nth kassign gs_c] in Ec; injection Ec as <- <-; discriminate.
  - intros i. unfold res_of. apply L2. intros s j _ Hj Hs G Ec En. apply in_kE in Hs. destruct Hs as [e ->].
    destruct e; discriminate.
Qed.

Lemma H_xyz_updated g np c f f' : grid_xyz g -> launched (gen3 (fun d => get3 (gt_shape g) d - 1)) (zrange 0 np) (k_push_H g c) f f' ->
  updated g np (fun _ => push_H g c) f f'.
Proof.
  intros [W [V B]] [L1 L2] p Hp. split.
  - intros q d i Hi. destruct (qty_eqb QH q) eqn:Eq.
    + apply qty_eqb_eq in Eq. subst q. destruct (within_dec g 2 1 i) as [Hw|Hw].
      * rewrite push_H_in by assumption. rewrite <- (kH_value g c f p d i V).
        unfold patch_of. fold (raw g i). rewrite <- (at_0 (raw g i)) at 1.
        assert (Hg : gs_guard (kH g c d) (raw g i) = true) by (destruct d; reflexivity).
        assert (Hx : forall e, 0 <= get3 (raw g i) e < get3 (gen3 (fun d => get3 (gt_shape g) d - 1)) e).
        { intros e. specialize (Hw e). unfold raw, gt_shape. rewrite !get3_gen3, B. rewrite V in Hw. destruct e; cbn [get3 c0 c1 c2] in *; lia. }
        pose proof (L1 p (raw g i) (kH g c d) (proj2 (in_zrange _ _ _) Hp) Hx (proj2 (in_kH g c _) (ex_intro _ d eq_refl)) Hg) as H.
        destruct d; exact H.
      * rewrite push_H_other by auto. unfold patch_of. fold (raw g i). apply L2. intros s j _ Hj Hs G Ec En.
        apply Hw. apply in_kH in Hs. destruct Hs as [e ->].
        assert (En' : at_off j (v3 0 0 0) = raw g i) by (destruct e; exact En). rewrite at_0 in En'. subst j.
        intros x. rewrite V. specialize (Hj x). unfold raw, gt_shape in *.
        rewrite B in *. destruct x; cbn [gen3 get3 c0 c1 c2] in *; lia.
    + rewrite push_H_other; [|exact W|left; intros ->; discriminate].
      unfold patch_of. fold (raw g i). apply L2. intros s j _ Hj Hs G Ec En. apply in_kH in Hs. destruct Hs as [e ->].
      destruct e; cbn [kH k_push_H nth kassign gs_c] in Ec; injection Ec as <- <-; discriminate.
  - intros i. unfold res_of. apply L2. intros s j _ Hj Hs G Ec En. apply in_kH in Hs. destruct Hs as [e ->].
    destruct e; discriminate.
Qed.

Lemma NoDup_zr a b : NoDup (zrange a b).
Proof. apply NoDup_zrange. Qed.

Lemma push_E_xyz_ok g np c f : grid_xyz g -> 0 <= np -> exists st, gpu_push_E_xyz g np c = Some st /\
  gt_always (gt_shape g) st f (updated g np (fun _ => push_E g c) f).
Proof.
  intros G Hn. unfold gpu_push_E_xyz. destruct (np =? 0) eqn:E.
  - apply Z.eqb_eq in E. subst np. eexists. split; [reflexivity|]. apply updated_none.
  - pose proof G as [W [V B]]. rewrite B, v3_eqb_refl. cbn [negb]. eexists. split; [reflexivity|].
    apply launch_ok; [apply NoDup_zr|apply sepb_ok, kE_sep| |].
    + intros i s Hi Hs Gd. apply (between_safe _ _ _ _ _ _ (kE_between g c) Hs). apply in_kE in Hs. destruct Hs as [e ->].
      assert (G' : (1 <=? c0 i) && (1 <=? c1 i) && (1 <=? c2 i) = true) by (destruct e; exact Gd).
      rewrite !andb_true_iff, !Z.leb_le in G'. intros x. specialize (Hi x). destruct x; cbn [get3 c0 c1 c2] in *; lia.
    + intros f' L. cbn [gt_always]. exact (E_xyz_updated g np c f f' G L).
Qed.

Lemma push_H_xyz_ok g np c f : grid_xyz g -> 0 <= np -> exists st, gpu_push_H_xyz g np c = Some st /\
  gt_always (gt_shape g) st f (updated g np (fun _ => push_H g c) f).
Proof.
  intros G Hn. unfold gpu_push_H_xyz. destruct (np =? 0) eqn:E.
  - apply Z.eqb_eq in E. subst np. eexists. split; [reflexivity|]. apply updated_none.
  - eexists. split; [reflexivity|].
    apply launch_ok; [apply NoDup_zr|apply sepb_ok, kH_sep| |].
    + intros i s Hi Hs Gd. apply (between_safe _ _ _ _ _ _ (kH_between g c) Hs).
      intros x. specialize (Hi x). rewrite get3_gen3 in Hi. destruct x; cbn [get3 c0 c1 c2] in *; lia.
    + intros f' L. cbn [gt_always]. exact (H_xyz_updated g np c f f' G L).
Qed.

(** ** Two dimensions: one launch for each component *)

Lemma launched_seq e ps s ss f f1 f' : sep (s :: ss) -> launched e ps [s] f f1 -> launched e ps ss f1 f' -> launched e ps (s :: ss) f f'.
Proof.
  intros Sp [A1 A2] [B1 B2].
  assert (Nc : forall s', In s' ss -> gs_c s' <> gs_c s).
  { intros s' Hs' E. destruct Sp as [N _]. cbn [map] in N. inversion N as [|? ? N1 N2]; subst. apply N1. rewrite <- E. apply in_map. exact Hs'. }
  assert (K : forall p c n, c <> gs_c s -> f1 p c n = f p c n).
  { intros p c n Hc. apply A2. intros s' i _ _ [<-|[]] _ E _. congruence. }
  split.
  - intros p i s' Hp Hi [<-|Hs'] G.
    + rewrite B2; [apply A1; cbn [In]; auto|]. intros s' j _ _ Hs' _ E _. exact (Nc s' Hs' E).
    + rewrite B1 by assumption. apply evalR_ext. intros c o Hl. apply K. intros E.
      apply (Nc s' Hs'). apply (proj2 Sp s s' c o); cbn [In]; auto.
  - intros p c n H. rewrite B2.
    + apply A2. intros s' i Hp Hi [<-|[]] G Ec En. apply (H s i); cbn [In]; auto.
    + intros s' i Hp Hi Hs' G Ec En. apply (H s' i); cbn [In]; auto.
Qed.

Definition sts (o : option (list (list gtask))) : list (list gtask) := match o with Some l => l | None => [] end.

(** assignments to views of the same shape *)
Lemma assigns_ok sh w np ss : forall (f0 f : gtf) (Q : gtf -> gtf -> Prop),
  (forall s, In s ss -> gs_sh s = Some w /\ shapes_ok w (gs_rhs s) = true /\ (forall i, gs_guard s i = true)) ->
  sep ss ->
  (forall i s, (forall d, 0 <= get3 i d < get3 w d) -> In s ss ->
     gt_in sh (at_off i (gs_o s)) = true /\ forall c o, In (c, o) (leaves (gs_rhs s)) -> gt_in sh (at_off i o) = true) ->
  (forall f', launched w (zrange 0 np) ss f f' -> Q f0 f') ->
  exists st, gt_assigns np ss = Some st /\ gt_always sh st f (Q f0).
Proof.
  induction ss as [|s ss IH]; intros f0 f Q Hss Sp Sf H.
  - exists []. split; [reflexivity|]. cbn [gt_always]. apply H. split; [intros p i s _ _ []|]. reflexivity.
  - destruct (Hss s (or_introl eq_refl)) as [E1 [E2 E3]].
    assert (Sp' : sep ss).
    { destruct Sp as [N R]. split; [cbn [map] in N; inversion N; assumption|]. intros a b c o Ha Hb. apply R; right; assumption. }
    assert (Sp1 : sep [s]).
    { destruct Sp as [N R]. split; [cbn [map]; constructor; [intros []|constructor]|].
      intros a b c o [<-|[]] [<-|[]] Hl E. split; [reflexivity|]. apply (R s s c o); cbn [In]; auto. }
    assert (X : exists st, gt_assigns np ss = Some st).
    { destruct (IH f0 f (fun _ _ => True)) as [st [Es _]]; auto.
      - intros a Ha. apply Hss. right. exact Ha.
      - intros i a Hi Ha. apply Sf; [exact Hi|right; exact Ha].
      - exists st. exact Es. }
    destruct X as [st Est]. cbn [gt_assigns]. unfold gt_assign. rewrite E1, E2, Est. eexists. split; [reflexivity|].
    apply launch_ok; [apply NoDup_zr|exact Sp1| |].
    + intros i a Hi [<-|[]] _. apply Sf; [exact Hi|left; reflexivity].
    + intros f1 L1. destruct (IH f0 f1 Q) as [st' [Est' A]].
      * intros a Ha. apply Hss. right. exact Ha.
      * exact Sp'.
      * intros i a Hi Ha. apply Sf; [exact Hi|right; exact Ha].
      * intros f' L2. apply H. eapply launched_seq; eassumption.
      * rewrite Est in Est'. injection Est' as <-. exact A.
Qed.

Definition yz_shape (g : fgrid) : V3 Z := v3 1 (c1 (gt_shape g) - 1) (c2 (gt_shape g) - 1).

Lemma view_S1S1 g : view_shape (gt_shape g) S1 S1 = yz_shape g.
Proof. reflexivity. Qed.
Lemma view_S1Sm g : view_shape (gt_shape g) S1 Sm = yz_shape g.
Proof. unfold view_shape, yz_shape. cbn [sl_len S1 Sm]. f_equal; lia. Qed.
Lemma view_SmS1 g : view_shape (gt_shape g) Sm S1 = yz_shape g.
Proof. unfold view_shape, yz_shape. cbn [sl_len S1 Sm]. f_equal; lia. Qed.
Lemma view_SmSm g : view_shape (gt_shape g) Sm Sm = yz_shape g.
Proof. unfold view_shape, yz_shape. cbn [sl_len S1 Sm]. f_equal; lia. Qed.

(** the statements of the two updates *)
Definition vE (g : fgrid) (c : R) (d : dim3) : gstmt :=
  let dtf := GConst (c * dt g)%R in let cny := GConst (gcn g c D1) in let cnz := GConst (gcn g c D2) in
  let zero := GConst 0%R in let V := GView (gt_shape g) in
  match d with
  | D0 => vassign (gt_shape g) S1 S1 QE D0
       (GAdd (V S1 S1 QE D0)
          (GSub (GSub (GSub (GMul cny (GSub (V S1 S1 QH D2) (V Sm S1 QH D2)))
                            (GMul cnz (GSub (V S1 S1 QH D1) (V S1 Sm QH D1)))) zero)
                (GMul dtf (V S1 S1 QJ D0))))
  | D1 => vassign (gt_shape g) S1 S1 QE D1
       (GAdd (V S1 S1 QE D1)
          (GSub (GSub (GMul cnz (GSub (V S1 S1 QH D0) (V S1 Sm QH D0))) zero)
                (GMul dtf (V S1 S1 QJ D1))))
  | D2 => vassign (gt_shape g) S1 S1 QE D2
       (GAdd (V S1 S1 QE D2)
          (GSub (GSub zero (GMul cny (GSub (V S1 S1 QH D0) (V Sm S1 QH D0))))
                (GMul dtf (V S1 S1 QJ D2))))
  end.
Definition vH (g : fgrid) (c : R) (d : dim3) : gstmt :=
  let cny := GConst (gcn g c D1) in let cnz := GConst (gcn g c D2) in
  let zero := GConst 0%R in let V := GView (gt_shape g) in
  match d with
  | D0 => vassign (gt_shape g) Sm Sm QH D0
       (GSub (V Sm Sm QH D0)
          (GSub (GMul cny (GSub (V S1 Sm QE D2) (V Sm Sm QE D2)))
                (GMul cnz (GSub (V Sm S1 QE D1) (V Sm Sm QE D1)))))
  | D1 => vassign (gt_shape g) Sm Sm QH D1
       (GSub (V Sm Sm QH D1) (GMul cnz (GSub (V Sm S1 QE D0) (V Sm Sm QE D0))))
  | D2 => vassign (gt_shape g) Sm Sm QH D2
       (GSub (V Sm Sm QH D2) (GSub zero (GMul cny (GSub (V S1 Sm QE D0) (V Sm Sm QE D0)))))
  end.

Lemma in3 {A} (f : dim3 -> A) s : In s (map f dims3) <-> exists d, s = f d.
Proof.
  split.
  - intros H. apply in_map_iff in H. destruct H as [d [<- _]]. exists d. reflexivity.
  - intros [d ->]. apply in_map. destruct d; cbn; auto.
Qed.

Lemma vE_sep g c : sepb (map (vE g c) dims3) = true.
Proof. reflexivity. Qed.
Lemma vH_sep g c : sepb (map (vH g c) dims3) = true.
Proof. reflexivity. Qed.
Lemma vE_between g c : betweenb (v3 0 0 0) (v3 0 1 1) (map (vE g c) dims3) = true.
Proof. reflexivity. Qed.
Lemma vH_between g c : betweenb (v3 0 0 0) (v3 0 1 1) (map (vH g c) dims3) = true.
Proof. reflexivity. Qed.

Lemma vE_shape g c d : gs_sh (vE g c d) = Some (yz_shape g) /\ shapes_ok (yz_shape g) (gs_rhs (vE g c d)) = true /\ (forall i, gs_guard (vE g c d) i = true).
Proof.
  split; [destruct d; reflexivity|]. split; [|intros i; destruct d; reflexivity].
  destruct d; cbn [vE vassign gs_rhs shapes_ok GView]; rewrite ?view_S1S1, ?view_S1Sm, ?view_SmS1, ?view_SmSm, ?v3_eqb_refl; reflexivity.
Qed.
Lemma vH_shape g c d : gs_sh (vH g c d) = Some (yz_shape g) /\ shapes_ok (yz_shape g) (gs_rhs (vH g c d)) = true /\ (forall i, gs_guard (vH g c d) i = true).
Proof.
  split; [destruct d; cbn [vH vassign gs_sh]; rewrite view_SmSm; reflexivity|]. split; [|intros i; destruct d; reflexivity].
  destruct d; cbn [vH vassign gs_rhs shapes_ok GView]; rewrite ?view_S1S1, ?view_S1Sm, ?view_SmS1, ?view_SmSm, ?v3_eqb_refl; reflexivity.
Qed.

Lemma fnorm_yz g i : invar g = v3 true false false -> get3 i D0 = 0 -> fnorm (invar g) i = i.
Proof. intros -> H. apply v3_ext. intros d. unfold fnorm. rewrite get3_gen3. destruct d; [symmetry; exact H|reflexivity|reflexivity]. Qed.

Lemma vE_value g c f p d i : invar g = v3 true false false -> get3 i D0 = 0 ->
  evalR f p (vidx S1 S1 g i) (gs_rhs (vE g c d)) = (patch_of g f p QE d i + deltaE g c (patch_of g f p) d i)%R.
Proof.
  intros V H0. pose proof (fnorm_yz g i V H0) as Fn. unfold deltaE, curl_minus, dminus.
  destruct d; cbn [vE vassign gs_rhs evalR GView nxt]; rewrite !at_vidx1; cbn [S1 Sm sl_start Z.sub Z.add Z.opp Z.pos_sub];
    rewrite ?shift_0; rewrite V; cbn [get3 c0 c1 c2];
    rewrite ?(vw_shift g f p _ _ i D1), ?(vw_shift g f p _ _ i D2), ?(vw_raw g f p _ _ i Fn) by (rewrite ?Fn, ?V; reflexivity);
    unfold gcn, dth; cbn [get3]; unfold patch_of; fold (raw g i); unfold Rdiv; ring.
Qed.

Lemma vH_value g c f p d i : invar g = v3 true false false -> get3 i D0 = 0 ->
  evalR f p (vidx Sm Sm g i) (gs_rhs (vH g c d)) = (patch_of g f p QH d i + deltaH g c (patch_of g f p) d i)%R.
Proof.
  intros V H0. pose proof (fnorm_yz g i V H0) as Fn. unfold deltaH, curl_plus, dplus.
  destruct d; cbn [vH vassign gs_rhs evalR GView nxt]; rewrite !at_vidx1; cbn [S1 Sm sl_start Z.sub Z.add Z.opp Z.pos_sub];
    rewrite ?shift_0; rewrite V; cbn [get3 c0 c1 c2];
    rewrite ?(vw_shift g f p _ _ i D1), ?(vw_shift g f p _ _ i D2), ?(vw_raw g f p _ _ i Fn) by (rewrite ?Fn, ?V; reflexivity);
    unfold gcn, dth; cbn [get3]; unfold patch_of; fold (raw g i); unfold Rdiv; ring.
Qed.

Lemma yz_box g i l r : grid_yz g -> l + r = 3 -> 0 <= l <= 2 -> stored g i ->
  (within g l r i <-> forall d, 0 <= get3 (raw g i) d - get3 (v3 0 (2 - l) (2 - l)) d < get3 (yz_shape g) d).
Proof.
  intros [W [V B]] Hlr Hl Hi. pose proof (W D0) as W0. rewrite V in W0. cbn [get3 c0] in W0. unfold within, yz_shape, raw, gt_shape.
  rewrite V, B. split.
  - intros H d. specialize (H d). specialize (Hi d). rewrite B in Hi. destruct d; cbn [gen3 get3 c0 c1 c2] in *; lia.
  - intros H d. specialize (H d). specialize (Hi d). rewrite B in Hi. destruct d; cbn [gen3 get3 c0 c1 c2] in *; lia.
Qed.

Lemma E_yz_updated g np c f f' : grid_yz g -> launched (yz_shape g) (zrange 0 np) (map (vE g c) dims3) f f' ->
  updated g np (fun _ => push_E g c) f f'.
Proof.
  intros G [L1 L2] p Hp. pose proof G as [W [V B]]. split.
  - intros q d i Hi. pose proof (yz_box g i 1 2 G eq_refl ltac:(lia) Hi) as Bx. destruct (qty_eqb QE q) eqn:Eq.
    + apply qty_eqb_eq in Eq. subst q. destruct (within_dec g 1 2 i) as [Hw|Hw].
      * rewrite push_E_in by assumption.
        assert (H0 : get3 i D0 = 0) by (specialize (Hw D0); rewrite V in Hw; exact Hw).
        rewrite <- (vE_value g c f p d i V H0).
        unfold patch_of. fold (raw g i). rewrite <- (at_vidx S1 S1 g i).
        assert (Hx : forall e, 0 <= get3 (vidx S1 S1 g i) e < get3 (yz_shape g) e).
        { intros e. unfold vidx. rewrite get3_gen3. exact (proj1 Bx Hw e). }
        pose proof (L1 p (vidx S1 S1 g i) (vE g c d) (proj2 (in_zrange _ _ _) Hp) Hx (proj2 (in3 _ _) (ex_intro _ d eq_refl)) (proj2 (proj2 (vE_shape g c d)) _)) as H.
        destruct d; exact H.
      * rewrite push_E_other by auto. unfold patch_of. fold (raw g i). apply L2. intros s j _ Hj Hs Gd Ec En.
        apply Hw, Bx. apply in3 in Hs. destruct Hs as [e ->].
        assert (En' : at_off j (view_start S1 S1) = raw g i) by (destruct e; exact En). rewrite <- En'.
        intros x. specialize (Hj x). unfold at_off. rewrite get3_gen3. destruct x; cbn [get3 c0 c1 c2 view_start sl_start S1] in *; lia.
    + rewrite push_E_other; [|exact W|left; intros ->; discriminate].
      unfold patch_of. fold (raw g i). apply L2. intros s j _ Hj Hs Gd Ec En. apply in3 in Hs. destruct Hs as [e ->].
      destruct e; cbn [vE vassign gs_c] in Ec; injection Ec as <- <-; discriminate.
  - intros i. unfold res_of. apply L2. intros s j _ Hj Hs Gd Ec En. apply in3 in Hs. destruct Hs as [e ->].
    destruct e; discriminate.
Qed.

Lemma H_yz_updated g np c f f' : grid_yz g -> launched (yz_shape g) (zrange 0 np) (map (vH g c) dims3) f f' ->
  updated g np (fun _ => push_H g c) f f'.
Proof.
  intros G [L1 L2] p Hp. pose proof G as [W [V B]]. split.
  - intros q d i Hi. pose proof (yz_box g i 2 1 G eq_refl ltac:(lia) Hi) as Bx. destruct (qty_eqb QH q) eqn:Eq.
    + apply qty_eqb_eq in Eq. subst q. destruct (within_dec g 2 1 i) as [Hw|Hw].
      * rewrite push_H_in by assumption.
        assert (H0 : get3 i D0 = 0) by (specialize (Hw D0); rewrite V in Hw; exact Hw).
        rewrite <- (vH_value g c f p d i V H0).
        unfold patch_of. fold (raw g i). rewrite <- (at_vidx Sm Sm g i).
        assert (Hx : forall e, 0 <= get3 (vidx Sm Sm g i) e < get3 (yz_shape g) e).
        { intros e. unfold vidx. rewrite get3_gen3. exact (proj1 Bx Hw e). }
        pose proof (L1 p (vidx Sm Sm g i) (vH g c d) (proj2 (in_zrange _ _ _) Hp) Hx (proj2 (in3 _ _) (ex_intro _ d eq_refl)) (proj2 (proj2 (vH_shape g c d)) _)) as H.
        destruct d; exact H.
      * rewrite push_H_other by auto. unfold patch_of. fold (raw g i). apply L2. intros s j _ Hj Hs Gd Ec En.
        apply Hw, Bx. apply in3 in Hs. destruct Hs as [e ->].
        assert (En' : at_off j (view_start Sm Sm) = raw g i) by (destruct e; exact En). rewrite <- En'.
        intros x. specialize (Hj x). unfold at_off. rewrite get3_gen3. destruct x; cbn [get3 c0 c1 c2 view_start sl_start Sm] in *; lia.
    + rewrite push_H_other; [|exact W|left; intros ->; discriminate].
      unfold patch_of. fold (raw g i). apply L2. intros s j _ Hj Hs Gd Ec En. apply in3 in Hs. destruct Hs as [e ->].
      destruct e; cbn [vH vassign gs_c] in Ec; injection Ec as <- <-; discriminate.
  - intros i. unfold res_of. apply L2. intros s j _ Hj Hs Gd Ec En. apply in3 in Hs. destruct Hs as [e ->].
    destruct e; discriminate.
Qed.

Lemma yz_safe g i : grid_yz g -> (forall d, 0 <= get3 i d < get3 (yz_shape g) d) ->
  forall d, 0 <= get3 i d + get3 (v3 0 0 0) d /\ get3 i d + get3 (v3 0 1 1) d < get3 (gt_shape g) d.
Proof.
  intros [W [V B]] H d. pose proof (W D0) as W0. rewrite V in W0. cbn [get3 c0] in W0. specialize (H d).
  unfold yz_shape, gt_shape in *. rewrite B in *. destruct d; cbn [gen3 get3 c0 c1 c2] in *; lia.
Qed.

Lemma push_E_yz_ok g np c f : grid_yz g -> 0 <= np -> exists st, gpu_push_E_yz g np c = Some st /\
  gt_always (gt_shape g) st f (updated g np (fun _ => push_E g c) f).
Proof.
  intros G Hn. unfold gpu_push_E_yz. destruct (np =? 0) eqn:E.
  - apply Z.eqb_eq in E. subst np. eexists. split; [reflexivity|]. apply updated_none.
  - pose proof G as [W [V B]]. rewrite B, v3_eqb_refl. cbn [negb].
    apply (assigns_ok (gt_shape g) (yz_shape g) np (map (vE g c) dims3) f f (updated g np (fun _ => push_E g c))).
    + intros s Hs. apply in3 in Hs. destruct Hs as [d ->]. apply vE_shape.
    + apply sepb_ok, vE_sep.
    + intros i s Hi Hs. apply (between_safe _ _ _ _ _ _ (vE_between g c) Hs). apply yz_safe; assumption.
    + intros f' L. apply E_yz_updated; assumption.
Qed.

Lemma push_H_yz_ok g np c f : grid_yz g -> 0 <= np -> exists st, gpu_push_H_yz g np c = Some st /\
  gt_always (gt_shape g) st f (updated g np (fun _ => push_H g c) f).
Proof.
  intros G Hn. unfold gpu_push_H_yz. destruct (np =? 0) eqn:E.
  - apply Z.eqb_eq in E. subst np. eexists. split; [reflexivity|]. apply updated_none.
  - apply (assigns_ok (gt_shape g) (yz_shape g) np (map (vH g c) dims3) f f (updated g np (fun _ => push_H g c))).
    + intros s Hs. apply in3 in Hs. destruct Hs as [d ->]. apply vH_shape.
    + apply sepb_ok, vH_sep.
    + intros i s Hi Hs. apply (between_safe _ _ _ _ _ _ (vH_between g c) Hs). apply yz_safe; assumption.
    + intros f' L. apply H_yz_updated; assumption.
Qed.

(** ** The Marder correction: one launch for each patch *)

Lemma launched_patch e p ps ss f f1 f' : ~ In p ps -> launched e [p] ss f f1 -> launched e ps ss f1 f' -> launched e (p :: ps) ss f f'.
Proof.
  intros Np [A1 A2] [B1 B2].
  assert (K : forall p' c n, p' <> p -> f1 p' c n = f p' c n).
  { intros p' c n Hc. apply A2. intros s' i [<-|[]]. congruence. }
  split.
  - intros p' i s [<-|Hp] Hi Hs G.
    + rewrite B2; [apply A1; cbn [In]; auto|]. intros s' j Hp. contradiction.
    + rewrite B1 by assumption. apply evalR_ext. intros c o Hl. apply K. intros ->. contradiction.
  - intros p' c n H. rewrite B2.
    + apply A2. intros s' i [<-|[]] Hi Hs G Ec En. apply (H s' i); cbn [In]; auto.
    + intros s' i Hp Hi Hs' G Ec En. apply (H s' i); cbn [In]; auto.
Qed.

Lemma patches_ok sh e ss ps : forall (f : gtf) (Q : gtf -> Prop), NoDup ps -> sep ss ->
  (forall i s, (forall d, 0 <= get3 i d < get3 e d) -> In s ss -> gs_guard s i = true ->
     gt_in sh (at_off i (gs_o s)) = true /\ forall c o, In (c, o) (leaves (gs_rhs s)) -> gt_in sh (at_off i o) = true) ->
  (forall f', launched e ps ss f f' -> Q f') ->
  gt_always sh (map (fun p => gt_launch e [p] ss) ps) f Q.
Proof.
  induction ps as [|p ps IH]; intros f Q N Sp Sf H; cbn [map].
  - cbn [gt_always]. apply H. split; [intros p i s []|]. reflexivity.
  - inversion N as [|? ? N1 N2]; subst. apply launch_ok; [constructor; [intros []|constructor]|exact Sp|exact Sf|].
    intros f1 L1. apply IH; [exact N2|exact Sp|exact Sf|]. intros f' L2. apply H. eapply launched_patch; eassumption.
Qed.

Lemma interior_raw g i : interior g i = true <-> forall d, get3 (ibn g) d <= get3 (raw g i) d < get3 (ibn g) d + get3 (ldims g) d.
Proof.
  rewrite interior_iff. unfold in_box, raw. split.
  - intros H d. specialize (H d). rewrite get3_gen3. lia.
  - intros H d. specialize (H d). rewrite get3_gen3 in H. lia.
Qed.

Definition mr (g : fgrid) : V3 Z := gen3 (fun d => get3 (ibn g) d + get3 (ldims g) d).

Lemma marder_yz_ok g np diff f : grid_yz g ->
  gt_always (gt_shape g) (gpu_marder g np diff) f (updated g np (fun p h => marder_correct g diff h (res_of g f p)) f).
Proof.
  intros G. pose proof G as [W [V B]]. unfold gpu_marder. rewrite V. cbn [c0].
  pose proof (W D0) as W0. rewrite V, B in W0. cbn [get3 c0] in W0. destruct W0 as [_ [_ [W0 _]]].
  fold (mr g).
  apply (patches_ok (gt_shape g) (v3 1 (c1 (gt_shape g)) (c2 (gt_shape g))) (k_marder_yz (gfac g diff) (ibn g) (mr g))).
  - apply NoDup_zr.
  - apply sepb_ok. reflexivity.
  - intros i s Hi Hs Gd. assert (Bt : betweenb (v3 0 0 0) (v3 0 1 1) (k_marder_yz (gfac g diff) (ibn g) (mr g)) = true) by reflexivity.
    apply (between_safe _ _ _ _ _ _ Bt Hs).
    assert (Gd' : ((c1 (ibn g) <=? c1 i) && (c1 i <? c1 (mr g))) && ((c2 (ibn g) <=? c2 i) && (c2 i <? c2 (mr g))) = true)
      by (destruct Hs as [<-|[<-|[]]]; exact Gd).
    rewrite !andb_true_iff, !Z.leb_le, !Z.ltb_lt in Gd'. unfold mr, gt_shape in *. rewrite B in *.
    intros d. specialize (Hi d). destruct d; cbn [gen3 get3 c0 c1 c2] in *; lia.
  - intros f' [L1 L2] p Hp. split.
    + intros q d i Hi. unfold marder_correct.
      assert (S0 : get3 i D0 = 0) by (specialize (Hi D0); rewrite B in Hi; cbn [get3 c0] in *; lia).
      destruct (qty_eqb q QE && negb (get3 (invar g) d) && interior g i) eqn:C.
      * apply andb_true_iff in C. destruct C as [C Ci]. apply andb_true_iff in C. destruct C as [Cq Cd].
        apply qty_eqb_eq in Cq. subst q. rewrite V in Cd.
        pose proof (proj1 (interior_raw g i) Ci) as Ir.
        set (s := kassign (fun i => ((c1 (ibn g) <=? c1 i) && (c1 i <? c1 (mr g))) && ((c2 (ibn g) <=? c2 i) && (c2 i <? c2 (mr g)))) QE d
                    (GAdd (GF (v3 0 0 0) QE d) (GMul (GConst (gfac g diff d)) (GSub (GRes (o1 d 1)) (GRes (v3 0 0 0)))))).
        assert (Hs : In s (k_marder_yz (gfac g diff) (ibn g) (mr g))).
        { unfold k_marder_yz. destruct d; cbn in Cd; [discriminate| |]; cbn [map In]; [left|right; left]; reflexivity. }
        assert (Hg : gs_guard s (raw g i) = true).
        { cbn [gs_guard s kassign]. rewrite !andb_true_iff, !Z.leb_le, !Z.ltb_lt. pose proof (Ir D1). pose proof (Ir D2).
          unfold mr. cbn [gen3 get3 c0 c1 c2] in *. lia. }
        assert (Hx : forall e, 0 <= get3 (raw g i) e < get3 (v3 1 (c1 (gt_shape g)) (c2 (gt_shape g))) e).
        { intros e. pose proof (stored_raw g i Hi e) as Sr. destruct e; [|exact Sr|exact Sr].
          unfold raw. rewrite B. cbn [gen3 get3 c0 c1 c2] in *. lia. }
        pose proof (L1 p (raw g i) s (proj2 (in_zrange _ _ _) Hp) Hx Hs Hg) as H.
        cbn [s kassign gs_c gs_o gs_rhs evalR GF GRes] in H. rewrite !at_0, at_o1 in H.
        unfold patch_of, res_of. fold (raw g i). fold (raw g (shift i d 1)). rewrite H. unfold gfac, Rdiv. ring.
      * unfold patch_of. fold (raw g i). apply L2. intros s j _ Hj Hs Gd Ec En.
        unfold k_marder_yz in Hs. apply in_map_iff in Hs. destruct Hs as [e [<- He]]. cbn [kassign gs_c gs_o gs_guard] in *.
        rewrite at_0 in En. subst j. injection Ec as <- <-. cbn [qty_eqb andb] in C. rewrite V in C.
        assert (X : interior g i = true).
        { apply interior_raw. rewrite !andb_true_iff, !Z.leb_le, !Z.ltb_lt in Gd. unfold mr in Gd. intros x.
          specialize (Hj x). destruct x; [|cbn [gen3 get3 c0 c1 c2] in *; lia|cbn [gen3 get3 c0 c1 c2] in *; lia].
          rewrite B in *. cbn [get3 c0 c1 c2] in *. lia. }
        rewrite X in C. destruct He as [<-|[<-|[]]]; discriminate.
    + intros i. unfold res_of. apply L2. intros s j _ Hj Hs Gd Ec En.
      unfold k_marder_yz in Hs. apply in_map_iff in Hs. destruct Hs as [e [<- He]]. discriminate.
Qed.

Lemma marder_xyz_ok g np diff f : grid_xyz g ->
  gt_always (gt_shape g) (gpu_marder g np diff) f (updated g np (fun p h => marder_correct_cuda g diff h (res_of g f p)) f).
Proof.
  intros G. pose proof G as [W [V B]]. unfold gpu_marder. rewrite V. cbn [c0].
  fold (mr g).
  apply (patches_ok (gt_shape g) (gt_shape g) (k_marder_xyz (gfac g diff) (ibn g) (mr g))).
  - apply NoDup_zr.
  - apply sepb_ok. reflexivity.
  - intros i s Hi Hs Gd. assert (Bt : betweenb (v3 0 0 0) (v3 1 1 1) (k_marder_xyz (gfac g diff) (ibn g) (mr g)) = true) by reflexivity.
    apply (between_safe _ _ _ _ _ _ Bt Hs).
    assert (Gd' : ((c0 (ibn g) <=? c0 i) && (c0 i <? c0 (mr g))) && ((c1 (ibn g) <=? c1 i) && (c1 i <? c1 (mr g))) && ((c2 (ibn g) <=? c2 i) && (c2 i <? c2 (mr g))) = true)
      by (destruct Hs as [<-|[<-|[<-|[]]]]; exact Gd).
    rewrite !andb_true_iff, !Z.leb_le, !Z.ltb_lt in Gd'. unfold mr, gt_shape in *. rewrite B in *.
    intros d. specialize (Hi d). destruct d; cbn [gen3 get3 c0 c1 c2] in *; lia.
  - intros f' [L1 L2] p Hp. split.
    + intros q d i Hi. unfold marder_correct_cuda.
      destruct (qty_eqb q QE && interior g i) eqn:C.
      * apply andb_true_iff in C. destruct C as [Cq Ci].
        apply qty_eqb_eq in Cq. subst q.
        pose proof (proj1 (interior_raw g i) Ci) as Ir.
        set (e := match d with D0 => D1 | d => d end).
        set (s := kassign (fun i => ((c0 (ibn g) <=? c0 i) && (c0 i <? c0 (mr g))) && ((c1 (ibn g) <=? c1 i) && (c1 i <? c1 (mr g))) && ((c2 (ibn g) <=? c2 i) && (c2 i <? c2 (mr g)))) QE d
                    (GAdd (GF (v3 0 0 0) QE d) (GMul (GConst (gfac g diff d)) (GSub (GRes (o1 e 1)) (GRes (v3 0 0 0)))))).
        assert (Hs : In s (k_marder_xyz (gfac g diff) (ibn g) (mr g))).
        { unfold k_marder_xyz. destruct d; cbn [e map fst snd In]; [left|right; left|right; right; left]; reflexivity. }
        assert (Hg : gs_guard s (raw g i) = true).
        { cbn [gs_guard s kassign]. rewrite !andb_true_iff, !Z.leb_le, !Z.ltb_lt. pose proof (Ir D0). pose proof (Ir D1). pose proof (Ir D2).
          unfold mr. cbn [gen3 get3 c0 c1 c2] in *. lia. }
        pose proof (L1 p (raw g i) s (proj2 (in_zrange _ _ _) Hp) (stored_raw g i Hi) Hs Hg) as H.
        cbn [s kassign gs_c gs_o gs_rhs evalR GF GRes] in H. rewrite !at_0, at_o1 in H.
        unfold patch_of, res_of. fold (raw g i). fold (raw g (shift i e 1)). rewrite H. unfold gfac, Rdiv. ring.
      * unfold patch_of. fold (raw g i). apply L2. intros s j _ Hj Hs Gd Ec En.
        unfold k_marder_xyz in Hs. apply in_map_iff in Hs. destruct Hs as [[e e'] [<- He]]. cbn [kassign gs_c gs_o gs_guard fst] in *.
        rewrite at_0 in En. subst j. injection Ec as <- <-. cbn [qty_eqb andb] in C.
        assert (X : interior g i = true).
        { apply interior_raw. rewrite !andb_true_iff, !Z.leb_le, !Z.ltb_lt in Gd. unfold mr in Gd. intros x.
          destruct x; cbn [gen3 get3 c0 c1 c2] in *; lia. }
        congruence.
    + intros i. unfold res_of. apply L2. intros s j _ Hj Hs Gd Ec En.
      unfold k_marder_xyz in Hs. apply in_map_iff in Hs. destruct Hs as [e [<- He]]. discriminate.
Qed.
