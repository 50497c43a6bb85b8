From Verif Require Import Base Arr SortModel SortSpec.
Local Open Scope Z_scope.

Lemma incr_some cnts cni v n : aget cnts cni = Some v ->
  exists cnts', incr cnts cni n = Some cnts' /\ alen cnts' = alen cnts /\
    forall i, aget cnts' i = if i =? cni then Some (v + n) else aget cnts i.
Proof.
  intros H. unfold incr. rewrite H. apply aset_some. eapply aget_bounds; eauto.
Qed.

Lemma incr_zero cnts cni v : aget cnts cni = Some v -> incr cnts cni 0 = Some cnts.
Proof.
  intros H. destruct (incr_some cnts cni v 0 H) as [c' [E [L G]]]. rewrite E. f_equal.
  apply alist_ext; [exact L|]. intros i _. rewrite G. destruct (Z.eqb_spec i cni); [|reflexivity].
  subst. rewrite H. f_equal. lia.
Qed.

Lemma incr_incr cnts cni v n m cnts1 : aget cnts cni = Some v -> incr cnts cni n = Some cnts1 ->
  incr cnts1 cni m = incr cnts cni (n + m).
Proof.
  intros H E1. destruct (incr_some cnts cni v n H) as [c' [E [L G]]]. rewrite E1 in E. injection E as <-.
  assert (H1 : aget cnts1 cni = Some (v + n)) by (rewrite G, Z.eqb_refl; reflexivity).
  destruct (incr_some cnts1 cni (v + n) m H1) as [c2 [E2 [L2 G2]]].
  destruct (incr_some cnts cni v (n + m) H) as [c3 [E3 [L3 G3]]]. rewrite E2, E3. f_equal.
  apply alist_ext; [lia|]. intros i _. rewrite G2, G3. destruct (Z.eqb_spec i cni) as [->|N].
  - f_equal. lia.
  - rewrite G. destruct (Z.eqb_spec i cni); [contradiction|reflexivity].
Qed.

(** ** The two sorts agree, on all inputs *)

Section Equal.
  Context {P : Type}.
  Variable cell : P -> option Z.
  Variable n_cells : Z.

  Lemma move_run cni : forall (src : list P) p2 cnts pos,
    (forall x, In x src -> cell x = Some cni) -> aget cnts cni = Some pos ->
    move cell src (p2, cnts) =
    match copy_run p2 pos src, incr cnts cni (alen src) with
    | Some p2', Some cnts' => Some (p2', cnts')
    | _, _ => None
    end.
  Proof.
    induction src as [|x r IH]; intros p2 cnts pos Hc Hp.
    - cbn. rewrite (incr_zero _ _ _ Hp). reflexivity.
    - cbn [move copy_run]. rewrite Hc by now left. unfold move1. rewrite Hp.
      destruct (aset p2 pos (Some x)) as [p2'|]; [|reflexivity].
      destruct (incr_some cnts cni pos 1 Hp) as [c' [E [L G]]]. rewrite E.
      rewrite (IH p2' c' (pos + 1)); [|intros y Hy; apply Hc; now right|rewrite G, Z.eqb_refl; reflexivity].
      rewrite (incr_incr cnts cni pos 1 _ c' Hp E). rewrite alen_cons. reflexivity.
  Qed.

  Lemma move_app (l1 l2 : list P) st :
    move cell (l1 ++ l2) st = match move cell l1 st with Some st' => move cell l2 st' | None => None end.
  Proof.
    revert st. induction l1 as [|x l1 IH]; intros st; cbn; [reflexivity|].
    destruct (cell x); [|reflexivity]. destruct (move1 z x st); [apply IH|reflexivity].
  Qed.

  Lemma run_length_spec cni cnis : (run_length cni cnis <= length cnis)%nat /\
    Forall (fun c => c = cni) (firstn (run_length cni cnis) cnis).
  Proof.
    induction cnis as [|c r IH]; cbn; [split; [lia|constructor]|].
    destruct (Z.eqb_spec c cni) as [->|]; cbn; [|split; [lia|constructor]].
    destruct IH. split; [lia|]. constructor; auto.
  Qed.

  Lemma move2_eq : forall fuel cnis prts st,
    map cell prts = map Some cnis -> (length cnis <= fuel)%nat ->
    move2 fuel cnis prts st = move cell prts st.
  Proof.
    induction fuel as [|fuel IH]; intros cnis prts st Hm Hf.
    - destruct cnis; [|cbn in Hf; lia]. destruct prts; [|discriminate]. destruct st; reflexivity.
    - destruct cnis as [|cni cnis]; [destruct prts; [|discriminate]; destruct st; reflexivity|].
      destruct prts as [|prt prts]; [discriminate|]. cbn [move2]. destruct st as [p2 cnts].
      set (n := S (run_length cni cnis)). destruct (run_length_spec cni cnis) as [HL HR].
      cbn [map] in Hm. injection Hm as Hc Hm.
      assert (HF : forall x, In x (firstn n (prt :: prts)) -> cell x = Some cni).
      { intros x Hx. assert (H : In (cell x) (map cell (firstn n (prt :: prts)))) by (apply in_map; exact Hx).
        rewrite <- firstn_map in H. cbn [map] in H. rewrite Hc, Hm in H.
        unfold n in H. cbn [firstn] in H. destruct H as [H|H]; [auto|].
        rewrite firstn_map in H. apply in_map_iff in H. destruct H as [c [<- Hc']].
        rewrite Forall_forall in HR. rewrite (HR c Hc'). reflexivity. }
      assert (HA : alen (firstn n (prt :: prts)) = Z.of_nat n).
      { unfold alen. rewrite firstn_length. f_equal. apply (f_equal (@length _)) in Hm.
        rewrite !map_length in Hm. unfold n. cbn [length]. lia. }
      replace (move cell (prt :: prts) (p2, cnts)) with (move cell (firstn n (prt :: prts) ++ skipn n (prt :: prts)) (p2, cnts))
        by (rewrite firstn_skipn; reflexivity).
      rewrite move_app.
      destruct (aget cnts cni) as [pos|] eqn:Ep.
      + rewrite (move_run cni _ p2 cnts pos HF Ep), HA.
        destruct (copy_run p2 pos _) as [p2'|]; [|reflexivity].
        destruct (incr cnts cni _) as [cnts'|]; [|reflexivity]. apply IH.
        * rewrite <- !skipn_map. cbn [map]. rewrite Hc, Hm. reflexivity.
        * rewrite skipn_length. unfold n. cbn [length] in *. lia.
      + unfold n. cbn [firstn move]. rewrite Hc. unfold move1. rewrite Ep. reflexivity.
  Qed.

  Lemma count2_eq : forall prts cnis cnts, map cell prts = map Some cnis ->
    count2 cnis cnts = count cell prts cnts.
  Proof.
    induction prts as [|x r IH]; intros [|c cnis] cnts Hm; try discriminate; [reflexivity|].
    cbn in *. injection Hm as Hc Hm. rewrite Hc. destruct (incr cnts c 1); [|reflexivity]. apply IH, Hm.
  Qed.

  Lemma all_some_spec {A} (l : list (option A)) : match all_some l with
    | Some l' => l = map Some l' | None => In None l end.
  Proof.
    induction l as [|[a|] l IH]; cbn; auto. destruct (all_some l); [subst; reflexivity|auto].
  Qed.

  Lemma count_none : forall prts cnts, In None (map cell prts) -> count cell prts cnts = None.
  Proof.
    induction prts as [|x r IH]; intros cnts H; [destruct H|]. cbn in *. destruct H as [H|H].
    - rewrite H. reflexivity.
    - destruct (cell x); [|reflexivity]. destruct (incr cnts z 1); [apply IH, H|reflexivity].
  Qed.

  Lemma sorts_equal prts : sort_countsort2 cell n_cells prts = sort_countsort cell n_cells prts.
  Proof.
    unfold sort_countsort2, sort_countsort, find_cnis. pose proof (all_some_spec (map cell prts)) as H.
    destruct (all_some (map cell prts)) as [cnis|].
    - rewrite (count2_eq prts cnis _ H). destruct (count cell prts _) as [cnts|]; [|reflexivity].
      destruct (offsets cnts 0) as [o cur]. destruct (cur =? alen prts); [|reflexivity].
      rewrite (move2_eq _ cnis prts _ H); [reflexivity|lia].
    - rewrite count_none by exact H. reflexivity.
  Qed.
End Equal.

(** ** The sort is correct *)

Section Correct.
  Context {P : Type}.
  Variable c : P -> Z.
  Variable n_cells : Z.
  Hypothesis Hn : 0 <= n_cells.

  Definition eqc (i : Z) (l : list P) : list P := filter (fun x => c x =? i) l.
  Definition ltc (i : Z) (l : list P) : list P := filter (fun x => c x <? i) l.

  Lemma eqc_snoc i l x : eqc i (l ++ [x]) = eqc i l ++ (if c x =? i then [x] else []).
  Proof. unfold eqc. rewrite filter_app. cbn. destruct (c x =? i); reflexivity. Qed.

  Lemma ltc_succ i l : alen (ltc (i + 1) l) = alen (ltc i l) + alen (eqc i l).
  Proof.
    unfold ltc, eqc, alen. induction l as [|x l IH]; [reflexivity|]. cbn [filter].
    destruct (Z.ltb_spec (c x) (i + 1)), (Z.ltb_spec (c x) i), (Z.eqb_spec (c x) i); cbn [length]; lia.
  Qed.

  Lemma ltc_mono i j l : i <= j -> alen (ltc i l) <= alen (ltc j l).
  Proof.
    intros H. unfold ltc, alen. induction l as [|x l IH]; [cbn; lia|]. cbn [filter].
    destruct (Z.ltb_spec (c x) i), (Z.ltb_spec (c x) j); cbn [length]; lia.
  Qed.

  Lemma ltc_zero l : Forall (fun x => 0 <= c x) l -> alen (ltc 0 l) = 0.
  Proof.
    intros H. unfold ltc, alen. induction H as [|x l Hx Hl IH]; [reflexivity|]. cbn [filter].
    destruct (Z.ltb_spec (c x) 0); [lia|exact IH].
  Qed.

  Lemma ltc_all n l : Forall (fun x => c x < n) l -> ltc n l = l.
  Proof.
    intros H. unfold ltc. induction H as [|x l Hx Hl IH]; [reflexivity|]. cbn [filter].
    destruct (Z.ltb_spec (c x) n); [rewrite IH; reflexivity|lia].
  Qed.

  Definition good (l : list P) : Prop := Forall (fun x => 0 <= c x < n_cells) l.

  Lemma count_ok : forall l cnts, good l -> alen cnts = n_cells ->
    exists cnts', count (fun x => Some (c x)) l cnts = Some cnts' /\ alen cnts' = n_cells /\
      forall i v, aget cnts i = Some v -> aget cnts' i = Some (v + alen (eqc i l)).
  Proof.
    induction l as [|x l IH]; intros cnts Hg HL.
    - exists cnts. split; [reflexivity|]. split; [exact HL|]. intros i v H. cbn. rewrite H. f_equal. unfold alen. cbn. lia.
    - inversion Hg; subst. cbn [count]. destruct (aget_some cnts (c x) ltac:(lia)) as [v Hv].
      destruct (incr_some cnts (c x) v 1 Hv) as [c1 [E [L1 G1]]]. rewrite E.
      destruct (IH c1 H2 ltac:(lia)) as [c2 [E2 [L2 G2]]]. exists c2. split; [exact E2|]. split; [exact L2|].
      intros i w Hw. unfold eqc. cbn [filter]. fold (eqc i l). destruct (Z.eqb_spec (c x) i) as [<-|N].
      + rewrite (G2 (c x) (v + 1)) by (rewrite G1, Z.eqb_refl; reflexivity).
        rewrite Hv in Hw. injection Hw as <-. rewrite alen_cons. f_equal. lia.
      + apply G2. rewrite G1. destruct (Z.eqb_spec i (c x)); [congruence|exact Hw].
  Qed.

  Lemma offsets_ok : forall l cur, let '(o, e) := offsets l cur in
    e = cur + zsum l /\ alen o = alen l /\
    forall i, 0 <= i < alen l -> aget o i = Some (cur + zsum (firstn (Z.to_nat i) l)).
  Proof.
    induction l as [|x l IH]; intros cur; cbn [offsets].
    - cbn. split; [lia|]. split; [reflexivity|]. unfold alen. cbn. lia.
    - specialize (IH (cur + x)). destruct (offsets l (cur + x)) as [o e]. destruct IH as [E [L G]].
      cbn [zsum]. split; [lia|]. rewrite !alen_cons. split; [lia|]. intros i Hi.
      rewrite aget_cons. destruct (Z.eqb_spec i 0) as [->|N]; [cbn; f_equal; lia|].
      rewrite G by lia. replace (Z.to_nat i) with (S (Z.to_nat (i - 1))) by lia. cbn [firstn zsum]. f_equal. lia.
  Qed.

  Lemma zsum_firstn_counts l cnts : Forall (fun x => 0 <= c x) l ->
    (forall i, 0 <= i < alen cnts -> aget cnts i = Some (alen (eqc i l))) ->
    forall i, 0 <= i <= alen cnts -> zsum (firstn (Z.to_nat i) cnts) = alen (ltc i l).
  Proof.
    intros Hl Hc i [H0 H1]. revert H1. pattern i. apply natlike_ind; [| |exact H0].
    - intros _. cbn. rewrite ltc_zero by exact Hl. reflexivity.
    - clear i H0. intros i H0 IH H1. unfold Z.succ in *. rewrite Z2Nat.inj_add by lia. rewrite Nat.add_1_r.
      pose proof (Hc i ltac:(lia)) as Hg. unfold aget in Hg. destruct (Z.ltb_spec i 0); [lia|].
      rewrite (zsum_firstn_S _ _ _ Hg), IH by lia. rewrite ltc_succ. reflexivity.
  Qed.

  Lemma locate l n q : 0 <= n -> Forall (fun x => 0 <= c x) l -> 0 <= q < alen (ltc n l) ->
    exists i j, 0 <= i < n /\ 0 <= j < alen (eqc i l) /\ q = alen (ltc i l) + j.
  Proof.
    intros Hn0 Hl. revert q. pattern n. apply natlike_ind; [| |exact Hn0].
    - intros q Hq. rewrite ltc_zero in Hq by exact Hl. lia.
    - clear n Hn0. intros n Hn0 IH q Hq. unfold Z.succ in *. rewrite ltc_succ in Hq.
      destruct (Z_lt_dec q (alen (ltc n l))) as [H|H].
      + destruct (IH q ltac:(lia)) as [i [j [Hi [Hj E]]]]. exists i, j. repeat split; lia.
      + exists n, (q - alen (ltc n l)). repeat split; lia.
  Qed.

  Definition blocks (n : Z) (l : list P) : list P := flat_map (fun i => eqc i l) (zrange 0 n).

  Lemma flat_map_app' {A B} (f : A -> list B) a b : flat_map f (a ++ b) = flat_map f a ++ flat_map f b.
  Proof. induction a as [|x a IH]; cbn; [reflexivity|]. rewrite IH, app_assoc. reflexivity. Qed.

  Lemma blocks_succ n l : 0 <= n -> blocks (n + 1) l = blocks n l ++ eqc n l.
  Proof.
    intros H. unfold blocks. rewrite zrange_snoc, flat_map_app' by lia. cbn [flat_map]. rewrite app_nil_r. reflexivity.
  Qed.

  Lemma blocks_len n l : 0 <= n -> Forall (fun x => 0 <= c x) l -> alen (blocks n l) = alen (ltc n l).
  Proof.
    intros H Hl. pattern n. apply natlike_ind; [| |exact H].
    - rewrite ltc_zero by exact Hl. reflexivity.
    - clear n H. intros n H IH. unfold Z.succ. rewrite blocks_succ, alen_app, ltc_succ by exact H. lia.
  Qed.

  Lemma blocks_get n l i j : 0 <= n -> Forall (fun x => 0 <= c x) l -> 0 <= i < n -> 0 <= j < alen (eqc i l) ->
    aget (blocks n l) (alen (ltc i l) + j) = aget (eqc i l) j.
  Proof.
    intros H Hl. revert i j. pattern n. apply natlike_ind; [lia| |exact H].
    clear n H. intros n H IH i j Hi Hj. unfold Z.succ in *. rewrite blocks_succ by exact H. rewrite aget_app, blocks_len by assumption.
    destruct (Z.eq_dec i n) as [->|N].
    - destruct (Z.ltb_spec (alen (ltc n l) + j) (alen (ltc n l))); [lia|]. f_equal. lia.
    - pose proof (ltc_mono (i + 1) n l ltac:(lia)) as M. rewrite ltc_succ in M.
      destruct (Z.ltb_spec (alen (ltc i l) + j) (alen (ltc n l))); [|lia]. apply IH; lia.
  Qed.

  Variable prts : list P.
  Hypothesis Hgood : good prts.

  Lemma good_nonneg : Forall (fun x => 0 <= c x) prts.
  Proof. eapply Forall_impl; [|exact Hgood]. cbn. lia. Qed.

  Lemma eqc_le i pre post : prts = pre ++ post -> alen (eqc i pre) <= alen (eqc i prts).
  Proof. intros ->. unfold eqc. rewrite filter_app, alen_app. pose proof (alen_nonneg (filter (fun x => c x =? i) post)). lia. Qed.

  Definition inv (pre : list P) (st : list (option P) * list Z) : Prop :=
    alen (fst st) = alen prts /\ alen (snd st) = n_cells /\
    (forall i, 0 <= i < n_cells -> aget (snd st) i = Some (alen (ltc i prts) + alen (eqc i pre))) /\
    (forall i j, 0 <= i < n_cells -> 0 <= j < alen (eqc i pre) ->
       aget (fst st) (alen (ltc i prts) + j) = Some (aget (eqc i pre) j)).

  Lemma ltc_total : alen (ltc n_cells prts) = alen prts.
  Proof. rewrite ltc_all; [reflexivity|]. eapply Forall_impl; [|exact Hgood]. cbn. lia. Qed.

  Lemma move_ok : forall post pre st, prts = pre ++ post -> inv pre st ->
    exists st', move (fun x => Some (c x)) post st = Some st' /\ inv prts st'.
  Proof.
    induction post as [|x post IH]; intros pre st E Hi.
    - rewrite app_nil_r in E. subst pre. exists st. split; [reflexivity|exact Hi].
    - cbn [move]. destruct st as [p2 cnts]. destruct Hi as [L1 [L2 [G1 G2]]]. cbn [fst snd] in *.
      assert (Hx : 0 <= c x < n_cells).
      { unfold good in Hgood. rewrite E in Hgood. apply Forall_app in Hgood. destruct Hgood as [_ H].
        inversion H; assumption. }
      set (pos := alen (ltc (c x) prts) + alen (eqc (c x) pre)).
      assert (HS : alen (eqc (c x) (pre ++ [x])) = alen (eqc (c x) pre) + 1).
      { rewrite eqc_snoc, Z.eqb_refl, alen_app. reflexivity. }
      assert (HLe : alen (eqc (c x) (pre ++ [x])) <= alen (eqc (c x) prts)).
      { apply (eqc_le (c x) (pre ++ [x]) post). rewrite <- app_assoc. exact E. }
      assert (Hpos : 0 <= pos < alen p2).
      { pose proof (ltc_mono (c x + 1) n_cells prts ltac:(lia)) as M. rewrite ltc_succ, ltc_total in M.
        pose proof (alen_nonneg (ltc (c x) prts)). pose proof (alen_nonneg (eqc (c x) pre)). unfold pos. lia. }
      pose proof (G1 (c x) Hx) as Hc. fold pos in Hc.
      unfold move1. rewrite Hc.
      destruct (aset_some p2 pos (Some x) Hpos) as [p2' [E2 [L2' G2']]]. rewrite E2.
      destruct (incr_some cnts (c x) pos 1 Hc) as [cnts' [E3 [L3 G3]]]. rewrite E3.
      apply (IH (pre ++ [x])); [rewrite <- app_assoc; exact E|].
      unfold inv. cbn [fst snd]. split; [lia|]. split; [lia|]. split.
      + intros i Hi. rewrite G3. destruct (Z.eqb_spec i (c x)) as [->|N].
        * f_equal. unfold pos. lia.
        * rewrite G1 by exact Hi. do 2 f_equal. rewrite eqc_snoc. destruct (Z.eqb_spec (c x) i); [congruence|].
          rewrite app_nil_r. reflexivity.
      + intros i j Hi Hj. rewrite G2'. destruct (Z.eqb_spec i (c x)) as [->|N].
        * rewrite HS in Hj. rewrite eqc_snoc, Z.eqb_refl, aget_app.
          destruct (Z.eqb_spec (alen (ltc (c x) prts) + j) pos) as [Ep|Np].
          -- unfold pos in Ep. destruct (Z.ltb_spec j (alen (eqc (c x) pre))); [lia|].
             replace (j - alen (eqc (c x) pre)) with 0 by lia. reflexivity.
          -- unfold pos in Np. destruct (Z.ltb_spec j (alen (eqc (c x) pre))); [|lia]. apply G2; lia.
        * assert (HN : eqc i (pre ++ [x]) = eqc i pre).
          { rewrite eqc_snoc. destruct (Z.eqb_spec (c x) i); [congruence|]. apply app_nil_r. }
          rewrite HN in *.
          destruct (Z.eqb_spec (alen (ltc i prts) + j) pos) as [Ep|Np]; [exfalso|apply G2; assumption].
          pose proof (eqc_le i pre (x :: post) E) as HLi.
          destruct (Z.lt_trichotomy i (c x)) as [H|[H|H]]; [|congruence|].
          -- pose proof (ltc_mono (i + 1) (c x) prts ltac:(lia)) as M. rewrite ltc_succ in M.
             pose proof (alen_nonneg (eqc (c x) pre)). unfold pos in Ep. lia.
          -- pose proof (ltc_mono (c x + 1) i prts ltac:(lia)) as M. rewrite ltc_succ in M.
             unfold pos in Ep. lia.
  Qed.

  Lemma sort_blocks : sort_countsort (fun x => Some (c x)) n_cells prts = Some (blocks n_cells prts).
  Proof.
    unfold sort_countsort.
    assert (HL0 : alen (repeat 0 (Z.to_nat n_cells)) = n_cells) by (rewrite alen_repeat; lia).
    destruct (count_ok prts (repeat 0 (Z.to_nat n_cells)) Hgood HL0) as [cnts [E [L G]]]. rewrite E.
    assert (G' : forall i, 0 <= i < alen cnts -> aget cnts i = Some (alen (eqc i prts))).
    { intros i Hi. rewrite (G i 0); [f_equal; lia|]. rewrite aget_repeat.
      destruct (Z.leb_spec 0 i), (Z.ltb_spec i (Z.of_nat (Z.to_nat n_cells))); try lia. reflexivity. }
    pose proof (offsets_ok cnts 0) as HO. destruct (offsets cnts 0) as [o cur]. destruct HO as [Ec [Lo Go]].
    pose proof (zsum_firstn_counts prts cnts good_nonneg G') as HZ.
    assert (Ecur : cur = alen prts).
    { rewrite Ec. pose proof (HZ (alen cnts) ltac:(pose proof (alen_nonneg cnts); lia)) as H.
      unfold alen in H at 1. rewrite Nat2Z.id, firstn_all in H. rewrite H, L, ltc_total. lia. }
    rewrite Ecur, Z.eqb_refl.
    destruct (move_ok prts [] (repeat None (length prts), o) eq_refl) as [[p2 cn] [Em Hi]].
    { unfold inv. cbn [fst snd]. split; [rewrite alen_repeat; reflexivity|]. split; [lia|]. split.
      - intros i Hi. rewrite Go by lia. rewrite HZ by lia. f_equal. unfold eqc, alen. cbn. lia.
      - intros i j Hi Hj. unfold eqc, alen in Hj. cbn in Hj. lia. }
    rewrite Em. destruct Hi as [L1 [_ [_ G2]]]. cbn [fst] in *.
    assert (EB : p2 = map Some (blocks n_cells prts)).
    { pose proof (blocks_len n_cells prts Hn good_nonneg) as HB. rewrite ltc_total in HB.
      apply alist_ext; [rewrite alen_map; lia|]. intros q Hq.
      destruct (locate prts n_cells q Hn good_nonneg) as [i [j [Hi [Hj ->]]]]; [rewrite ltc_total; lia|].
      rewrite aget_map, blocks_get by (try assumption; apply good_nonneg).
      rewrite G2 by assumption. destruct (aget_some (eqc i prts) j Hj) as [x Hx]. rewrite Hx. reflexivity. }
    rewrite EB. apply all_some_map.
  Qed.

  Lemma filter_or_perm {A} (f g h : A -> bool) (l : list A) :
    (forall x, h x = f x || g x) -> (forall x, f x = true -> g x = false) ->
    Permutation (filter h l) (filter f l ++ filter g l).
  Proof.
    intros Hh Hd. induction l as [|x l IH]; [constructor|]. cbn [filter]. rewrite Hh.
    destruct (f x) eqn:Ef; cbn [orb].
    - rewrite (Hd x Ef). cbn. constructor. exact IH.
    - destruct (g x); [|exact IH].
      rewrite <- Permutation_middle. constructor. exact IH.
  Qed.

  Lemma blocks_perm n l : 0 <= n -> Forall (fun x => 0 <= c x) l -> Permutation (ltc n l) (blocks n l).
  Proof.
    intros H Hl. pattern n. apply natlike_ind; [| |exact H].
    - pose proof (ltc_zero l Hl) as E. unfold alen in E. destruct (ltc 0 l); [constructor|cbn in E; lia].
    - clear n H. intros n H IH. unfold Z.succ. rewrite blocks_succ by exact H.
      transitivity (ltc n l ++ eqc n l); [|apply Permutation_app_tail; exact IH].
      apply filter_or_perm; intros x; lia.
  Qed.

  Lemma eqc_eqc i k l : eqc k (eqc i l) = if i =? k then eqc k l else [].
  Proof.
    unfold eqc. induction l as [|x l IH]; [destruct (i =? k); reflexivity|]. cbn [filter].
    destruct (Z.eqb_spec (c x) i) as [E|N].
    - cbn [filter]. destruct (Z.eqb_spec i k) as [->|N2]; destruct (Z.eqb_spec (c x) k); try congruence.
    - rewrite IH. destruct (Z.eqb_spec i k), (Z.eqb_spec (c x) k); try congruence.
  Qed.

  Lemma eqc_blocks k n l : 0 <= n -> eqc k (blocks n l) = if (0 <=? k) && (k <? n) then eqc k l else [].
  Proof.
    intros H. pattern n. apply natlike_ind; [| |exact H].
    - destruct (Z.leb_spec 0 k), (Z.ltb_spec k 0); try lia; reflexivity.
    - clear n H. intros n H IH. unfold Z.succ. rewrite blocks_succ by exact H.
      unfold eqc at 1. rewrite filter_app. fold (eqc k (blocks n l)). fold (eqc k (eqc n l)).
      rewrite IH, eqc_eqc.
      destruct (Z.leb_spec 0 k), (Z.ltb_spec k n), (Z.ltb_spec k (n + 1)), (Z.eqb_spec n k); cbn [andb]; try lia;
        rewrite ?app_nil_r; reflexivity.
  Qed.

  Lemma blocks_sorted : stably_sorted c prts (blocks n_cells prts).
  Proof.
    split; [|split].
    - rewrite <- (ltc_all n_cells prts) at 1 by (eapply Forall_impl; [|exact Hgood]; cbn; lia).
      apply blocks_perm; [exact Hn|apply good_nonneg].
    - intros i j a b Hij Ha Hb.
      pose proof (aget_bounds _ _ _ Ha) as Bi. pose proof (aget_bounds _ _ _ Hb) as Bj.
      rewrite blocks_len in Bi, Bj by (try assumption; apply good_nonneg).
      destruct (locate prts n_cells i Hn good_nonneg Bi) as [i1 [j1 [Hi1 [Hj1 E1]]]].
      destruct (locate prts n_cells j Hn good_nonneg Bj) as [i2 [j2 [Hi2 [Hj2 E2]]]].
      subst i j. rewrite blocks_get in Ha, Hb by (try assumption; apply good_nonneg).
      apply aget_In in Ha, Hb. unfold eqc in Ha, Hb. apply filter_In in Ha, Hb.
      destruct Ha as [_ Ha], Hb as [_ Hb]. apply Z.eqb_eq in Ha, Hb. subst i1 i2.
      destruct (Z_le_dec (c a) (c b)) as [H|H]; [exact H|].
      pose proof (ltc_mono (c b + 1) (c a) prts ltac:(lia)) as M. rewrite ltc_succ in M. lia.
    - intros k. change (eqc k (blocks n_cells prts) = eqc k prts). rewrite eqc_blocks by exact Hn.
      destruct (Z.leb_spec 0 k), (Z.ltb_spec k n_cells); cbn [andb]; try reflexivity;
        symmetry; unfold eqc; (destruct (filter _ prts) as [|x r] eqn:E; [reflexivity|]);
        exfalso; (assert (Hx : In x (filter (fun x => c x =? k) prts)) by (rewrite E; now left));
        apply filter_In in Hx; destruct Hx as [Hx1 Hx2]; apply Z.eqb_eq in Hx2;
        unfold good in Hgood; rewrite Forall_forall in Hgood; specialize (Hgood x Hx1); lia.
  Qed.
End Correct.

Lemma count_ext {P} (f g : P -> option Z) l : (forall x, In x l -> f x = g x) ->
  forall cnts, count f l cnts = count g l cnts.
Proof.
  induction l as [|x l IH]; intros H cnts; [reflexivity|]. cbn. rewrite (H x) by now left.
  destruct (g x); [|reflexivity]. destruct (incr cnts z 1); [|reflexivity]. apply IH. intros; apply H; now right.
Qed.

Lemma move_ext {P} (f g : P -> option Z) l : (forall x, In x l -> f x = g x) ->
  forall st, move f l st = move g l st.
Proof.
  induction l as [|x l IH]; intros H st; [reflexivity|]. cbn. rewrite (H x) by now left.
  destruct (g x); [|reflexivity]. destruct (move1 z x st); [|reflexivity]. apply IH. intros; apply H; now right.
Qed.

Lemma sort_ext {P} (f g : P -> option Z) n l : (forall x, In x l -> f x = g x) ->
  sort_countsort f n l = sort_countsort g n l.
Proof.
  intros H. unfold sort_countsort. rewrite (count_ext f g l H). destruct (count g l _); [|reflexivity].
  destruct (offsets l0 0). rewrite (move_ext f g l H). reflexivity.
Qed.

(** both sorts: with valid cells the result is the stable sort; with an invalid
    one the assert fires *)
Lemma sort_full {P} (cell : P -> option Z) (c : P -> Z) n_cells prts : 0 <= n_cells ->
  (forall x, In x prts -> cell x = Some (c x) /\ 0 <= c x < n_cells) ->
  exists out, sort_countsort cell n_cells prts = Some out /\ stably_sorted c prts out.
Proof.
  intros Hn H.
  assert (Hg : good c n_cells prts) by (apply Forall_forall; intros x Hx; apply H, Hx).
  exists (blocks c n_cells prts). split; [|apply blocks_sorted; assumption].
  rewrite <- (sort_blocks c n_cells Hn prts Hg). apply sort_ext. intros x Hx. apply H, Hx.
Qed.
