From Coq Require Import Reals Lra.
From Verif Require Import Base DomainSpec FieldModel FieldSpec FieldProofs WallModel.
Local Open Scope R_scope.

(** ** The points of the loops *)

Lemma in_vec_range start stop i : In i (vec_range start stop) <-> forall d, (get3 start d <= get3 i d < get3 stop d)%Z.
Proof.
  unfold vec_range. rewrite in_flat_map. split.
  - intros [x [Hx H]]. apply in_flat_map in H. destruct H as [y [Hy H]]. apply in_map_iff in H. destruct H as [z [<- Hz]].
    apply in_zrange in Hx, Hy, Hz. intros d. destruct d; cbn; assumption.
  - intros H. exists (c0 i). split; [apply in_zrange; apply (H D0)|]. apply in_flat_map. exists (c1 i). split; [apply in_zrange; apply (H D1)|].
    apply in_map_iff. exists (c2 i). split; [destruct i; reflexivity|]. apply in_zrange. apply (H D2).
Qed.

Lemma v3_dec (a b : V3 Z) : {a = b} + {a <> b}.
Proof. destruct (v3_eqb a b) eqn:E; [left; apply v3_eqb_eq; exact E|right; intros H; apply v3_eqb_eq in H; congruence]. Qed.

Lemma fset_same inv f q c i v : fnorm inv i = i -> fset inv f q c i v q c i = v.
Proof. intros H. unfold fset. rewrite H, v3_eqb_refl, dim3_eqb_refl. destruct q; reflexivity. Qed.
Lemma fset_comp inv f q c i v q' c' j : c <> c' -> fset inv f q c i v q' c' j = f q' c' j.
Proof. intros H. unfold fset. destruct (dim3_eqb c c') eqn:E; [apply dim3_eqb_eq in E; congruence|]. rewrite andb_false_r. reflexivity. Qed.

Section Fold.
  Context (g : fgrid) (d da db : dim3) (w : Z) (A B : pf -> V3 Z -> R).
  Hypothesis (Hda : da <> d) (Hdb : db <> d) (Hab : da <> db).

  (** equal but for what the loop writes *)
  Definition agree (f f' : pf) : Prop := forall q c j, ~ (q = QH /\ c <> d /\ get3 j d = w) -> f q c j = f' q c j.
  Hypothesis (HA : forall f f' i, get3 i d = w -> agree f f' -> A f i = A f' i).
  Hypothesis (HB : forall f f' i, get3 i d = w -> agree f f' -> B f i = B f' i).

  Definition two (f : pf) (i : V3 Z) : pf :=
    let f1 := fset (invar g) f QH da i (A f i) in fset (invar g) f1 QH db i (B f1 i).

  Lemma agree_fset f c i v : c <> d -> get3 i d = w -> fnorm (invar g) i = i -> agree f (fset (invar g) f QH c i v).
  Proof.
    intros Hc Hi Hn q c' j H. unfold fset. destruct (qty_eqb QH q && dim3_eqb c c' && v3_eqb (fnorm (invar g) i) j) eqn:E; [|reflexivity].
    exfalso. apply H. rewrite !andb_true_iff in E. destruct E as [[E1 E2] E3]. apply qty_eqb_eq in E1. apply dim3_eqb_eq in E2. apply v3_eqb_eq in E3. subst. rewrite Hn. auto.
  Qed.

  Lemma agree_trans f1 f2 f3 : agree f1 f2 -> agree f2 f3 -> agree f1 f3.
  Proof. intros H1 H2 q c j H. rewrite (H1 q c j H). apply H2. exact H. Qed.

  Lemma two_fold l : forall f0 f, (forall i, In i l -> get3 i d = w /\ fnorm (invar g) i = i) -> agree f0 f ->
    let f' := fold_left two l f in
    agree f0 f' /\
    (forall i, In i l -> f' QH da i = A f0 i /\ f' QH db i = B f0 i) /\
    (forall i, ~ In i l -> f' QH da i = f QH da i /\ f' QH db i = f QH db i).
  Proof.
    induction l as [|i l IH]; intros f0 f Hl Ha.
    - cbn. split; [exact Ha|]. split; [intros i []|]. intros i _. split; reflexivity.
    - cbn [fold_left]. destruct (Hl i (or_introl eq_refl)) as [Hi Hn].
      assert (A1 : agree f0 (fset (invar g) f QH da i (A f i))) by (apply (agree_trans f0 f); [exact Ha|apply agree_fset; assumption]).
      assert (A2 : agree f0 (two f i)) by (eapply agree_trans; [exact A1|]; unfold two; apply agree_fset; assumption).
      destruct (IH f0 (two f i) (fun j H => Hl j (or_intror H)) A2) as [I1 [I2 I3]]. cbv zeta. split; [exact I1|].
      assert (V : two f i QH da i = A f0 i /\ two f i QH db i = B f0 i).
      { unfold two. rewrite fset_same by exact Hn. rewrite fset_comp by congruence. rewrite fset_same by exact Hn. split.
        - symmetry. apply HA; [exact Hi|exact Ha].
        - symmetry. apply HB; [exact Hi|exact A1]. }
      assert (U : forall j, j <> i -> two f i QH da j = f QH da j /\ two f i QH db j = f QH db j).
      { intros j Hj. unfold two, fset. rewrite Hn. rewrite (v3_eqb_neq i j) by congruence. rewrite !andb_false_r. split; reflexivity. }
      split.
      + intros j [<-|Hj]; [|apply I2; exact Hj]. destruct (in_dec v3_dec i l) as [Hj|Hj].
        * apply I2. exact Hj.
        * destruct (I3 i Hj) as [-> ->]. exact V.
      + intros j Hj. assert (j <> i) by (intros ->; apply Hj; left; reflexivity). assert (~ In j l) as Hj' by (intros H'; apply Hj; right; exact H').
        destruct (I3 j Hj') as [-> ->]. apply U. assumption.
  Qed.
End Fold.

Lemma d1_d2 d : d_1 d <> d /\ d_2 d <> d /\ d_2 d <> d_1 d.
Proof. destruct d; cbn; repeat split; discriminate. Qed.

Lemma fnorm_get inv i d : get3 inv d = false -> get3 (fnorm inv i) d = get3 i d.
Proof. intros H. unfold fnorm. rewrite get3_gen3, H. reflexivity. Qed.

(** values of H set at the lower and upper boundary *)
Definition lo2 (g : fgrid) (be bh : V3 R) (ps : pulses) (d : dim3) (f : pf) (i3 : V3 Z) : R :=
  let F := fget (invar g) f in let d1 := d_1 d in let d2 := d_2 d in let e := shift i3 d 1 in
  (4 * pulse_s ps d 0 (x3 g e d1) - 2 * (F QE d1 e - get3 be d1) - dtdx g d2 * (F QH d e - F QH d (shift e d2 (-1)))
   - (1 - dtdx g d) * (F QH d2 e - get3 bh d2) + dt g * F QJ d1 e) / (1 + dtdx g d) + get3 bh d2.
Definition lo1 (g : fgrid) (be bh : V3 R) (ps : pulses) (d : dim3) (f : pf) (i3 : V3 Z) : R :=
  let F := fget (invar g) f in let d1 := d_1 d in let d2 := d_2 d in let e := shift i3 d 1 in
  (- (4) * pulse_p ps d 0 (x3 g e d2) + 2 * (F QE d2 e - get3 be d2) - dtdx g d1 * (F QH d e - F QH d (shift e d1 (-1)))
   - (1 - dtdx g d) * (F QH d1 e - get3 bh d1) + dt g * F QJ d2 e) / (1 + dtdx g d) + get3 bh d1.
Definition hi2 (g : fgrid) (be bh : V3 R) (ps : pulses) (d : dim3) (f : pf) (i3 : V3 Z) : R :=
  let F := fget (invar g) f in let d1 := d_1 d in let d2 := d_2 d in let e := shift i3 d (-1) in
  (- (4) * pulse_s ps d 0 (x3 g e d1) + 2 * (F QE d1 i3 - get3 be d1) + dtdx g d2 * (F QH d i3 - F QH d (shift i3 d2 (-1)))
   - (1 - dtdx g d) * (F QH d2 e - get3 bh d2) - dt g * F QJ d1 i3) / (1 + dtdx g d) + get3 bh d2.
Definition hi1 (g : fgrid) (be bh : V3 R) (ps : pulses) (d : dim3) (f : pf) (i3 : V3 Z) : R :=
  let F := fget (invar g) f in let d1 := d_1 d in let d2 := d_2 d in let e := shift i3 d (-1) in
  (4 * pulse_p ps d 0 (x3 g e d2) - 2 * (F QE d2 i3 - get3 be d2) + dtdx g d1 * (F QH d i3 - F QH d (shift i3 d1 (-1)))
   - (1 - dtdx g d) * (F QH d1 e - get3 bh d1) - dt g * F QJ d2 i3) / (1 + dtdx g d) + get3 bh d1.

Section Radiate.
  Context (g : fgrid) (W : wf_grid g) (be bh : V3 R) (ps : pulses) (d : dim3).
  Hypothesis (Hd : get3 (invar g) d = false).

  Lemma stored_norm i (s : Z) start stop : start = set3 (ib g) d s -> stop = set3 (ie g) d (s + 1)%Z -> In i (vec_range start stop) ->
    get3 i d = s /\ fnorm (invar g) i = i.
  Proof.
    intros -> -> H. rewrite in_vec_range in H. split.
    - specialize (H d). rewrite !get3_set3_same in H. lia.
    - apply v3_ext. intros e. unfold fnorm. rewrite get3_gen3. destruct (get3 (invar g) e) eqn:E; [|reflexivity].
      assert (e <> d) by congruence. specialize (H e). rewrite !get3_set3_other in H by congruence. unfold ib, ie in H. rewrite !get3_gen3 in H.
      destruct (W e) as [_ [_ We]]. rewrite E in We. lia.
  Qed.

  Lemma agree_get w f f' q c j : agree d w f f' -> ~ (q = QH /\ c <> d /\ get3 j d = w) -> fget (invar g) f q c j = fget (invar g) f' q c j.
  Proof. intros H HN. unfold fget. apply H. intros [H1 [H2 H3]]. apply HN. rewrite fnorm_get in H3 by exact Hd. auto. Qed.

  Lemma radiative_lo_val f :
    let f' := radiative_H_lo g be bh ps d f in
    agree d (-1) f f' /\
    (forall i, get3 i d = (-1)%Z -> stored g i -> f' QH (d_2 d) i = lo2 g be bh ps d f i /\ f' QH (d_1 d) i = lo1 g be bh ps d f i).
  Proof.
    destruct (d1_d2 d) as [H1 [H2 H3]]. cbv zeta. unfold radiative_H_lo.
    change (radiate_lo g be bh ps d) with (two g (d_2 d) (d_1 d) (lo2 g be bh ps d) (lo1 g be bh ps d)).
    assert (HA : forall f f' i, get3 i d = (-1)%Z -> agree d (-1) f f' -> lo2 g be bh ps d f i = lo2 g be bh ps d f' i).
    { intros f1 f2 i Hi Ha. unfold lo2. cbv zeta. assert (Hs : forall c s, c <> d -> get3 (shift (shift i d 1) c s) d = 0%Z).
      { intros c s Hc. rewrite !get3_shift, dim3_eqb_refl. destruct (dim3_eqb c d) eqn:E; [apply dim3_eqb_eq in E; congruence|]. lia. }
      assert (Hs0 : get3 (shift i d 1) d = 0%Z) by (rewrite get3_shift, dim3_eqb_refl; lia).
      rewrite !(agree_get (-1) f1 f2) by (first [exact Ha|intros [Q1 [Q2 Q3]]; first [discriminate|congruence|rewrite Hs0 in Q3; lia]]). reflexivity. }
    assert (HB : forall f f' i, get3 i d = (-1)%Z -> agree d (-1) f f' -> lo1 g be bh ps d f i = lo1 g be bh ps d f' i).
    { intros f1 f2 i Hi Ha. unfold lo1. cbv zeta.
      assert (Hs0 : get3 (shift i d 1) d = 0%Z) by (rewrite get3_shift, dim3_eqb_refl; lia).
      rewrite !(agree_get (-1) f1 f2) by (first [exact Ha|intros [Q1 [Q2 Q3]]; first [discriminate|congruence|rewrite Hs0 in Q3; lia]]). reflexivity. }
    destruct (two_fold g d (d_2 d) (d_1 d) (-1) _ _ H2 H1 H3 HA HB (vec_range (set3 (ib g) d (-1)%Z) (set3 (ie g) d 0%Z)) f f) as [I1 [I2 _]].
    - intros i Hi. apply (stored_norm i (-1) _ _ eq_refl eq_refl Hi).
    - intros q c j _. reflexivity.
    - split; [exact I1|]. intros i Hi Hs. apply I2. apply in_vec_range. intros e. unfold ib, ie. destruct (dim3_eqb e d) eqn:E.
      + apply dim3_eqb_eq in E. subst e. rewrite !get3_set3_same. lia.
      + rewrite !get3_set3_other by (intros ->; rewrite dim3_eqb_refl in E; discriminate). rewrite !get3_gen3. apply Hs.
  Qed.

  Lemma radiative_hi_val f :
    let n := get3 (ldims g) d in
    let f' := radiative_H_hi g be bh ps d f in
    agree d n f f' /\
    (forall i, get3 i d = n -> stored g i -> f' QH (d_2 d) i = hi2 g be bh ps d f i /\ f' QH (d_1 d) i = hi1 g be bh ps d f i).
  Proof.
    destruct (d1_d2 d) as [H1 [H2 H3]]. cbv zeta. unfold radiative_H_hi. set (n := get3 (ldims g) d).
    change (radiate_hi g be bh ps d) with (two g (d_2 d) (d_1 d) (hi2 g be bh ps d) (hi1 g be bh ps d)).
    assert (HA : forall f f' i, get3 i d = n -> agree d n f f' -> hi2 g be bh ps d f i = hi2 g be bh ps d f' i).
    { intros f1 f2 i Hi Ha. unfold hi2. cbv zeta.
      assert (Hs0 : get3 (shift i d (-1)) d = (n - 1)%Z) by (rewrite get3_shift, dim3_eqb_refl; lia).
      rewrite !(agree_get n f1 f2) by (first [exact Ha|intros [Q1 [Q2 Q3]]; first [discriminate|congruence|rewrite Hs0 in Q3; lia]]). reflexivity. }
    assert (HB : forall f f' i, get3 i d = n -> agree d n f f' -> hi1 g be bh ps d f i = hi1 g be bh ps d f' i).
    { intros f1 f2 i Hi Ha. unfold hi1. cbv zeta.
      assert (Hs0 : get3 (shift i d (-1)) d = (n - 1)%Z) by (rewrite get3_shift, dim3_eqb_refl; lia).
      rewrite !(agree_get n f1 f2) by (first [exact Ha|intros [Q1 [Q2 Q3]]; first [discriminate|congruence|rewrite Hs0 in Q3; lia]]). reflexivity. }
    destruct (two_fold g d (d_2 d) (d_1 d) n _ _ H2 H1 H3 HA HB (vec_range (set3 (ib g) d n) (set3 (ie g) d (n + 1)%Z)) f f) as [I1 [I2 _]].
    - intros i Hi. apply (stored_norm i n _ _ eq_refl eq_refl Hi).
    - intros q c j _. reflexivity.
    - split; [exact I1|]. intros i Hi Hs. apply I2. apply in_vec_range. intros e. unfold ib, ie. destruct (dim3_eqb e d) eqn:E.
      + apply dim3_eqb_eq in E. subst e. rewrite !get3_set3_same. lia.
      + rewrite !get3_set3_other by (intros ->; rewrite dim3_eqb_refl in E; discriminate). rewrite !get3_gen3. apply Hs.
  Qed.
End Radiate.
