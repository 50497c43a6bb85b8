From Coq Require Import Reals Lra Psatz.
From Verif Require Import Base DomainSpec BalanceCommProofs FieldModel FieldSpec.
Local Open Scope R_scope.

(** ** Points *)

Lemma v3_eqb_eq a b : v3_eqb a b = true <-> a = b.
Proof.
  unfold v3_eqb. rewrite !andb_true_iff, !Z.eqb_eq. destruct a, b. cbn. split; [intros [[-> ->] ->]; reflexivity|].
  intros H. injection H as -> -> ->. auto.
Qed.

Lemma v3_eqb_refl a : v3_eqb a a = true.
Proof. apply v3_eqb_eq. reflexivity. Qed.

Lemma v3_eqb_neq a b : a <> b -> v3_eqb a b = false.
Proof. intros H. destruct (v3_eqb a b) eqn:E; [apply v3_eqb_eq in E; congruence|reflexivity]. Qed.

Lemma get3_shift i d s e : get3 (shift i d s) e = if dim3_eqb d e then (get3 i e + s)%Z else get3 i e.
Proof. unfold shift. destruct d, e; destruct i; reflexivity. Qed.

Lemma shift_shift i d e s t : d <> e -> shift (shift i d s) e t = shift (shift i e t) d s.
Proof. intros H. apply v3_ext. intros x. rewrite !get3_shift. destruct d, e, x; cbn; try congruence; lia. Qed.

Lemma shift_back i d s t : (s + t = 0)%Z -> shift (shift i d s) d t = i.
Proof. intros H. apply v3_ext. intros x. rewrite !get3_shift. destruct d, x; cbn; lia. Qed.

Lemma in_box_within g i : wf_grid g -> (in_box (ldims g) i <-> within g 0 0 i).
Proof.
  intros W. unfold in_box, within. split; intros H d; specialize (H d); specialize (W d); destruct W as [_ [_ W]];
    destruct (get3 (invar g) d); lia.
Qed.

Lemma interior_iff g i : interior g i = true <-> in_box (ldims g) i.
Proof.
  unfold interior, in_box. rewrite !andb_true_iff. split.
  - intros H d. destruct d; cbn; lia.
  - intros H. pose proof (H D0). pose proof (H D1). pose proof (H D2). cbn in *. lia.
Qed.

Lemma within_mono g l r l' r' i : (l <= l')%Z -> (r <= r')%Z -> within g l r i -> within g l' r' i.
Proof. intros Hl Hr H d. specialize (H d). destruct (get3 (invar g) d); lia. Qed.

Lemma within_stored g l r i : wf_grid g -> (l <= 2)%Z -> (r <= 2)%Z -> within g l r i -> stored g i.
Proof.
  intros W Hl Hr H d. specialize (H d). specialize (W d). destruct W as [_ [_ W]]. destruct (get3 (invar g) d); lia.
Qed.

Lemma within_shift g l r i d s : get3 (invar g) d = false -> within g l r i -> (-1 <= s <= 1)%Z -> within g (l + 1) (r + 1) (shift i d s).
Proof.
  intros Hd H Hs e. specialize (H e). rewrite get3_shift. destruct (dim3_eqb d e) eqn:E.
  - apply dim3_eqb_eq in E. subst. rewrite Hd in *. lia.
  - destruct (get3 (invar g) e); lia.
Qed.

Lemma fnorm_id g l r i : within g l r i -> fnorm (invar g) i = i.
Proof.
  intros H. apply v3_ext. intros d. unfold fnorm. rewrite get3_gen3. specialize (H d). destruct (get3 (invar g) d); [lia|reflexivity].
Qed.

Lemma stored_norm g i : wf_grid g -> stored g i -> fnorm (invar g) i = i.
Proof.
  intros W H. apply v3_ext. intros d. unfold fnorm. rewrite get3_gen3. specialize (H d). specialize (W d). destruct W as [_ [_ W]].
  destruct (get3 (invar g) d); [lia|reflexivity].
Qed.

Lemma foreach_bnd_in g l r i : wf_grid g -> (In i (foreach_bnd g l r) <-> within g l r i).
Proof.
  intros W. unfold foreach_bnd. rewrite in_flat_map. split.
  - intros [k [Hk H]]. apply in_flat_map in H. destruct H as [j [Hj H]]. apply in_map_iff in H. destruct H as [x [Hx H]].
    subst i. apply in_zrange in Hk, Hj, H. unfold gen3 in *. cbn [c0 c1 c2] in *.
    intros d. specialize (W d). destruct W as [W0 [_ W]]. destruct d; cbn [get3 c0 c1 c2] in *;
      [destruct (c0 (invar g))|destruct (c1 (invar g))|destruct (c2 (invar g))]; lia.
  - intros H. exists (c2 i). pose proof (H D0) as H0. pose proof (H D1) as H1. pose proof (H D2) as H2.
    pose proof (W D0) as [A0 [_ W0]]. pose proof (W D1) as [A1 [_ W1]]. pose proof (W D2) as [A2 [_ W2]].
    unfold gen3. cbn [get3 c0 c1 c2] in *. split.
    + apply in_zrange. destruct (c2 (invar g)); lia.
    + apply in_flat_map. exists (c1 i). split; [apply in_zrange; destruct (c1 (invar g)); lia|].
      apply in_map_iff. exists (c0 i). split; [destruct i; reflexivity|]. apply in_zrange. destruct (c0 (invar g)); lia.
Qed.

Lemma foreach_bnd_nodup g l r : NoDup (foreach_bnd g l r).
Proof.
  unfold foreach_bnd. apply (NoDup_flat_map _ _ (fun p : V3 Z => c2 p)).
  - apply NoDup_zrange.
  - intros a b _ H. apply in_flat_map in H. destruct H as [y [_ H]]. apply in_map_iff in H. destruct H as [u [<- _]]. reflexivity.
  - intros k _. apply (NoDup_flat_map _ _ (fun p : V3 Z => c1 p)); [apply NoDup_zrange| |].
    + intros a b _ H. apply in_map_iff in H. destruct H as [u [<- _]]. reflexivity.
    + intros j _. apply NoDup_map_inj_in; [|apply NoDup_zrange]. intros x y _ _ E. injection E. auto.
Qed.

(** ** Loops that add to one field what depends on the others *)

Lemma qty_eqb_eq a b : qty_eqb a b = true <-> a = b.
Proof. destruct a, b; cbn; split; congruence. Qed.

Definition loop_step (Q : qty) (inv : V3 bool) (delta : pf -> dim3 -> V3 Z -> R) (step : pf -> V3 Z -> pf) : Prop :=
  forall f i, fnorm inv i = i -> forall q d j,
    step f i q d j = if qty_eqb Q q && v3_eqb i j then f q d j + delta f d i else f q d j.

Definition reads_others (Q : qty) (delta : pf -> dim3 -> V3 Z -> R) : Prop :=
  forall f f' d i, (forall q d i, q <> Q -> f q d i = f' q d i) -> delta f d i = delta f' d i.

Lemma loop_fold Q inv delta step : loop_step Q inv delta step -> reads_others Q delta ->
  forall pts f, NoDup pts -> (forall i, In i pts -> fnorm inv i = i) ->
  forall q d j, fold_left step pts f q d j = if qty_eqb Q q then (if existsb (v3_eqb j) pts then f q d j + delta f d j else f q d j) else f q d j.
Proof.
  intros Hs Hr. induction pts as [|i pts IH]; intros f Hn Hp q d j; cbn [fold_left existsb]; [destruct (qty_eqb Q q); reflexivity|].
  inversion Hn as [|? ? Hi Hn']; subst. rewrite IH; [|exact Hn'|intros; apply Hp; now right].
  rewrite (Hs f i (Hp i (or_introl eq_refl))). destruct (qty_eqb Q q) eqn:Eq; cbn [andb]; [|reflexivity].
  assert (Hd : delta (step f i) d j = delta f d j).
  { apply Hr. intros q' d' i' Hq'. rewrite (Hs f i (Hp i (or_introl eq_refl))).
    destruct (qty_eqb Q q') eqn:E; [apply qty_eqb_eq in E; congruence|reflexivity]. }
  rewrite Hd. destruct (v3_eqb j i) eqn:Ej.
  - apply v3_eqb_eq in Ej. subst j. rewrite v3_eqb_refl. cbn [orb].
    destruct (existsb (v3_eqb i) pts) eqn:Ex; [|reflexivity].
    exfalso. apply existsb_exists in Ex. destruct Ex as [x [Hx Ex]]. apply v3_eqb_eq in Ex. subst. contradiction.
  - rewrite (v3_eqb_neq i j); [cbn [orb]; reflexivity|]. intros ->. rewrite v3_eqb_refl in Ej. discriminate.
Qed.

Lemma existsb_within g l r j : wf_grid g -> (existsb (v3_eqb j) (foreach_bnd g l r) = true <-> within g l r j).
Proof.
  intros W. rewrite <- (foreach_bnd_in g l r j W), existsb_exists. split.
  - intros [x [Hx E]]. apply v3_eqb_eq in E. subst. exact Hx.
  - intros H. exists j. split; [exact H|apply v3_eqb_refl].
Qed.

(** ** The updates *)

(** a patch as a function on all points (invariant directions collapsed) *)
Definition vw (g : fgrid) (f : pf) (q : qty) (d : dim3) (i : V3 Z) : R := f q d (fnorm (invar g) i).

Definition deltaE (g : fgrid) (c : R) (f : pf) (d : dim3) (i : V3 Z) : R :=
  dth g c * (curl_minus (invar g) (dx g) (vw g f QH) d i - vw g f QJ d i).
Definition deltaH (g : fgrid) (c : R) (f : pf) (d : dim3) (i : V3 Z) : R :=
  - (dth g c * curl_plus (invar g) (dx g) (vw g f QE) d i).

Lemma cn_minus g c d (u : V3 Z -> R) i : get3 (dx g) d <> 0 ->
  cn g c d * (u i - u (shift i d (-1))) = dth g c * dminus (invar g) (dx g) d u i.
Proof. intros H. unfold cn, dminus. destruct (get3 (invar g) d); [ring|]. field. exact H. Qed.

Lemma cn_plus g c d (u : V3 Z -> R) i : get3 (dx g) d <> 0 ->
  cn g c d * (u (shift i d 1) - u i) = dth g c * dplus (invar g) (dx g) d u i.
Proof. intros H. unfold cn, dplus. destruct (get3 (invar g) d); [ring|]. field. exact H. Qed.

Lemma stepE_ok g c : wf_grid g ->
  loop_step QE (invar g) (deltaE g c) (fun f i => pushE_z g c (pushE_y g c (pushE_x g c f i) i) i).
Proof.
  intros W f i Hi q d j. pose proof (proj1 (proj2 (W D0))) as X0. pose proof (proj1 (proj2 (W D1))) as X1.
  pose proof (proj1 (proj2 (W D2))) as X2.
  unfold pushE_z, pushE_y, pushE_x, fadd. rewrite Hi.
  destruct (qty_eqb QE q) eqn:Eq; [|reflexivity]. apply qty_eqb_eq in Eq. subst q. cbn [andb].
  destruct (v3_eqb i j); [|rewrite !andb_false_r; reflexivity]. rewrite !andb_true_r.
  unfold fget. cbn [qty_eqb andb].
  destruct d; cbn [dim3_eqb]; f_equal; unfold deltaE, curl_minus; cbn [nxt].
  - rewrite !(Rmult_minus_distr_l (dth g c)). rewrite <- !cn_minus by assumption. reflexivity.
  - rewrite !(Rmult_minus_distr_l (dth g c)). rewrite <- !cn_minus by assumption. reflexivity.
  - rewrite !(Rmult_minus_distr_l (dth g c)). rewrite <- !cn_minus by assumption. reflexivity.
Qed.

Lemma stepH_ok g c : wf_grid g ->
  loop_step QH (invar g) (deltaH g c) (fun f i => pushH_z g c (pushH_y g c (pushH_x g c f i) i) i).
Proof.
  intros W f i Hi q d j. pose proof (proj1 (proj2 (W D0))) as X0. pose proof (proj1 (proj2 (W D1))) as X1.
  pose proof (proj1 (proj2 (W D2))) as X2.
  unfold pushH_z, pushH_y, pushH_x, fadd. rewrite Hi.
  destruct (qty_eqb QH q) eqn:Eq; [|reflexivity]. apply qty_eqb_eq in Eq. subst q. cbn [andb].
  destruct (v3_eqb i j); [|rewrite !andb_false_r; reflexivity]. rewrite !andb_true_r.
  unfold fget. cbn [qty_eqb andb].
  destruct d; cbn [dim3_eqb]; f_equal; unfold deltaH, curl_plus; cbn [nxt];
    rewrite (Rmult_minus_distr_l (dth g c)), <- !cn_plus by assumption; reflexivity.
Qed.

Lemma vw_ext g f f' q d : (forall i, f q d i = f' q d i) -> forall i, vw g f q d i = vw g f' q d i.
Proof. intros H i. apply H. Qed.

Lemma dminus_ext inv h d u u' i : (forall j, u j = u' j) -> dminus inv h d u i = dminus inv h d u' i.
Proof. intros H. unfold dminus. rewrite !H. reflexivity. Qed.
Lemma dplus_ext inv h d u u' i : (forall j, u j = u' j) -> dplus inv h d u i = dplus inv h d u' i.
Proof. intros H. unfold dplus. rewrite !H. reflexivity. Qed.

Lemma deltaE_others g c : reads_others QE (deltaE g c).
Proof.
  intros f f' d i H. unfold deltaE, curl_minus. rewrite (vw_ext g f f' QJ d) by (intros; apply H; discriminate).
  rewrite !(dminus_ext _ _ _ (vw g f QH _) (vw g f' QH _)) by (intros; apply vw_ext; intros; apply H; discriminate). reflexivity.
Qed.

Lemma deltaH_others g c : reads_others QH (deltaH g c).
Proof.
  intros f f' d i H. unfold deltaH, curl_plus.
  rewrite !(dplus_ext _ _ _ (vw g f QE _) (vw g f' QE _)) by (intros; apply vw_ext; intros; apply H; discriminate). reflexivity.
Qed.

Lemma push_E_in g c f d i : wf_grid g -> within g 1 2 i -> push_E g c f QE d i = f QE d i + deltaE g c f d i.
Proof.
  intros W Hi. unfold push_E. rewrite (loop_fold QE (invar g) (deltaE g c) _ (stepE_ok g c W) (deltaE_others g c)).
  - cbn [qty_eqb]. rewrite (proj2 (existsb_within g 1 2 i W) Hi). reflexivity.
  - apply foreach_bnd_nodup.
  - intros j Hj. apply (foreach_bnd_in g 1 2 j W) in Hj. apply (fnorm_id g 1 2). exact Hj.
Qed.

Lemma push_E_other g c f q d i : wf_grid g -> q <> QE \/ ~ within g 1 2 i -> push_E g c f q d i = f q d i.
Proof.
  intros W Hi. unfold push_E. rewrite (loop_fold QE (invar g) (deltaE g c) _ (stepE_ok g c W) (deltaE_others g c)).
  - destruct (qty_eqb QE q) eqn:Eq; [|reflexivity]. apply qty_eqb_eq in Eq. subst.
    destruct (existsb _ _) eqn:Ex; [|reflexivity]. apply (existsb_within g 1 2 i W) in Ex. destruct Hi; congruence.
  - apply foreach_bnd_nodup.
  - intros j Hj. apply (foreach_bnd_in g 1 2 j W) in Hj. apply (fnorm_id g 1 2). exact Hj.
Qed.

Lemma push_H_in g c f d i : wf_grid g -> within g 2 1 i -> push_H g c f QH d i = f QH d i + deltaH g c f d i.
Proof.
  intros W Hi. unfold push_H. rewrite (loop_fold QH (invar g) (deltaH g c) _ (stepH_ok g c W) (deltaH_others g c)).
  - cbn [qty_eqb]. rewrite (proj2 (existsb_within g 2 1 i W) Hi). reflexivity.
  - apply foreach_bnd_nodup.
  - intros j Hj. apply (foreach_bnd_in g 2 1 j W) in Hj. apply (fnorm_id g 2 1). exact Hj.
Qed.

Lemma push_H_other g c f q d i : wf_grid g -> q <> QH \/ ~ within g 2 1 i -> push_H g c f q d i = f q d i.
Proof.
  intros W Hi. unfold push_H. rewrite (loop_fold QH (invar g) (deltaH g c) _ (stepH_ok g c W) (deltaH_others g c)).
  - destruct (qty_eqb QH q) eqn:Eq; [|reflexivity]. apply qty_eqb_eq in Eq. subst.
    destruct (existsb _ _) eqn:Ex; [|reflexivity]. apply (existsb_within g 2 1 i W) in Ex. destruct Hi; congruence.
  - apply foreach_bnd_nodup.
  - intros j Hj. apply (foreach_bnd_in g 2 1 j W) in Hj. apply (fnorm_id g 2 1). exact Hj.
Qed.

(** ** div curl = 0 *)

Lemma div_curl_plus inv h u i : (forall d, get3 h d <> 0) -> div_plus inv h (curl_plus inv h u) i = 0.
Proof.
  intros Hh. pose proof (Hh D0). pose proof (Hh D1). pose proof (Hh D2).
  unfold div_plus, curl_plus, dplus. cbn [nxt].
  rewrite (shift_shift i D1 D0), (shift_shift i D2 D0), (shift_shift i D2 D1) by discriminate.
  destruct (get3 inv D0), (get3 inv D1), (get3 inv D2); field; auto.
Qed.

Lemma div_curl_minus inv h u i : (forall d, get3 h d <> 0) -> div_minus inv h (curl_minus inv h u) i = 0.
Proof.
  intros Hh. pose proof (Hh D0). pose proof (Hh D1). pose proof (Hh D2).
  unfold div_minus, curl_minus, dminus. cbn [nxt].
  rewrite (shift_shift i D1 D0), (shift_shift i D2 D0), (shift_shift i D2 D1) by discriminate.
  destruct (get3 inv D0), (get3 inv D1), (get3 inv D2); field; auto.
Qed.

Lemma dplus_lin inv h d a b u v i : (get3 h d <> 0) -> dplus inv h d (fun j => a * u j + b * v j) i = a * dplus inv h d u i + b * dplus inv h d v i.
Proof. intros H. unfold dplus. destruct (get3 inv d); [ring|]. field. exact H. Qed.
Lemma dminus_lin inv h d a b u v i : (get3 h d <> 0) -> dminus inv h d (fun j => a * u j + b * v j) i = a * dminus inv h d u i + b * dminus inv h d v i.
Proof. intros H. unfold dminus. destruct (get3 inv d); [ring|]. field. exact H. Qed.

Lemma div_minus_lin inv h a b u v i : (forall d, get3 h d <> 0) ->
  div_minus inv h (fun d j => a * u d j + b * v d j) i = a * div_minus inv h u i + b * div_minus inv h v i.
Proof. intros H. unfold div_minus. rewrite !dminus_lin by apply H. ring. Qed.
Lemma div_plus_lin inv h a b u v i : (forall d, get3 h d <> 0) ->
  div_plus inv h (fun d j => a * u d j + b * v d j) i = a * div_plus inv h u i + b * div_plus inv h v i.
Proof. intros H. unfold div_plus. rewrite !dplus_lin by apply H. ring. Qed.

(** local congruence: only the point and its neighbours matter *)
Lemma div_minus_local inv h u v i : (forall d, u d i = v d i) -> (forall d, get3 inv d = false -> u d (shift i d (-1)) = v d (shift i d (-1))) ->
  div_minus inv h u i = div_minus inv h v i.
Proof.
  intros H0 H1. unfold div_minus, dminus. rewrite !H0.
  destruct (get3 inv D0) eqn:E0; destruct (get3 inv D1) eqn:E1; destruct (get3 inv D2) eqn:E2; rewrite ?(H1 D0 E0), ?(H1 D1 E1), ?(H1 D2 E2); reflexivity.
Qed.
Lemma div_plus_local inv h u v i : (forall d, u d i = v d i) -> (forall d, get3 inv d = false -> u d (shift i d 1) = v d (shift i d 1)) ->
  div_plus inv h u i = div_plus inv h v i.
Proof.
  intros H0 H1. unfold div_plus, dplus. rewrite !H0.
  destruct (get3 inv D0) eqn:E0; destruct (get3 inv D1) eqn:E1; destruct (get3 inv D2) eqn:E2; rewrite ?(H1 D0 E0), ?(H1 D1 E1), ?(H1 D2 E2); reflexivity.
Qed.

Lemma wf_dx g : wf_grid g -> forall d, get3 (dx g) d <> 0.
Proof. intros W d. apply W. Qed.

(** one update on one patch, whatever is in the ghost points *)
Lemma patch_divH g c f i : wf_grid g -> within g 2 0 i ->
  div_plus (invar g) (dx g) (push_H g c f QH) i = div_plus (invar g) (dx g) (f QH) i.
Proof.
  intros W Hi. pose proof (wf_dx g W) as Hh.
  rewrite (div_plus_local _ _ (push_H g c f QH) (fun d j => 1 * f QH d j + - dth g c * curl_plus (invar g) (dx g) (vw g f QE) d j)).
  - rewrite div_plus_lin by exact Hh. rewrite div_curl_plus by exact Hh. ring.
  - intros d. rewrite push_H_in; [unfold deltaH; ring|exact W|]. apply (within_mono g 2 0); [lia|lia|exact Hi].
  - intros d Hd. rewrite push_H_in; [unfold deltaH; ring|exact W|].
    intros e. specialize (Hi e). rewrite get3_shift. destruct (dim3_eqb d e) eqn:E.
    + apply dim3_eqb_eq in E. subst e. rewrite Hd in *. lia.
    + destruct (get3 (invar g) e); lia.
Qed.

Lemma patch_divE g c f i : wf_grid g -> within g 0 2 i ->
  div_minus (invar g) (dx g) (push_E g c f QE) i =
  div_minus (invar g) (dx g) (f QE) i - dth g c * div_minus (invar g) (dx g) (f QJ) i.
Proof.
  intros W Hi. pose proof (wf_dx g W) as Hh.
  assert (HJ : div_minus (invar g) (dx g) (f QJ) i = div_minus (invar g) (dx g) (vw g f QJ) i).
  { apply div_minus_local; intros d; unfold vw; intros; (rewrite (fnorm_id g 1 2); [reflexivity|]).
    - apply (within_mono g 0 2); [lia|lia|exact Hi].
    - intros e. specialize (Hi e). rewrite get3_shift. destruct (dim3_eqb d e) eqn:E.
      + apply dim3_eqb_eq in E. subst e. rewrite H in *. lia.
      + destruct (get3 (invar g) e); lia. }
  rewrite HJ.
  rewrite (div_minus_local _ _ (push_E g c f QE)
    (fun d j => 1 * f QE d j + dth g c * (1 * curl_minus (invar g) (dx g) (vw g f QH) d j + -1 * vw g f QJ d j))).
  - rewrite div_minus_lin by exact Hh.
    rewrite (div_minus_lin _ _ 1 (-1)) by exact Hh. rewrite div_curl_minus by exact Hh. ring.
  - intros d. rewrite push_E_in; [unfold deltaE; ring|exact W|]. apply (within_mono g 0 2); [lia|lia|exact Hi].
  - intros d Hd. rewrite push_E_in; [unfold deltaE; ring|exact W|].
    intros e. specialize (Hi e). rewrite get3_shift. destruct (dim3_eqb d e) eqn:E.
    + apply dim3_eqb_eq in E. subst e. rewrite Hd in *. lia.
    + destruct (get3 (invar g) e); lia.
Qed.
