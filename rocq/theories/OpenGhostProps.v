(** C33: ghost points at an open boundary. *)
From Coq Require Import Reals Lra.
From Verif Require Import Base FieldModel FieldSpec FieldProofs WallModel WallSpec RadiateProofs.
Local Open Scope R_scope.

(** where component m of E or H is along d, in half cells: E is on the edges and H on the faces of the cells *)
Definition at_half (q : qty) (m d : dim3) (i : V3 Z) : Z :=
  2 * get3 i d + (if Bool.eqb (qty_eqb q QE) (dim3_eqb m d) then 1 else 0).

(** the point is beyond the wall, or, if edge, on it *)
Definition outside (g : fgrid) (s : side) (edge : bool) (q : qty) (m d : dim3) (i : V3 Z) : Prop :=
  match s with
  | Lo => (at_half q m d i < 0)%Z \/ (edge = true /\ at_half q m d i = 0%Z)
  | Hi => (2 * get3 (ldims g) d < at_half q m d i)%Z \/ (edge = true /\ at_half q m d i = (2 * get3 (ldims g) d)%Z)
  end.

Definition set_ghosts (s : side) : fgrid -> dim3 -> qty -> V3 R -> bool -> pf -> pf :=
  match s with Lo => set_lower_ghosts | Hi => set_upper_ghosts end.

Lemma in_range_norm g i a b : wf_grid g -> stored g i -> (forall d, - get3 (ibn g) d <= get3 a d)%Z -> (forall d, get3 b d <= get3 (ldims g) d + get3 (ibn g) d)%Z ->
  forall j, In j (vec_range a b) -> fnorm (invar g) j = j.
Proof.
  intros W Hi Ha Hb j Hj. rewrite in_vec_range in Hj. apply v3_ext. intros d. unfold fnorm. rewrite get3_gen3. destruct (get3 (invar g) d) eqn:E; [|reflexivity].
  destruct (W d) as [_ [_ H]]. rewrite E in H. specialize (Hj d). specialize (Ha d). specialize (Hb d). lia.
Qed.

Lemma qty_eqb_refl q : qty_eqb q q = true. Proof. destruct q; reflexivity. Qed.
Lemma dim3_eqb_refl d : dim3_eqb d d = true. Proof. destruct d; reflexivity. Qed.

Lemma set_points_get g q m v a b f : (forall j, In j (vec_range a b) -> fnorm (invar g) j = j) -> forall q' m' i,
  (q' = q /\ m' = m /\ In i (vec_range a b) -> set_points g q m v a b f q' m' i = v) /\
  (~ (q' = q /\ m' = m /\ In i (vec_range a b)) -> set_points g q m v a b f q' m' i = f q' m' i).
Proof.
  intros Hn q' m' i. unfold set_points.
  assert (G : forall l f, (forall j, In j l -> fnorm (invar g) j = j) ->
    (q' = q /\ m' = m /\ In i l -> fold_left (fun f i => fset (invar g) f q m i v) l f q' m' i = v) /\
    (~ (q' = q /\ m' = m /\ In i l) -> fold_left (fun f i => fset (invar g) f q m i v) l f q' m' i = f q' m' i)).
  { induction l as [|j l IH] using rev_ind; intros f0 Hl; [split; [intros [_ [_ []]]|reflexivity]|].
    rewrite fold_left_app. cbn [fold_left]. destruct (IH f0 ltac:(intros k Hk; apply Hl, in_or_app; now left)) as [I1 I2]. clear IH.
    unfold fset at 1 3. rewrite (Hl j) by (apply in_or_app; right; now left).
    destruct (qty_eqb q q' && dim3_eqb m m' && v3_eqb j i)%bool eqn:E.
    - apply andb_prop in E. destruct E as [E E3]. apply andb_prop in E. destruct E as [E1 E2].
      assert (q' = q) by (destruct q, q'; (reflexivity || discriminate)). assert (m' = m) by (destruct m, m'; (reflexivity || discriminate)). apply v3_eqb_eq in E3. subst.
      split; [reflexivity|]. intros N. exfalso. apply N. split; [reflexivity|]. split; [reflexivity|]. apply in_or_app. right. now left.
    - assert (N : ~ (q' = q /\ m' = m /\ i = j)). { intros [-> [-> ->]]. rewrite qty_eqb_refl, dim3_eqb_refl in E. assert (v3_eqb j j = true) by (apply v3_eqb_eq; reflexivity). rewrite H in E. discriminate. }
      split.
      + intros [A [B C]]. apply in_app_or in C. destruct C as [C|[<-|[]]]; [apply I1; auto|exfalso; apply N; auto].
      + intros A. apply I2. intros [B [C D]]. apply A. split; [exact B|]. split; [exact C|]. apply in_or_app. now left. }
  apply G. exact Hn.
Qed.

Lemma dim_cases (m : dim3) (F : dim3 -> pf -> pf) (P : dim3 -> Prop) q v f i :
  (forall a f, (P a -> F a f q a i = v a) /\ (~ P a -> F a f q a i = f q a i)) -> (forall a f, a <> m -> F a f q m i = f q m i) ->
  (P m -> fold_left (fun f a => F a f) dims3 f q m i = v m) /\ (~ P m -> fold_left (fun f a => F a f) dims3 f q m i = f q m i).
Proof.
  intros HF HN. cbn [dims3 fold_left]. destruct m.
  - rewrite (HN D2) by discriminate. rewrite (HN D1) by discriminate. apply HF.
  - rewrite (HN D2) by discriminate. destruct (HF D1 (F D0 f)) as [A B]. split; [exact A|]. intros N. rewrite B by exact N. apply HN. discriminate.
  - destruct (HF D2 (F D1 (F D0 f))) as [A B]. split; [exact A|]. intros N. rewrite B by exact N. rewrite HN by discriminate. apply HN. discriminate.
Qed.

Lemma layer g q (val : V3 R) (on : dim3 -> bool) a b f m i : wf_grid g -> stored g i ->
  (forall e, - get3 (ibn g) e <= get3 a e)%Z -> (forall e, get3 b e <= get3 (ldims g) e + get3 (ibn g) e)%Z ->
  let f' := fold_left (fun f m => if on m then set_points g q m (get3 val m) a b f else f) dims3 f in
  (on m = true /\ In i (vec_range a b) -> f' q m i = get3 val m) /\ (~ (on m = true /\ In i (vec_range a b)) -> f' q m i = f q m i) /\
  (forall q', q' <> q -> f' q' m i = f q' m i).
Proof.
  intros W Hi Ha Hb f'. pose proof (in_range_norm g i a b W Hi Ha Hb) as Hn. unfold f'.
  destruct (dim_cases m (fun m f => if on m then set_points g q m (get3 val m) a b f else f) (fun m => on m = true /\ In i (vec_range a b)) q (get3 val) f i) as [A B].
  - intros c h. destruct (set_points_get g q c (get3 val c) a b h Hn q c i) as [S1 S2]. destruct (on c); split; intros H.
    + apply S1. tauto.
    + apply S2. tauto.
    + destruct H as [H _]. discriminate.
    + reflexivity.
  - intros c h Hc. destruct (on c); [|reflexivity]. apply (set_points_get g q c (get3 val c) a b h Hn q m i). intros [_ [E _]]. congruence.
  - split; [exact A|]. split; [exact B|]. intros q' Hq. cbn [dims3 fold_left].
    assert (U : forall c h, (if on c then set_points g q c (get3 val c) a b h else h) q' m i = h q' m i).
    { intros c h. destruct (on c); [|reflexivity]. apply (set_points_get g q c (get3 val c) a b h Hn q' m i). intros [E _]. congruence. }
    rewrite !U. reflexivity.
Qed.

Lemma in_layer g d i lo hi : stored g i -> In i (vec_range (set3 (ib g) d lo) (set3 (ie g) d hi)) <-> (lo <= get3 i d < hi)%Z.
Proof.
  intros Hi. rewrite in_vec_range. split.
  - intros H. specialize (H d). rewrite !get3_set3_same in H. exact H.
  - intros H e. destruct (dim3_eqb e d) eqn:E; [apply dim3_eqb_eq in E; subst e; rewrite !get3_set3_same; exact H|].
    rewrite !get3_set3_other by (intros ->; rewrite dim3_eqb_refl in E; discriminate). unfold ib, ie. rewrite !get3_gen3. apply Hi.
Qed.

Lemma bounds_lo g d x e : (- get3 (ibn g) d <= x)%Z -> (- get3 (ibn g) e <= get3 (set3 (ib g) d x) e)%Z.
Proof.
  intros H. destruct (dim3_eqb e d) eqn:E; [apply dim3_eqb_eq in E; subst e; rewrite get3_set3_same; exact H|].
  rewrite get3_set3_other by (intros ->; rewrite dim3_eqb_refl in E; discriminate). unfold ib. rewrite get3_gen3. lia.
Qed.
Lemma bounds_hi g d x e : (x <= get3 (ldims g) d + get3 (ibn g) d)%Z -> (get3 (set3 (ie g) d x) e <= get3 (ldims g) e + get3 (ibn g) e)%Z.
Proof.
  intros H. destruct (dim3_eqb e d) eqn:E; [apply dim3_eqb_eq in E; subst e; rewrite get3_set3_same; exact H|].
  rewrite get3_set3_other by (intros ->; rewrite dim3_eqb_refl in E; discriminate). unfold ie. rewrite get3_gen3. lia.
Qed.
Lemma set3_id {A} (a : V3 A) d : set3 a d (get3 a d) = a.
Proof. destruct a, d; reflexivity. Qed.

(** At an open boundary every stored point of the field which is beyond the wall, and, on request, on it, gets the given value, and
    nothing else changes. *)
Theorem C33_ghosts : forall g s d q val edge f m i, wf_grid g -> get3 (invar g) d = false -> q = QE \/ q = QH -> stored g i ->
  let f' := set_ghosts s g d q val edge f in
  (outside g s edge q m d i -> f' q m i = get3 val m) /\ (~ outside g s edge q m d i -> f' q m i = f q m i) /\
  (forall q', q' <> q -> f' q' m i = f q' m i).
Proof.
  intros g s d q val edge f m i W Hd Hq Hi f'. destruct (W d) as [L [_ Wd]]. rewrite Hd in Wd.
  assert (Ei : ib g = set3 (ib g) d (- get3 (ibn g) d)%Z) by (symmetry; rewrite <- (set3_id (ib g) d) at 2; f_equal; unfold ib; rewrite get3_gen3; reflexivity).
  assert (Ee : ie g = set3 (ie g) d (get3 (ldims g) d + get3 (ibn g) d)%Z) by (symmetry; rewrite <- (set3_id (ie g) d) at 2; f_equal; unfold ie; rewrite get3_gen3; reflexivity).
  pose proof (Hi d) as Hid. unfold f', set_ghosts, outside, at_half. destruct s.
  - unfold set_lower_ghosts. set (f1 := fold_left _ dims3 f).
    destruct (layer g q val (fun _ => true) (set3 (ib g) d (- get3 (ibn g) d)%Z) (set3 (ie g) d 0%Z) f m i W Hi) as [A [B C]]; [intros e; apply bounds_lo; lia|intros e; apply bounds_hi; lia|].
    rewrite <- Ei in A, B, C. fold f1 in A, B, C. rewrite Ei, in_layer in A, B by exact Hi.
    destruct edge; cbn [negb].
    + destruct (layer g q val (fun m => (qty_eqb q QE && negb (dim3_eqb m d)) || (qty_eqb q QH && dim3_eqb m d))%bool (set3 (ib g) d 0%Z) (set3 (ie g) d 1%Z) f1 m i W Hi) as [A' [B' C']]; [intros e; apply bounds_lo; lia|intros e; apply bounds_hi; lia|].
      rewrite in_layer in A', B' by exact Hi. split; [|split].
      * intros H. destruct (Z_lt_dec (get3 i d) 0) as [Hn|Hn]; [rewrite B' by (intros [_ ?]; lia); apply A; split; [reflexivity|lia]|].
        apply A'. destruct Hq as [-> | ->]; destruct (dim3_eqb m d); cbn [qty_eqb negb andb orb Bool.eqb] in H |- *; try (split; [reflexivity|lia]); exfalso; destruct H as [H|[_ H]]; lia.
      * intros H. rewrite B'; [apply B; intros [_ ?]; apply H; left; destruct (Bool.eqb _ _); lia|].
        intros [H1 H2]. apply H. right. split; [reflexivity|]. destruct Hq as [-> | ->]; destruct (dim3_eqb m d); cbn [qty_eqb negb andb orb Bool.eqb] in H1 |- *; try discriminate; lia.
      * intros q' Hq'. rewrite C', C by exact Hq'. reflexivity.
    + split; [|split].
      * intros [H|[H _]]; [|discriminate]. apply A. split; [reflexivity|]. destruct (Bool.eqb _ _) in H; lia.
      * intros H. apply B. intros [_ ?]. apply H. left. destruct (Bool.eqb _ _); lia.
      * exact C.
  - unfold set_upper_ghosts. set (n := get3 (ldims g) d) in *. set (f1 := fold_left _ dims3 f).
    destruct (layer g q val (fun _ => true) (set3 (ib g) d (n + 1)%Z) (set3 (ie g) d (n + get3 (ibn g) d)%Z) f m i W Hi) as [A [B C]]; [intros e; apply bounds_lo; lia|intros e; apply bounds_hi; lia|].
    rewrite <- Ee in A, B, C. fold f1 in A, B, C. rewrite Ee, in_layer in A, B by exact Hi.
    destruct (layer g q val (fun m => ((qty_eqb q QE && dim3_eqb m d) || (qty_eqb q QH && negb (dim3_eqb m d)) || edge)%bool) (set3 (ib g) d n) (set3 (ie g) d (n + 1)%Z) f1 m i W Hi) as [A' [B' C']]; [intros e; apply bounds_lo; lia|intros e; apply bounds_hi; lia|].
    rewrite in_layer in A', B' by exact Hi. split; [|split].
    + intros H. destruct (Z_lt_dec n (get3 i d)) as [Hn|Hn]; [rewrite B' by (intros [_ ?]; lia); apply A; split; [reflexivity|lia]|].
      apply A'. destruct Hq as [-> | ->], edge; destruct (dim3_eqb m d); cbn [qty_eqb negb andb orb Bool.eqb] in H |- *; try (split; [reflexivity|lia]); exfalso; destruct H as [H|[H H0]]; try discriminate H; lia.
    + intros H. rewrite B'; [apply B; intros [_ ?]; apply H; left; destruct (Bool.eqb _ _); lia|].
      intros [H1 H2]. apply H. destruct Hq as [-> | ->], edge; destruct (dim3_eqb m d); cbn [qty_eqb negb andb orb Bool.eqb] in H1 |- *; try discriminate; lia || (right; split; [reflexivity|lia]).
    + intros q' Hq'. rewrite C', C by exact Hq'. reflexivity.
Qed.
Print Assumptions C33_ghosts.

(** a yz run: the upper y side, E_x in the second ghost layer, on the wall and next to it *)
Definition ex_og : fgrid := FGrid (v3 1 8 8)%Z (v3 0 2 2)%Z (v3 1 (1 / 4) (1 / 4)) (1 / 8) (v3 true false false).
Example ex_C33_ghosts : wf_grid ex_og /\ stored ex_og (v3 0 9 3)%Z /\ outside ex_og Hi false QE D0 D1 (v3 0 9 3)%Z /\
  ~ outside ex_og Hi false QE D0 D1 (v3 0 8 3)%Z /\ outside ex_og Hi false QE D1 D1 (v3 0 8 3)%Z /\ outside ex_og Lo true QE D0 D1 (v3 0 0 3)%Z.
Proof.
  split; [intros d; destruct d; cbn; repeat split; try lia; lra|]. split; [intros d; destruct d; cbn; lia|]. cbn. split; [left; lia|]. split; [intros [?|[? ?]]; [lia|discriminate]|]. split; [left; lia|right; split; [reflexivity|lia]].
Qed.
