From Coq Require Import Reals Lra Psatz.
From Verif Require Import Base PushModel PushSpec.
Local Open Scope R_scope.

Lemma gamma_pos p : 1 <= gamma p.
Proof.
  unfold gamma, dot. rewrite <- sqrt_1 at 1. apply sqrt_le_1_alt.
  pose proof (Rle_0_sqr (c0 p)). pose proof (Rle_0_sqr (c1 p)). pose proof (Rle_0_sqr (c2 p)). unfold Rsqr in *. lra.
Qed.

Lemma gamma_sq p : gamma p * gamma p = 1 + dot p p.
Proof.
  unfold gamma. apply sqrt_sqrt. unfold dot. pose proof (Rle_0_sqr (c0 p)). pose proof (Rle_0_sqr (c1 p)). pose proof (Rle_0_sqr (c2 p)). unfold Rsqr in *. lra.
Qed.

Lemma rsqrt_gamma p : rsqrt (1 + sqr (c0 p) + sqr (c1 p) + sqr (c2 p)) = / gamma p.
Proof. unfold rsqrt, gamma, dot, sqr. do 2 f_equal. ring. Qed.

Lemma sq_nonneg x : 0 <= x * x.
Proof. pose proof (Rle_0_sqr x). unfold Rsqr in *. lra. Qed.

Lemma tau_pos x y z : 0 < 1 + sqr x + sqr y + sqr z.
Proof. unfold sqr. pose proof (sq_nonneg x). pose proof (sq_nonneg y). pose proof (sq_nonneg z). lra. Qed.

(** the update solves the Boris equation *)
Lemma push_p_boris p E H dq : boris p E H (push_p p E H dq) dq.
Proof.
  unfold boris. cbv zeta. set (pm := vplus p (vscale dq E)).
  unfold push_p. cbv zeta.
  replace (c0 p + dq * c0 E) with (c0 pm) by reflexivity. replace (c1 p + dq * c1 E) with (c1 pm) by reflexivity.
  replace (c2 p + dq * c2 E) with (c2 pm) by reflexivity. rewrite rsqrt_gamma.
  set (r := dq * / gamma pm). replace (dq / gamma pm) with r by reflexivity. clearbody r pm.
  set (x := c0 H * r). set (y := c1 H * r). set (z := c2 H * r).
  pose proof (tau_pos x y z) as T.
  destruct pm as [a b c]. unfold vplus, vscale, cross, gen3. cbn [c0 c1 c2 get3].
  f_equal; cbn [c0 c1 c2].
  - replace (r * (_ * c2 H - _ * c1 H)) with
      ((((2 * x * y - 2 * z) * a + (1 - sqr x + sqr y - sqr z) * b + (2 * y * z + 2 * x) * c) * (1 / (1 + sqr x + sqr y + sqr z)) + b) * z -
       (((2 * x * z + 2 * y) * a + (2 * y * z - 2 * x) * b + (1 - sqr x - sqr y + sqr z) * c) * (1 / (1 + sqr x + sqr y + sqr z)) + c) * y)
      by (unfold z, y; ring).
    unfold sqr in *. field. lra.
  - replace (r * (_ * c0 H - _ * c2 H)) with
      ((((2 * x * z + 2 * y) * a + (2 * y * z - 2 * x) * b + (1 - sqr x - sqr y + sqr z) * c) * (1 / (1 + sqr x + sqr y + sqr z)) + c) * x -
       (((1 + sqr x - sqr y - sqr z) * a + (2 * x * y + 2 * z) * b + (2 * x * z - 2 * y) * c) * (1 / (1 + sqr x + sqr y + sqr z)) + a) * z)
      by (unfold x, z; ring).
    unfold sqr in *. field. lra.
  - replace (r * (_ * c1 H - _ * c0 H)) with
      ((((1 + sqr x - sqr y - sqr z) * a + (2 * x * y + 2 * z) * b + (2 * x * z - 2 * y) * c) * (1 / (1 + sqr x + sqr y + sqr z)) + a) * y -
       (((2 * x * y - 2 * z) * a + (1 - sqr x + sqr y - sqr z) * b + (2 * y * z + 2 * x) * c) * (1 / (1 + sqr x + sqr y + sqr z)) + b) * x)
      by (unfold x, y; ring).
    unfold sqr in *. field. lra.
Qed.

(** consequences of the Boris equation alone *)
Lemma dot_comm a b : dot a b = dot b a.
Proof. unfold dot. ring. Qed.
Lemma dot_plus a b c : dot (vplus a b) c = dot a c + dot b c.
Proof. unfold dot, vplus, gen3. cbn. ring. Qed.
Lemma dot_scale s a c : dot (vscale s a) c = s * dot a c.
Proof. unfold dot, vscale, gen3. cbn. ring. Qed.
Lemma dot_cross a b : dot (cross a b) a = 0.
Proof. unfold dot, cross. cbn. ring. Qed.

Lemma rotation_norm pm pp H c : vplus pp (vscale (-1) pm) = vscale c (cross (vplus pp pm) H) -> dot pp pp = dot pm pm.
Proof.
  intros X. assert (Y : dot (vplus pp (vscale (-1) pm)) (vplus pp pm) = 0) by (rewrite X, dot_scale, dot_cross; ring).
  rewrite dot_plus, dot_scale in Y. rewrite (dot_comm pp), (dot_comm pm), !dot_plus in Y. rewrite (dot_comm pm pp) in Y. lra.
Qed.

Lemma push_p_energy p E H dq :
  let pm := vplus p (vscale dq E) in let pp := vplus (push_p p E H dq) (vscale (- dq) E) in dot pp pp = dot pm pm.
Proof. cbv zeta. exact (rotation_norm _ _ H _ (push_p_boris p E H dq)). Qed.

Lemma push_p_noE p H dq : dot (push_p p (v3 0 0 0) H dq) (push_p p (v3 0 0 0) H dq) = dot p p.
Proof.
  pose proof (push_p_energy p (v3 0 0 0) H dq) as X. cbv zeta in X.
  assert (Z : forall q s, vplus q (vscale s (v3 0 0 0)) = q) by (intros [a b c] s; unfold vplus, vscale, gen3; cbn; f_equal; ring).
  rewrite !Z in X. exact X.
Qed.

Lemma push_p_noH p E dq : push_p p E (v3 0 0 0) dq = vplus p (vscale (2 * dq) E).
Proof.
  unfold push_p, vplus, vscale, gen3, sqr. cbn [c0 c1 c2 get3]. rewrite !Rmult_0_l.
  replace (1 / (1 + 0 + 0 + 0)) with 1 by field. f_equal; ring.
Qed.

(** ** Velocity *)

Lemma calc_v_gamma u : calc_v u = vscale (/ gamma u) u.
Proof.
  unfold calc_v. rewrite rsqrt_gamma. unfold vscale, gen3. cbn. f_equal; ring.
Qed.

Lemma calc_v_speed u : dot (calc_v u) (calc_v u) = 1 - / (gamma u * gamma u).
Proof.
  rewrite calc_v_gamma, dot_scale, dot_comm, dot_scale. pose proof (gamma_pos u) as G. pose proof (gamma_sq u) as S.
  replace (dot u u) with (gamma u * gamma u - 1) by lra. field. lra.
Qed.

Lemma calc_v_lt_1 u : 0 <= dot (calc_v u) (calc_v u) < 1.
Proof.
  split.
  - unfold dot. pose proof (sq_nonneg (c0 (calc_v u))). pose proof (sq_nonneg (c1 (calc_v u))). pose proof (sq_nonneg (c2 (calc_v u))). lra.
  - rewrite calc_v_speed. pose proof (gamma_pos u). assert (0 < gamma u * gamma u) by (apply Rmult_lt_0_compat; lra).
    apply Rinv_0_lt_compat in H0. lra.
Qed.

Lemma calc_v_comp u d : Rabs (get3 (calc_v u) d) < 1.
Proof.
  destruct (calc_v_lt_1 u) as [_ H]. unfold dot in H.
  pose proof (sq_nonneg (c0 (calc_v u))). pose proof (sq_nonneg (c1 (calc_v u))). pose proof (sq_nonneg (c2 (calc_v u))).
  assert (B : forall a, a * a < 1 -> Rabs a < 1) by (intros a Ha; apply Rabs_def1; nra).
  apply B. destruct d; cbn [get3]; lra.
Qed.

Lemma push_x_get invar dt f x v d : get3 (push_x invar dt f x v) d = if get3 invar d then get3 x d else get3 x d + f * dt * get3 v d.
Proof. unfold push_x. destruct invar as [[] [] []]; destruct d; reflexivity. Qed.

Lemma advance_pos invar dt x p E H dq d : 0 < dt ->
  let x' := fst (advance invar dt x p E H dq) in
  (get3 invar d = true -> get3 x' d = get3 x d) /\ (get3 invar d = false -> Rabs (get3 x' d - get3 x d) < dt).
Proof.
  intros Hdt. cbv zeta. unfold advance. cbn [fst]. rewrite push_x_get. split; intros ->; [reflexivity|].
  replace (get3 x d + 1 * dt * get3 (calc_v (push_p p E H dq)) d - get3 x d) with (dt * get3 (calc_v (push_p p E H dq)) d) by ring.
  rewrite Rabs_mult, (Rabs_right dt) by lra. pose proof (calc_v_comp (push_p p E H dq) d).
  pose proof (Rmult_lt_compat_l dt _ _ Hdt H0). lra.
Qed.

(** the distance moved, in all directions together *)
Lemma advance_dist dt x p E H dq : 0 < dt ->
  let x' := fst (advance (v3 false false false) dt x p E H dq) in
  let s := vplus x' (vscale (-1) x) in dot s s < dt * dt.
Proof.
  intros Hdt. cbv zeta. set (v := calc_v (push_p p E H dq)).
  assert (S : vplus (fst (advance (v3 false false false) dt x p E H dq)) (vscale (-1) x) = vscale dt v).
  { apply v3_ext. intros d. unfold vplus, vscale. rewrite !get3_gen3. unfold advance. cbn [fst]. rewrite push_x_get. fold v.
    destruct d; cbn [get3 c0 c1 c2]; ring. }
  rewrite S, dot_scale, dot_comm, dot_scale. destruct (calc_v_lt_1 (push_p p E H dq)) as [A B]. fold v in A, B.
  assert (0 < dt * dt) by (apply Rmult_lt_0_compat; assumption). pose proof (Rmult_lt_compat_l _ _ _ H0 B). lra.
Qed.

(** the Boris equation has one solution *)
Lemma dot_zero w : dot w w = 0 -> w = v3 0 0 0.
Proof.
  destruct w as [a b c]. unfold dot. cbn. intros H. pose proof (sq_nonneg a). pose proof (sq_nonneg b). pose proof (sq_nonneg c).
  assert (Z : forall x, x * x = 0 -> x = 0) by (intros x X; apply Rmult_integral in X; tauto).
  f_equal; apply Z; lra.
Qed.

Lemma rotation_unique pm p1 p2 H c :
  vplus p1 (vscale (-1) pm) = vscale c (cross (vplus p1 pm) H) -> vplus p2 (vscale (-1) pm) = vscale c (cross (vplus p2 pm) H) -> p1 = p2.
Proof.
  intros X1 X2. set (w := vplus p1 (vscale (-1) p2)).
  assert (Hw : w = vscale c (cross w H)).
  { apply v3_ext. intros d. apply (f_equal (fun v => get3 v d)) in X1. apply (f_equal (fun v => get3 v d)) in X2.
    unfold w, vplus, vscale, cross in *. rewrite ?get3_gen3 in *. destruct d; cbn [get3 c0 c1 c2 gen3] in *; lra. }
  assert (Z : w = v3 0 0 0).
  { apply dot_zero. rewrite Hw at 1. rewrite dot_scale. rewrite (dot_cross w H). ring. }
  apply v3_ext. intros d. apply (f_equal (fun v => get3 v d)) in Z. unfold w, vplus, vscale in Z. rewrite !get3_gen3 in Z.
  destruct d; cbn [get3 c0 c1 c2] in *; lra.
Qed.

Lemma vplus_cancel p q s E : vplus p (vscale s E) = vplus q (vscale s E) -> p = q.
Proof.
  intros H. apply v3_ext. intros d. apply (f_equal (fun v => get3 v d)) in H. unfold vplus, vscale in H. rewrite !get3_gen3 in H. lra.
Qed.

Lemma push_p_unique p E H dq p' : boris p E H p' dq <-> p' = push_p p E H dq.
Proof.
  split; [|intros ->; apply push_p_boris]. intros X. pose proof (push_p_boris p E H dq) as Y. unfold boris in X, Y. cbv zeta in X, Y.
  eapply vplus_cancel. eapply rotation_unique; [exact X|exact Y].
Qed.
