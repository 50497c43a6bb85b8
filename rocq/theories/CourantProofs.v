From Coq Require Import Reals Lra Psatz.
From Verif Require Import Base OutputModel LoopModel.
(** ** Courant length *)

Local Open Scope R_scope.

Definition inv_sq_sum (invar : V3 bool) (dx : V3 R) : R :=
  (if c0 invar then 0 else 1 / (c0 dx) ^ 2) + (if c1 invar then 0 else 1 / (c1 dx) ^ 2) + (if c2 invar then 0 else 1 / (c2 dx) ^ 2).

Definition all_invar (invar : V3 bool) : Prop := c0 invar = true /\ c1 invar = true /\ c2 invar = true.

Lemma inv_sq_pos x : 0 < x -> 0 < 1 / x ^ 2.
Proof. intros H. apply Rdiv_lt_0_compat; [lra|]. apply pow_lt. exact H. Qed.

Lemma courant_unfold invar dx : courant_length invar dx =
  sqrt (1 / (if Req_EM_T (inv_sq_sum invar dx) 0 then 1 else inv_sq_sum invar dx)).
Proof.
  unfold courant_length, inv_sq_sum. cbn [fold_left get3].
  replace (c0 dx * c0 dx) with (c0 dx ^ 2) by ring. replace (c1 dx * c1 dx) with (c1 dx ^ 2) by ring.
  replace (c2 dx * c2 dx) with (c2 dx ^ 2) by ring.
  destruct (c0 invar), (c1 invar), (c2 invar); repeat rewrite Rplus_0_l; repeat rewrite Rplus_0_r; reflexivity.
Qed.

Lemma courant_square invar dx : (forall d, 0 < get3 dx d) -> ~ all_invar invar ->
  0 < courant_length invar dx /\ courant_length invar dx ^ 2 * inv_sq_sum invar dx = 1.
Proof.
  intros Hdx Hna. pose proof (inv_sq_pos _ (Hdx D0)) as H0. pose proof (inv_sq_pos _ (Hdx D1)) as H1.
  pose proof (inv_sq_pos _ (Hdx D2)) as H2. cbn [get3] in *.
  assert (Hs : 0 < inv_sq_sum invar dx).
  { unfold inv_sq_sum, all_invar in *. destruct (c0 invar), (c1 invar), (c2 invar); try lra. }
  rewrite courant_unfold. destruct (Req_EM_T _ 0); [lra|].
  assert (Hi : 0 < 1 / inv_sq_sum invar dx) by (apply Rdiv_lt_0_compat; lra).
  split; [apply sqrt_lt_R0; exact Hi|]. rewrite <- Rsqr_pow2, Rsqr_sqrt by lra. field. lra.
Qed.

Lemma courant_le invar dx d : (forall d, 0 < get3 dx d) -> get3 invar d = false -> courant_length invar dx <= get3 dx d.
Proof.
  intros Hdx Hd.
  assert (Hna : ~ all_invar invar) by (intros [A [B C]]; destruct d; cbn in Hd; congruence).
  destruct (courant_square invar dx Hdx Hna) as [Hp Hq].
  pose proof (inv_sq_pos _ (Hdx D0)) as H0. pose proof (inv_sq_pos _ (Hdx D1)) as H1.
  pose proof (inv_sq_pos _ (Hdx D2)) as H2. cbn [get3] in *.
  assert (Hle : 1 / get3 dx d ^ 2 <= inv_sq_sum invar dx).
  { unfold inv_sq_sum. destruct d; cbn [get3] in *; rewrite Hd; destruct (c0 invar), (c1 invar), (c2 invar); lra. }
  pose proof (Hdx d) as Hd0. apply Rsqr_incr_0; [|lra|lra]. rewrite !Rsqr_pow2.
  assert (Hm : courant_length invar dx ^ 2 * (1 / get3 dx d ^ 2) <= 1).
  { apply Rle_trans with (courant_length invar dx ^ 2 * inv_sq_sum invar dx); [|lra]. apply Rmult_le_compat_l; [apply pow2_ge_0|exact Hle]. }
  assert (H3 : 0 < get3 dx d ^ 2) by (apply pow_lt; exact Hd0).
  apply (Rmult_le_compat_r (get3 dx d ^ 2)) in Hm; [|lra].
  replace (courant_length invar dx ^ 2 * (1 / get3 dx d ^ 2) * get3 dx d ^ 2) with (courant_length invar dx ^ 2) in Hm by (field; lra).
  lra.
Qed.

(** Growth-free condition of the leap-frog scheme: for every wave vector k the discrete
    dispersion relation sin(w dt / 2)^2 = dt^2 * sum (sin(k_d dx_d/2) / dx_d)^2 has a real
    solution w *)
Definition wave_sum (invar : V3 bool) (dx k : V3 R) : R :=
  (if c0 invar then 0 else (sin (c0 k * c0 dx / 2) / c0 dx) ^ 2) +
  (if c1 invar then 0 else (sin (c1 k * c1 dx / 2) / c1 dx) ^ 2) +
  (if c2 invar then 0 else (sin (c2 k * c2 dx / 2) / c2 dx) ^ 2).

Lemma sin_sq_le a : sin a ^ 2 <= 1.
Proof. pose proof (SIN_bound a). nra. Qed.

Lemma wave_sum_le invar dx k : (forall d, 0 < get3 dx d) -> 0 <= wave_sum invar dx k <= inv_sq_sum invar dx.
Proof.
  intros Hdx. pose proof (Hdx D0) as H0. pose proof (Hdx D1) as H1. pose proof (Hdx D2) as H2. cbn [get3] in *.
  assert (G : forall a x, 0 < x -> 0 <= (sin a / x) ^ 2 <= 1 / x ^ 2).
  { intros a x Hx. split; [apply pow2_ge_0|]. pose proof (sin_sq_le a) as Hs. pose proof (inv_sq_pos x Hx).
    replace ((sin a / x) ^ 2) with (sin a ^ 2 * (1 / x ^ 2)) by (field; lra). nra. }
  pose proof (G (c0 k * c0 dx / 2) _ H0). pose proof (G (c1 k * c1 dx / 2) _ H1). pose proof (G (c2 k * c2 dx / 2) _ H2).
  unfold wave_sum, inv_sq_sum. destruct (c0 invar), (c1 invar), (c2 invar); lra.
Qed.

Lemma courant_stable invar dx k cfl : (forall d, 0 < get3 dx d) -> ~ all_invar invar -> 0 <= cfl <= 1 ->
  exists w, sin (w * (cfl * courant_length invar dx) / 2) ^ 2 = (cfl * courant_length invar dx) ^ 2 * wave_sum invar dx k.
Proof.
  intros Hdx Hna Hc. destruct (courant_square invar dx Hdx Hna) as [Hp Hq]. pose proof (wave_sum_le invar dx k Hdx) as Hw.
  set (L := courant_length invar dx) in *. set (S := inv_sq_sum invar dx) in *. set (W := wave_sum invar dx k) in *.
  assert (HL : 0 < L ^ 2) by (apply pow_lt; exact Hp).
  assert (H1 : L ^ 2 * W <= 1) by (rewrite <- Hq; apply Rmult_le_compat_l; lra).
  assert (H0 : 0 <= L ^ 2 * W) by (apply Rmult_le_pos; lra).
  assert (Hcc : 0 <= cfl ^ 2 <= 1) by nra.
  assert (HX : 0 <= (cfl * L) ^ 2 * W <= 1).
  { replace ((cfl * L) ^ 2 * W) with (cfl ^ 2 * (L ^ 2 * W)) by ring. nra. }
  destruct (Req_dec cfl 0) as [Z0|NZ].
  - exists 0. rewrite Z0. replace (0 * (0 * L) / 2) with 0 by field. rewrite sin_0. ring.
  - exists (2 * asin (sqrt ((cfl * L) ^ 2 * W)) / (cfl * L)).
    replace (2 * asin (sqrt ((cfl * L) ^ 2 * W)) / (cfl * L) * (cfl * L) / 2) with (asin (sqrt ((cfl * L) ^ 2 * W))) by (field; lra).
    rewrite sin_asin.
    + rewrite <- Rsqr_pow2. apply Rsqr_sqrt. lra.
    + split; [pose proof (sqrt_pos ((cfl * L) ^ 2 * W)); lra|]. rewrite <- sqrt_1. apply sqrt_le_1; lra.
Qed.

(** beyond the Courant length the shortest wave has no real frequency *)
Lemma courant_sharp invar dx cfl : (forall d, 0 < get3 dx d) -> ~ all_invar invar -> 1 < cfl ->
  forall w, sin (w * (cfl * courant_length invar dx) / 2) ^ 2 <>
    (cfl * courant_length invar dx) ^ 2 * wave_sum invar dx (v3 (PI / c0 dx) (PI / c1 dx) (PI / c2 dx)).
Proof.
  intros Hdx Hna Hc w. destruct (courant_square invar dx Hdx Hna) as [Hp Hq].
  pose proof (Hdx D0) as H0. pose proof (Hdx D1) as H1. pose proof (Hdx D2) as H2. cbn [get3] in *.
  assert (HW : wave_sum invar dx (v3 (PI / c0 dx) (PI / c1 dx) (PI / c2 dx)) = inv_sq_sum invar dx).
  { unfold wave_sum, inv_sq_sum. cbn [c0 c1 c2].
    replace (PI / c0 dx * c0 dx / 2) with (PI / 2) by (field; lra). replace (PI / c1 dx * c1 dx / 2) with (PI / 2) by (field; lra).
    replace (PI / c2 dx * c2 dx / 2) with (PI / 2) by (field; lra). rewrite sin_PI2.
    f_equal; [f_equal|]; [destruct (c0 invar)|destruct (c1 invar)|destruct (c2 invar)]; try reflexivity; field; lra. }
  rewrite HW. pose proof (sin_sq_le (w * (cfl * courant_length invar dx) / 2)) as Hs.
  replace ((cfl * courant_length invar dx) ^ 2 * inv_sq_sum invar dx) with (cfl ^ 2 * (courant_length invar dx ^ 2 * inv_sq_sum invar dx)) by ring.
  rewrite Hq. nra.
Qed.

Lemma courant_all_invar invar dx : all_invar invar -> courant_length invar dx = 1.
Proof.
  intros [A [B C]]. rewrite courant_unfold. unfold inv_sq_sum. rewrite A, B, C. rewrite !Rplus_0_l.
  destruct (Req_EM_T 0 0); [|lra]. replace (1 / 1) with 1 by field. apply sqrt_1.
Qed.
