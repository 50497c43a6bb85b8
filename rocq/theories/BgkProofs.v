(** Cube roots, Cardano's formula for the spike, and the derivative and the limits of the distribution function. *)
From Coq Require Import Reals Lra Psatz.
From Coquelicot Require Import Coquelicot.
From Verif Require Import Base InputModel TableModel BgkModel BgkSpec.
Local Open Scope R_scope.

Lemma cbrt_cube x : cbrt x * cbrt x * cbrt x = x.
Proof.
  assert (P : forall y, 0 < y -> Rpower y (/ 3) * Rpower y (/ 3) * Rpower y (/ 3) = y).
  { intros y Hy. rewrite <- !Rpower_plus. replace (/ 3 + / 3 + / 3) with 1 by field. apply Rpower_1, Hy. }
  unfold cbrt. destruct (Rlt_dec 0 x) as [H|H]; [apply P, H|]. destruct (Rlt_dec x 0) as [H1|H1]; [|lra].
  specialize (P (- x) ltac:(lra)). set (r := Rpower (- x) (/ 3)) in *. replace (- r * - r * - r) with (- (r * r * r)) by ring. lra.
Qed.

Lemma cube_inj x y : x * x * x = y * y * y -> x = y.
Proof. intros H. assert (E : (x - y) * (x * x + x * y + y * y) = 0) by (ring_simplify; lra). apply Rmult_integral in E. destruct E as [E|E]; [lra|].
  assert (S1 := Rle_0_sqr (x + y / 2)). assert (S2 := Rle_0_sqr y). unfold Rsqr in *. assert (Y : y * y = 0) by lra. assert (y = 0) by (apply Rmult_integral in Y; tauto). subst y. assert (X : x * x = 0) by lra. apply Rmult_integral in X. tauto. Qed.

Lemma cube_pos x : 0 < x * x * x -> 0 < x.
Proof. intros H. destruct (Rlt_le_dec 0 x); [assumption|]. exfalso. assert (0 <= (- x) * (- x) * (- x)) by (apply Rmult_le_pos; [apply Rmult_le_pos|]; lra). lra. Qed.

Lemma cbrt_mul x y : cbrt x * cbrt y = cbrt (x * y).
Proof. apply cube_inj. rewrite cbrt_cube. transitivity ((cbrt x * cbrt x * cbrt x) * (cbrt y * cbrt y * cbrt y)); [ring|]. rewrite !cbrt_cube. reflexivity. Qed.

(** Cardano *)
Lemma cardano p t : 0 <= t * (2 * (p * p * p + t) - t) ->
  let q := p * p * p + t in let s := sqrt (t * (2 * q - t)) in let x := cbrt (q + s) + cbrt (q - s) + p in x * x * x - 3 * p * (x * x) = 2 * t.
Proof.
  intros HS q s x. assert (S2 : s * s = t * (2 * q - t)) by (apply sqrt_sqrt; exact HS).
  assert (UV : cbrt (q + s) * cbrt (q - s) = p * p).
  { rewrite cbrt_mul. apply cube_inj. rewrite cbrt_cube. replace ((q + s) * (q - s)) with (q * q - s * s) by ring. rewrite S2. unfold q. ring. }
  assert (U := cbrt_cube (q + s)). assert (V := cbrt_cube (q - s)). unfold x. set (u := cbrt (q + s)) in *. set (v := cbrt (q - s)) in *.
  transitivity (u * u * u + v * v * v + 3 * (u * v) * (u + v) - 3 * (p * p) * (u + v) - 2 * (p * p * p)); [ring|]. rewrite UV, U, V. unfold q. ring.
Qed.

Lemma spike_value B k beta : 0 < k -> B <> 0 -> exists r, getSpikeSize B k beta = Some (r * beta) /\ 4 * k * B * (r * r * r) = 45 / 10 * (1 + 8 * k * (r * r)) /\ 0 < B * r.
Proof.
  intros HK HB. unfold getSpikeSize. assert (HA : 4 * k * B <> 0) by (apply Rmult_integral_contrapositive; split; lra). destruct (Req_EM_T (4 * k * B) 0); [contradiction|].
  set (p := - (-8 * (45 / 10) * k) / (3 * (4 * k * B))). set (t := - - (45 / 10) / (2 * (4 * k * B))).
  assert (Ep : p * B = 3) by (unfold p; field; lra). assert (Et : t * (4 * k * B) = 45 / 20) by (unfold t; field; lra). clearbody p t.
  assert (HP : 0 <= t * (2 * (p * p * p + t) - t)).
  { replace (2 * (p * p * p + t) - t) with (2 * (p * p * p) + t) by ring. destruct (Rlt_le_dec 0 B) as [C|C].
    - assert (0 < p) by (apply Rmult_lt_reg_r with B; lra). assert (0 < 4 * k * B) by (apply Rmult_lt_0_compat; lra). assert (0 < t) by (apply Rmult_lt_reg_r with (4 * k * B); lra).
      apply Rmult_le_pos; [lra|]. assert (0 < p * p * p) by (repeat apply Rmult_lt_0_compat; lra). lra.
    - assert (0 < - p) by (apply Rmult_lt_reg_r with (- B); lra). assert (0 < 4 * k * - B) by (apply Rmult_lt_0_compat; lra). assert (0 < - t) by (apply Rmult_lt_reg_r with (4 * k * - B); lra).
      replace (t * (2 * (p * p * p) + t)) with ((- t) * (2 * ((- p) * (- p) * (- p)) + - t)) by ring. apply Rmult_le_pos; [lra|]. assert (0 < (- p) * (- p) * (- p)) by (repeat apply Rmult_lt_0_compat; lra). lra. }
  destruct (Rlt_dec (t * (2 * (p * p * p + t) - t)) 0); [lra|]. eexists. split; [reflexivity|].
  assert (K := cardano p t HP). cbv zeta in K. set (x := cbrt _ + cbrt _ + p) in *.
  assert (E : 4 * k * B * (x * x * x) = 45 / 10 * (1 + 8 * k * (x * x))).
  { replace (x * x * x) with (3 * p * (x * x) + 2 * t) by lra. transitivity (4 * k * 3 * (p * B) * (x * x) + 2 * (t * (4 * k * B))); [ring|]. rewrite Ep, Et. field. }
  split; [exact E|]. assert (0 < 4 * k * B * (x * x * x)) by (rewrite E; assert (0 <= k * (x * x)) by (apply Rmult_le_pos; [lra|nra]); lra).
  destruct (Rlt_le_dec 0 (B * x)) as [C|C]; [exact C|exfalso]. assert (0 <= (- (B * x)) * (4 * k * (x * x))) by (apply Rmult_le_pos; [lra|]; apply Rmult_le_pos; [lra|nra]). nra.
Qed.

(** the mean of the second Gaussian grows with the radius *)
Lemma mean_grows k B r r' : 0 < k -> 0 < B -> 0 <= r -> r < r' -> 4 * k * B * (r * r * r) / (1 + 8 * k * (r * r)) < 4 * k * B * (r' * r' * r') / (1 + 8 * k * (r' * r')).
Proof.
  intros HK HB H0 H. assert (D : forall x, 0 < 1 + 8 * k * (x * x)) by (intros x; assert (0 <= k * (x * x)) by (apply Rmult_le_pos; [lra|nra]); lra).
  apply Rmult_lt_reg_r with ((1 + 8 * k * (r * r)) * (1 + 8 * k * (r' * r'))); [apply Rmult_lt_0_compat; apply D|].
  assert (D1 := D r). assert (D2 := D r'). replace (4 * k * B * (r * r * r) / (1 + 8 * k * (r * r)) * ((1 + 8 * k * (r * r)) * (1 + 8 * k * (r' * r')))) with (4 * k * B * (r * r * r * (1 + 8 * k * (r' * r')))) by (field; lra).
  replace (4 * k * B * (r' * r' * r') / (1 + 8 * k * (r' * r')) * ((1 + 8 * k * (r * r)) * (1 + 8 * k * (r' * r')))) with (4 * k * B * (r' * r' * r' * (1 + 8 * k * (r * r)))) by (field; lra).
  apply Rmult_lt_compat_l; [repeat apply Rmult_lt_0_compat; lra|].
  assert (C3 : r * r * r < r' * r' * r'). { assert (0 < (r' - r) * (r' * r' + r' * r + r * r)) by (apply Rmult_lt_0_compat; [lra|]; assert (0 < r' * r') by (apply Rmult_lt_0_compat; lra); assert (0 <= r' * r) by (apply Rmult_le_pos; lra); assert (0 <= r * r) by nra; lra). lra. }
  assert (0 <= (k * (r * r)) * (r' * r') * (r' - r)) by (repeat apply Rmult_le_pos; lra). lra.
Qed.

(** ** The distribution function *)
Lemma gamma_pos k rho : 0 <= k -> 1 <= gamma k rho.
Proof. intros H. unfold gamma. assert (0 <= k * (rho * rho)) by (apply Rmult_le_pos; [lra|nra]). lra. Qed.

Lemma alpha_pos k h0 A rho : 0 <= k -> h0 < 1 -> 0 < alpha k h0 A rho.
Proof.
  intros HK HH. unfold alpha. assert (G := gamma_pos k rho HK). assert (S1 : 1 <= sqrt (gamma k rho)) by (rewrite <- sqrt_1; apply sqrt_le_1_alt; exact G).
  set (E := exp _). assert (E0 : 0 < E) by apply exp_pos. assert (E1 : E <= 1).
  { rewrite <- exp_0. unfold E. assert (X : -4 * k * (A * rho * (A * rho)) / gamma k rho <= 0); [|destruct X as [X|X]; [left; apply exp_increasing, X|rewrite X; right; reflexivity]].
    unfold Rdiv. assert (0 <= k * (A * rho * (A * rho))) by (apply Rmult_le_pos; [lra|nra]). assert (0 < / gamma k rho) by (apply Rinv_0_lt_compat; lra). nra. }
  assert (I0 : 0 < / sqrt (gamma k rho) * E <= 1). { assert (0 < / sqrt (gamma k rho) <= 1) by (split; [apply Rinv_0_lt_compat; lra|rewrite <- Rinv_1; apply Rinv_le_contravar; lra]). split; [apply Rmult_lt_0_compat; lra|nra]. }
  unfold Rdiv. rewrite Rmult_assoc. nra.
Qed.

(** the exponents add up to energy and angular momentum *)
Lemma exponents k A rho v : 0 <= k ->
  exp (- 4 * k * ((A * rho) * (A * rho)) / gamma k rho) * exp (- (gamma k rho * ((v - mean1 k A rho) * (v - mean1 k A rho)) / 2)) = exp (- (v * v) / 2) * exp (- 4 * k * ((rho * (v - A)) * (rho * (v - A)))).
Proof. intros HK. rewrite <- !exp_plus. f_equal. assert (G := gamma_pos k rho HK). unfold mean1. unfold gamma in *. field. lra. Qed.

Lemma tends_up_affine f l a b : 0 < a -> tends_up f l -> tends_up (fun x => f (a * x + b)) l.
Proof. intros Ha H eps He. destruct (H eps He) as (M & K). exists ((M - b) / a). intros x Hx. apply K. apply Rmult_lt_compat_r with (r := a) in Hx; [|exact Ha]. unfold Rdiv in Hx. rewrite Rmult_assoc, Rinv_l in Hx by lra. lra. Qed.

Lemma tends_down_affine f l a b : 0 < a -> tends_down f l -> tends_down (fun x => f (a * x + b)) l.
Proof. intros Ha H eps He. destruct (H eps He) as (M & K). exists ((M - b) / a). intros x Hx. apply K. apply Rmult_lt_compat_r with (r := a) in Hx; [|exact Ha]. unfold Rdiv in Hx. rewrite Rmult_assoc, Rinv_l in Hx by lra. lra. Qed.

Lemma comb_near a b x y l m eps : 0 < eps -> Rabs (x - l) < eps / (2 * (Rabs a + 1)) -> Rabs (y - m) < eps / (2 * (Rabs b + 1)) -> Rabs (a * x + b * y - (a * l + b * m)) < eps.
Proof.
  intros He H1 H2. replace (a * x + b * y - (a * l + b * m)) with (a * (x - l) + b * (y - m)) by ring. eapply Rle_lt_trans; [apply Rabs_triang|]. rewrite !Rabs_mult.
  assert (K : forall c d, Rabs d < eps / (2 * (Rabs c + 1)) -> Rabs c * Rabs d < eps / 2).
  { intros c d H. assert (C0 := Rabs_pos c). assert (D0 := Rabs_pos d). apply Rmult_lt_compat_r with (r := Rabs c + 1) in H; [|lra]. replace (eps / (2 * (Rabs c + 1)) * (Rabs c + 1)) with (eps / 2) in H by (field; lra). nra. }
  specialize (K a _ H1) as K1. specialize (K b _ H2) as K2. lra.
Qed.

Lemma small_pos c eps : 0 < eps -> 0 < eps / (2 * (Rabs c + 1)).
Proof. intros H. apply Rdiv_lt_0_compat; [exact H|]. pose proof (Rabs_pos c). lra. Qed.

Lemma tends_up_comb f g a b l m : tends_up f l -> tends_up g m -> tends_up (fun x => a * f x + b * g x) (a * l + b * m).
Proof.
  intros Hf Hg eps He. destruct (Hf _ (small_pos a eps He)) as (M1 & K1). destruct (Hg _ (small_pos b eps He)) as (M2 & K2).
  exists (Rmax M1 M2). intros x Hx. apply comb_near; [exact He|apply K1|apply K2]; eapply Rle_lt_trans; [|exact Hx| |exact Hx]; [apply Rmax_l|apply Rmax_r].
Qed.

Lemma tends_down_comb f g a b l m : tends_down f l -> tends_down g m -> tends_down (fun x => a * f x + b * g x) (a * l + b * m).
Proof.
  intros Hf Hg eps He. destruct (Hf _ (small_pos a eps He)) as (M1 & K1). destruct (Hg _ (small_pos b eps He)) as (M2 & K2).
  exists (Rmin M1 M2). intros x Hx. apply comb_near; [exact He|apply K1|apply K2]; eapply Rlt_le_trans; [exact Hx| |exact Hx|]; [apply Rmin_l|apply Rmin_r].
Qed.

Lemma tends_up_ext f g l : (forall x, f x = g x) -> tends_up f l -> tends_up g l.
Proof. intros E H eps He. destruct (H eps He) as (M & K). exists M. intros x Hx. rewrite <- E. apply K, Hx. Qed.
Lemma tends_down_ext f g l : (forall x, f x = g x) -> tends_down f l -> tends_down g l.
Proof. intros E H eps He. destruct (H eps He) as (M & K). exists M. intros x Hx. rewrite <- E. apply K, Hx. Qed.
Lemma tends_up_plus f l c : tends_up f l -> tends_up (fun x => c + f x) (c + l).
Proof. intros H eps He. destruct (H eps He) as (M & K). exists M. intros x Hx. replace (c + f x - (c + l)) with (f x - l) by ring. apply K, Hx. Qed.
Lemma tends_down_plus f l c : tends_down f l -> tends_down (fun x => c + f x) (c + l).
Proof. intros H eps He. destruct (H eps He) as (M & K). exists M. intros x Hx. replace (c + f x - (c + l)) with (f x - l) by ring. apply K, Hx. Qed.

(** the function, with arguments as multiples of the velocity *)
Definition cdf_form (erf : R -> R) (beta k h0 A rho v : R) : R :=
  let al := alpha k h0 A rho in let s := sqrt (gamma k rho) in
  1 / 2 + ((/ (2 * al)) * erf (/ (beta * sqrt 2) * v + 0) + ((1 - / al) / 2) * erf (s / (beta * sqrt 2) * v + - (s * mean1 k A rho / sqrt 2))).

Lemma cdf_form_eq erf g t v rho A : 0 < g_beta g -> 0 <= g_k g -> g_h0 g < 1 -> A_phi g t rho = Done A ->
  v_phi_cdf erf g t v rho = Done (cdf_form erf (g_beta g) (g_k g) (g_h0 g) (A / g_beta g) (rho / g_beta g) v).
Proof.
  intros HB HK HH HA. unfold v_phi_cdf. rewrite HA. cbn [bind]. f_equal. unfold cdf_form. assert (AP := alpha_pos (g_k g) (g_h0 g) (A / g_beta g) (rho / g_beta g) HK HH). assert (G := gamma_pos (g_k g) (rho / g_beta g) HK).
  set (al := alpha _ _ _ _) in *. set (m := mean1 _ _ _). set (s := sqrt (gamma _ _)). assert (S0 : 0 < s) by (apply sqrt_lt_R0; lra). assert (T0 : 0 < sqrt 2) by (apply sqrt_lt_R0; lra).
  replace ((v / g_beta g - 0) / (1 * sqrt 2)) with (/ (g_beta g * sqrt 2) * v + 0) by (field; lra). replace ((v / g_beta g - m) / (1 / s * sqrt 2)) with (s / (g_beta g * sqrt 2) * v + - (s * m / sqrt 2)) by (field; lra).
  field. lra.
Qed.

Lemma cdf_form_derive erf c beta k h0 A rho v : 0 < beta -> 0 <= k -> h0 < 1 -> (forall x, derivable_pt_lim erf x (c * exp (- (x * x)))) ->
  derivable_pt_lim (cdf_form erf beta k h0 A rho) v (c / (2 * alpha k h0 A rho * beta * sqrt 2) * bgk_density k h0 A rho (v / beta)).
Proof.
  intros HB HK HH HE. assert (HD : forall x, is_derive erf x (c * exp (- (x * x)))) by (intros x; apply is_derive_Reals, HE).
  assert (AP := alpha_pos k h0 A rho HK HH). assert (G := gamma_pos k rho HK). assert (S0 : 0 < sqrt (gamma k rho)) by (apply sqrt_lt_R0; lra). assert (T0 : 0 < sqrt 2) by (apply sqrt_lt_R0; lra).
  assert (SS : sqrt (gamma k rho) * sqrt (gamma k rho) = gamma k rho) by (apply sqrt_sqrt; lra). assert (TT : sqrt 2 * sqrt 2 = 2) by (apply sqrt_sqrt; lra).
  assert (X := exponents k A rho (v / beta) HK). assert (EA : 1 - / alpha k h0 A rho = - (h0 / sqrt (gamma k rho) * exp (- 4 * k * ((A * rho) * (A * rho)) / gamma k rho)) / alpha k h0 A rho).
  { apply Rmult_eq_reg_r with (alpha k h0 A rho); [|lra]. assert (Q : forall y, y / alpha k h0 A rho * alpha k h0 A rho = y) by (intros y; field; lra). rewrite Q. transitivity (alpha k h0 A rho - 1); [field; lra|]. unfold alpha. ring. }
  apply is_derive_Reals. unfold cdf_form. set (s := sqrt (gamma k rho)) in *. set (m := mean1 k A rho) in *. set (al := alpha k h0 A rho) in *.
  evar_last.
  { apply (is_derive_plus (fun _ => 1 / 2)); [apply is_derive_const|]. apply (is_derive_plus (fun v => / (2 * al) * erf (/ (beta * sqrt 2) * v + 0))).
    - apply is_derive_scal. apply (is_derive_comp erf (fun v => / (beta * sqrt 2) * v + 0)); [apply HD|]. auto_derive; [exact I|reflexivity].
    - apply is_derive_scal. apply (is_derive_comp erf (fun v => s / (beta * sqrt 2) * v + - (s * m / sqrt 2))); [apply HD|]. auto_derive; [exact I|reflexivity]. }
  cbn. unfold plus, mult, scal, zero; cbn. unfold mult; cbn.
  replace (exp (- ((/ (beta * sqrt 2) * v + 0) * (/ (beta * sqrt 2) * v + 0)))) with (exp (- (v / beta * (v / beta)) / 2)).
  2:{ f_equal. replace 2 with (sqrt 2 * sqrt 2) at 1. field. lra. }
  replace (exp (- ((s / (beta * sqrt 2) * v + - (s * m / sqrt 2)) * (s / (beta * sqrt 2) * v + - (s * m / sqrt 2))))) with (exp (- (gamma k rho * ((v / beta - m) * (v / beta - m)) / 2))).
  2:{ f_equal. rewrite <- SS. replace 2 with (sqrt 2 * sqrt 2) at 1. field. lra. }
  unfold bgk_density. rewrite EA. set (E1 := exp (-4 * k * (A * rho * (A * rho)) / gamma k rho)) in *. set (E2 := exp (- (gamma k rho * _ / 2))) in *. set (E3 := exp (- (v / beta * (v / beta)) / 2)) in *. set (E4 := exp (-4 * k * (rho * (v / beta - A) * (rho * (v / beta - A))))) in *.
  transitivity (c / (2 * al * beta * sqrt 2) * (E3 - h0 * (E1 * E2))); [field; lra|]. rewrite X. ring.
Qed.

Lemma cdf_form_limits erf beta k h0 A rho : 0 < beta -> 0 <= k -> h0 < 1 -> tends_down erf (-1) -> tends_up erf 1 ->
  tends_down (cdf_form erf beta k h0 A rho) 0 /\ tends_up (cdf_form erf beta k h0 A rho) 1.
Proof.
  intros HB HK HH HD HU. assert (AP := alpha_pos k h0 A rho HK HH). assert (G := gamma_pos k rho HK). assert (S0 : 0 < sqrt (gamma k rho)) by (apply sqrt_lt_R0; lra). assert (T0 : 0 < sqrt 2) by (apply sqrt_lt_R0; lra).
  assert (B1 : 0 < / (beta * sqrt 2)) by (apply Rinv_0_lt_compat, Rmult_lt_0_compat; lra). assert (B2 : 0 < sqrt (gamma k rho) / (beta * sqrt 2)) by (apply Rdiv_lt_0_compat; [exact S0|apply Rmult_lt_0_compat; lra]). unfold cdf_form. split.
  - refine (eq_ind (1 / 2 + (/ (2 * alpha k h0 A rho) * -1 + (1 - / alpha k h0 A rho) / 2 * -1)) (tends_down _) _ 0 _); [|field; lra]. apply tends_down_plus.
    apply (tends_down_comb (fun v => erf (/ (beta * sqrt 2) * v + 0)) (fun v => erf (sqrt (gamma k rho) / (beta * sqrt 2) * v + _))); apply tends_down_affine; assumption.
  - refine (eq_ind (1 / 2 + (/ (2 * alpha k h0 A rho) * 1 + (1 - / alpha k h0 A rho) / 2 * 1)) (tends_up _) _ 1 _); [|field; lra]. apply tends_up_plus.
    apply (tends_up_comb (fun v => erf (/ (beta * sqrt 2) * v + 0)) (fun v => erf (sqrt (gamma k rho) / (beta * sqrt 2) * v + _))); apply tends_up_affine; assumption.
Qed.

(** ** An error function: the integral of exp(-t^2) from 0, over its limit *)
Definition gint (x : R) : R := RInt (fun t => exp (- (t * t))) 0 x.

Lemma gauss_cont x : continuous (fun t => exp (- (t * t))) x.
Proof. apply (ex_derive_continuous (fun t => exp (- (t * t)))). auto_derive. exact I. Qed.

Lemma gint_derive x : is_derive gint x (exp (- (x * x))).
Proof.
  apply (is_derive_RInt (fun t => exp (- (t * t))) gint 0); [|apply gauss_cont]. exists (mkposreal 1 Rlt_0_1). intros y _. apply (RInt_correct (fun t => exp (- (t * t))) 0 y), (ex_RInt_continuous (V := R_CompleteNormedModule)). intros z _. apply gauss_cont.
Qed.

Lemma gint_incr x y : x < y -> gint x < gint y.
Proof.
  intros H. destruct (MVT_gen gint x y (fun x => exp (- (x * x)))) as (z & _ & E).
  - intros z _. apply gint_derive.
  - intros z _. apply continuity_pt_filterlim, (ex_derive_continuous gint). eexists. apply gint_derive.
  - assert (0 < exp (- (z * z))) by apply exp_pos. assert (0 < exp (- (z * z)) * (y - x)) by (apply Rmult_lt_0_compat; lra). lra.
Qed.

Lemma gint_0 : gint 0 = 0.
Proof. apply (RInt_point 0 (fun t => exp (- (t * t)))). Qed.

Lemma gint_odd x : gint (- x) = - gint x.
Proof.
  destruct (MVT_gen (fun x => gint (- x) + gint x) 0 x (fun _ => 0)) as (z & _ & E).
  - intros z _. evar_last; [apply (is_derive_plus (fun x => gint (- x)) gint); [apply (is_derive_comp gint Ropp); [apply gint_derive|auto_derive; [exact I|reflexivity]]|apply gint_derive]|].
    unfold plus, scal; cbn. unfold mult; cbn. replace (- z * - z) with (z * z) by ring. ring.
  - intros z _. apply continuity_pt_filterlim, (ex_derive_continuous (fun x => gint (- x) + gint x)). eexists. apply (is_derive_plus (fun x => gint (- x)) gint); [apply (is_derive_comp gint Ropp); [apply gint_derive|auto_derive; [exact I|reflexivity]]|apply gint_derive].
  - cbn beta in E. rewrite Ropp_0, gint_0 in E. lra.
Qed.

Lemma gint_bound x : 0 <= x -> gint x <= exp (1 / 4).
Proof.
  intros H. destruct H as [H|<-]; [|rewrite gint_0; left; apply exp_pos]. destruct (MVT_gen (fun x => gint x + exp (1 / 4 - x)) 0 x (fun x => exp (- (x * x)) - exp (1 / 4 - x))) as (z & _ & E).
  - intros z _. evar_last; [apply (is_derive_plus gint (fun x => exp (1 / 4 - x))); [apply gint_derive|auto_derive; [exact I|reflexivity]]|]. unfold plus; cbn. change (1 / 4 + - z) with (1 / 4 - z). ring.
  - intros z _. apply continuity_pt_filterlim, (ex_derive_continuous (fun x => gint x + exp (1 / 4 - x))). eexists. apply (is_derive_plus gint (fun x => exp (1 / 4 - x))); [apply gint_derive|auto_derive; [exact I|reflexivity]].
  - cbn beta in E. rewrite gint_0, Rminus_0_r in E. assert (exp (- (z * z)) <= exp (1 / 4 - z)).
    { assert (Q : - (z * z) <= 1 / 4 - z) by (assert (S := Rle_0_sqr (z - 1 / 2)); unfold Rsqr in S; lra). destruct Q as [Q|Q]; [left; apply exp_increasing, Q|rewrite Q; right; reflexivity]. }
    assert (0 < exp (1 / 4 - x)) by apply exp_pos. assert ((exp (- (z * z)) - exp (1 / 4 - z)) * (x - 0) <= 0) by nra. lra.
Qed.

Lemma an_error_function : exists erf, error_function erf.
Proof.
  destruct (completeness (fun y => exists x, 0 <= x /\ y = gint x)) as (L & UB & LUB).
  { exists (exp (1 / 4)). intros y (x & H & ->). apply gint_bound, H. }
  { exists (gint 0). exists 0. split; [lra|reflexivity]. }
  assert (LP : 0 < L). { assert (gint 0 < gint 1) by (apply gint_incr; lra). rewrite gint_0 in H. assert (gint 1 <= L) by (apply UB; exists 1; split; [lra|reflexivity]). lra. }
  assert (UP : tends_up (fun x => gint x / L) 1).
  { intros eps He. destruct (Classical_Prop.classic (exists x, 0 <= x /\ L * (1 - eps) < gint x)) as [(M & HM & K)|N].
    - exists M. intros x Hx. assert (G1 : gint M < gint x) by (apply gint_incr, Hx). assert (G2 : gint x <= L) by (apply UB; exists x; split; [lra|reflexivity]).
      apply Rabs_def1; apply Rmult_lt_reg_r with L; try exact LP; unfold Rdiv; rewrite Rmult_minus_distr_r, Rmult_assoc, Rinv_l by lra; nra.
    - exfalso. assert (L <= L * (1 - eps)). { apply LUB. intros y (x & H & ->). destruct (Rle_lt_dec (gint x) (L * (1 - eps))); [assumption|]. exfalso. apply N. exists x. split; assumption. } nra. }
  exists (fun x => gint x / L). split; [|split; [|exact UP]].
  - exists (/ L). split; [apply Rinv_0_lt_compat, LP|]. intros x. apply is_derive_Reals. apply (is_derive_ext (fun x => / L * gint x)); [intros t; apply Rmult_comm|]. apply (is_derive_scal gint x (/ L) (exp (- (x * x)))), gint_derive.
  - intros eps He. destruct (UP eps He) as (M & K). exists (- M). intros x Hx. specialize (K (- x) ltac:(lra)). rewrite gint_odd in K. replace (gint x / L - -1) with (- (- gint x / L - 1)) by (field; lra). rewrite Rabs_Ropp. exact K.
Qed.
