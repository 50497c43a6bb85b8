(** C75: the velocities of the electrons of the BGK case; C76: its box and its patches. *)
From Coq Require Import Reals Lra Psatz Ascii String.
From Verif Require Import Base InputModel TableModel TableSpec TableProofs TableProps BgkModel BgkSpec BgkProofs.
Local Open Scope R_scope.

(** * C75 *)

(** v_phi_cdf is the cumulative distribution function of the BGK distribution *)
Theorem C75_cdf : forall erf g t rho A, error_function erf -> 0 < g_beta g -> 0 <= g_k g -> g_h0 g < 1 -> A_phi g t rho = Done A ->
  exists F, (forall v, v_phi_cdf erf g t v rho = Done (F v)) /\ cdf_of F (fun v => bgk_density (g_k g) (g_h0 g) (A / g_beta g) (rho / g_beta g) (v / g_beta g)).
Proof.
  intros erf g t rho A ((c & Hc & HE) & HD & HU) HB HK HH HA. exists (cdf_form erf (g_beta g) (g_k g) (g_h0 g) (A / g_beta g) (rho / g_beta g)).
  split; [intros v; apply (cdf_form_eq erf g t v rho A HB HK HH HA)|]. split; [|apply cdf_form_limits; assumption].
  exists (c / (2 * alpha (g_k g) (g_h0 g) (A / g_beta g) (rho / g_beta g) * g_beta g * sqrt 2)). split.
  - apply Rdiv_lt_0_compat; [exact Hc|]. assert (0 < alpha (g_k g) (g_h0 g) (A / g_beta g) (rho / g_beta g)) by (apply alpha_pos; assumption). assert (0 < sqrt 2) by (apply sqrt_lt_R0; lra). repeat apply Rmult_lt_0_compat; try assumption; lra.
  - intros v. apply cdf_form_derive; assumption.
Qed.
Print Assumptions C75_cdf.

(** it increases strictly and lies between 0 and 1, so that it can be inverted *)
Theorem C75_increasing : forall erf g t rho A, error_function erf -> 0 < g_beta g -> 0 <= g_k g -> g_h0 g < 1 -> A_phi g t rho = Done A ->
  forall v v', v < v' -> exists y y', v_phi_cdf erf g t v rho = Done y /\ v_phi_cdf erf g t v' rho = Done y' /\ 0 < y < y' /\ y' < 1.
Proof.
  intros erf g t rho A He HB HK HH HA v v' Hv. destruct (C75_cdf erf g t rho A He HB HK HH HA) as (F & HF & (c & Hc & HD) & L0 & L1).
  assert (POS : forall x, 0 < c * bgk_density (g_k g) (g_h0 g) (A / g_beta g) (rho / g_beta g) (x / g_beta g)).
  { intros x. apply Rmult_lt_0_compat; [exact Hc|]. unfold bgk_density. apply Rmult_lt_0_compat; [apply exp_pos|]. set (l := rho / g_beta g * _). assert (E0 : 0 < exp (-4 * g_k g * (l * l))) by apply exp_pos.
    assert (E1 : exp (-4 * g_k g * (l * l)) <= 1). { rewrite <- exp_0. assert (0 <= g_k g * (l * l)) by (apply Rmult_le_pos; [exact HK|nra]). assert (Q : -4 * g_k g * (l * l) <= 0) by lra. destruct Q as [Q|Q]; [left; apply exp_increasing, Q|rewrite Q; right; reflexivity]. } nra. }
  assert (INC : forall x y, x < y -> F x < F y).
  { intros x y H. destruct (MVT_cor2 F (fun x => c * bgk_density (g_k g) (g_h0 g) (A / g_beta g) (rho / g_beta g) (x / g_beta g)) x y H) as (z & E & _); [intros z _; apply HD|].
    assert (0 < c * bgk_density (g_k g) (g_h0 g) (A / g_beta g) (rho / g_beta g) (z / g_beta g) * (y - x)) by (apply Rmult_lt_0_compat; [apply POS|lra]). lra. }
  exists (F v), (F v'). split; [apply HF|]. split; [apply HF|]. split; [split; [|apply INC, Hv]|].
  - destruct (Rlt_le_dec 0 (F v)) as [C|C]; [exact C|exfalso]. assert (I1 := INC (v - 1) v ltac:(lra)). destruct (L0 (- F (v - 1)) ltac:(lra)) as (M & K). specialize (K (Rmin M (v - 1) - 1)). assert (R1 := Rmin_l M (v - 1)). assert (R2 := Rmin_r M (v - 1)).
    specialize (K ltac:(lra)). assert (I2 := INC (Rmin M (v - 1) - 1) (v - 1) ltac:(lra)). rewrite Rminus_0_r, Rabs_left in K by lra. lra.
  - destruct (Rlt_le_dec (F v') 1) as [C|C]; [exact C|exfalso]. assert (I1 := INC v' (v' + 1) ltac:(lra)). destruct (L1 (F (v' + 1) - 1) ltac:(lra)) as (M & K). specialize (K (Rmax M (v' + 1) + 1)). assert (R1 := Rmax_l M (v' + 1)). assert (R2 := Rmax_r M (v' + 1)).
    specialize (K ltac:(lra)). assert (I2 := INC (v' + 1) (Rmax M (v' + 1) + 1) ltac:(lra)). rewrite Rabs_pos_eq in K by lra. lra.
Qed.
Print Assumptions C75_increasing.

(** the vector potential is that on the line through the points of the table; without that column it is that of a homogeneous field: its circulation is the flux *)
Theorem C75_potential : forall g t rho,
  (forall c ic xs ys, hfind (t_header t) (lit "A_phi"%string) = Some c -> hfind (t_header t) (lit "rho"%string) = Some ic -> column (t_data t) ic xs -> column (t_data t) c ys -> (2 <= n_rows t)%Z ->
    increasing xs (n_rows t) -> guess_fits (fun x => x) xs rho -> xs 0%Z <= rho <= xs (n_rows t - 1)%Z -> exists A, A_phi g t rho = Done A /\ polyline xs ys (n_rows t) rho A) /\
  (hfind (t_header t) (lit "A_phi"%string) = None -> exists A, A_phi g t rho = Done A /\ 2 * PI * rho * A = g_Hx g * (PI * (rho * rho))).
Proof.
  intros g t rho. unfold A_phi, has_column. split.
  - intros c ic xs ys HC HI HX HY Hn Hinc HG HR. destruct (C73_interpolated t (lit "A_phi"%string) (lit "rho"%string) c ic xs ys rho HC HI ltac:(discriminate) HX HY Hn Hinc HG) as [K _]. destruct (K HR) as (y & E & P).
    rewrite HC, E. exists y. split; [reflexivity|exact P].
  - intros ->. eexists. split; [reflexivity|]. field.
Qed.
Print Assumptions C75_potential.

(** the momentum: along the azimuthal, the radial and the x direction it is the mass times the drawn velocity, times v_e_coef, reversed as asked for *)
Theorem C75_momentum : forall g y z rho v_phi v_rho v_x, 0 < rho -> rho * rho = y * y + z * z ->
  let '(px, py, pz) := pdist_p g y z rho v_phi v_rho v_x in
  let c := g_v_e_coef g * (if g_reverse_v g then -1 else 1) * (if g_reverse_v_half g then if Rlt_dec y 0 then -1 else 1 else 1) * g_m_e g in
  px = c * v_x /\ py * (- z / rho) + pz * (y / rho) = c * v_phi /\ py * (y / rho) + pz * (z / rho) = c * v_rho.
Proof.
  intros g y z rho v_phi v_rho v_x H E. unfold pdist_p. cbv zeta. set (c0 := _ * _ * (if g_reverse_v_half g then _ else _)). split; [reflexivity|].
  split; [transitivity (c0 * g_m_e g * v_phi * ((y * y + z * z) / (rho * rho)))|transitivity (c0 * g_m_e g * v_rho * ((y * y + z * z) / (rho * rho)))]; try (field; lra); rewrite <- E; field; lra.
Qed.
Print Assumptions C75_momentum.

(** coordinates up to one box beyond the box are brought back into it by whole boxes *)
Theorem C75_coord : forall g crd, 0 < g_box_size g -> - (3 / 2) * g_box_size g <= crd <= 3 / 2 * g_box_size g ->
  - g_box_size g / 2 <= getCoord g crd <= g_box_size g / 2 /\ exists n, getCoord g crd = crd + IZR n * g_box_size g.
Proof.
  intros g crd HL HC. unfold getCoord. destruct (Rlt_dec crd (- g_box_size g / 2)); [split; [lra|exists 1%Z; ring]|]. destruct (Rlt_dec (g_box_size g / 2) crd); [split; [lra|exists (-1)%Z; ring]|]. split; [lra|exists 0%Z; ring].
Qed.
Print Assumptions C75_coord.

(** * C76 *)

(** For a positive field, the spike ends where the mean of the second Gaussian of v_phi_cdf reaches 4.5: not before, and beyond it is larger. *)
Theorem C76_spike : forall g t, 0 < g_k g -> 0 < g_Hx g -> 0 < g_beta g -> has_column t (lit "A_phi"%string) = false -> exists size, getSpikeSize (g_Hx g) (g_k g) (g_beta g) = Some size /\ 0 < size /\
  forall rho, 0 <= rho -> exists A, A_phi g t rho = Done A /\
    let m := mean1 (g_k g) (A / g_beta g) (rho / g_beta g) in (rho < size -> m < 45 / 10) /\ (rho = size -> m = 45 / 10) /\ (size < rho -> 45 / 10 < m).
Proof.
  intros g t HK HB HT HN. set (k := g_k g) in *. set (B := g_Hx g) in *. set (beta := g_beta g) in *. destruct (spike_value B k beta HK ltac:(lra)) as (r & E & Q & P). exists (r * beta). assert (R0 : 0 < r) by (apply Rmult_lt_reg_l with B; lra). split; [exact E|]. split; [apply Rmult_lt_0_compat; assumption|].
  assert (D : forall x, 0 < 1 + 8 * k * (x * x)) by (intros x; assert (0 <= k * (x * x)) by (apply Rmult_le_pos; [lra|nra]); lra).
  assert (MR : 4 * k * B * (r * r * r) / (1 + 8 * k * (r * r)) = 45 / 10) by (rewrite Q; specialize (D r); field; lra).
  intros rho H0. unfold A_phi. rewrite HN. fold B. eexists. split; [reflexivity|]. cbv zeta. set (x := rho / beta). assert (X0 : 0 <= x) by (unfold x, Rdiv; apply Rmult_le_pos; [exact H0|left; apply Rinv_0_lt_compat, HT]).
  assert (RX : rho = x * beta) by (unfold x; field; lra). assert (MX : mean1 k (5 / 10 * B * rho / beta) x = 4 * k * B * (x * x * x) / (1 + 8 * k * (x * x))). { unfold mean1, gamma. rewrite RX. specialize (D x). field. lra. }
  rewrite MX. split; [|split]; intros C.
  - rewrite <- MR. apply mean_grows; try assumption. apply Rmult_lt_reg_r with beta; lra.
  - assert (x = r) by (apply Rmult_eq_reg_r with beta; lra). rewrite H. exact MR.
  - rewrite <- MR. apply mean_grows; try assumption; [lra|]. apply Rmult_lt_reg_r with beta; lra.
Qed.
Print Assumptions C76_spike.

(** The full statement: the box holds the spike, that is the mean of the second Gaussian is beyond 4.5 in size everywhere outside.  False if the field is negative
    (below).  Proved: a calculated box with relative size at least 1 extends beyond the spike and the hole, for positive fields. *)
Theorem C76_box_partial : forall g t given rel hole, 0 < g_k g -> 0 < g_Hx g -> 0 < g_beta g -> has_column t (lit "A_phi"%string) = false -> given <= 0 -> 1 <= rel ->
  exists spike, getSpikeSize (g_Hx g) (g_k g) (g_beta g) = Some spike /\ let L := box_size given rel (getCalculatedBoxSize spike hole) in
    0 < L /\ hole <= L / 2 /\ forall rho, L / 2 <= rho -> exists A, A_phi g t rho = Done A /\ 45 / 10 <= mean1 (g_k g) (A / g_beta g) (rho / g_beta g).
Proof.
  intros g t given rel hole HK HB HT HN HG HR. destruct (C76_spike g t HK HB HT HN) as (s & E & S0 & K). exists s. split; [exact E|]. cbv zeta. unfold box_size, getCalculatedBoxSize. destruct (Rle_dec given 0); [|contradiction].
  assert (M1 := Rmax_l s hole). assert (M2 := Rmax_r s hole). set (m := Rmax s hole) in *. assert (rel * (2 * m) / 2 = rel * m) by field. assert (m <= rel * m) by nra. split; [lra|]. split; [lra|]. intros rho Hr.
  destruct (K rho ltac:(lra)) as (A & EA & _ & K2 & K3). exists A. split; [exact EA|]. destruct (Req_dec rho s) as [C|C]; [rewrite (K2 C); lra|]. left. apply K3. lra.
Qed.
Print Assumptions C76_box_partial.

(** a size that is given is taken *)
Theorem C76_given : forall given rel calculated, 0 < given -> box_size given rel calculated = given.
Proof. intros given rel calculated H. unfold box_size. destruct (Rle_dec given 0); [lra|reflexivity]. Qed.
Print Assumptions C76_given.

(** for a negative field the radius of the spike is negative, so that the box is that of the hole alone; the spike reaches out of it *)
Theorem C76_negative_refuted : exists B k beta hole, 0 < k /\ B < 0 /\ 0 < beta /\ 0 < hole /\ exists spike, getSpikeSize B k beta = Some spike /\ spike < 0 /\
  let L := box_size (-1) 1 (getCalculatedBoxSize spike hole) in Rabs (mean1 k (5 / 10 * B * (L / 2) / beta) (L / 2 / beta)) < 45 / 10.
Proof.
  exists (-1), (1 / 10), 1, 1. do 4 (split; [lra|]). destruct (spike_value (-1) (1 / 10) 1 ltac:(lra) ltac:(lra)) as (r & E & _ & P). exists (r * 1). split; [exact E|]. split; [lra|].
  cbv zeta. unfold box_size, getCalculatedBoxSize. destruct (Rle_dec (-1) 0); [|lra]. rewrite Rmax_right by lra. unfold mean1, gamma. apply Rabs_def1; lra.
Qed.
Print Assumptions C76_negative_refuted.

(** if the number of cells is a multiple of the cells per patch, these are the cells of each patch *)
Theorem C76_patches : forall n_grid given c np, (0 < n_grid)%Z -> (given <= 0)%Z -> (0 < c)%Z -> Z.divide c n_grid ->
  (n_patches n_grid given c = Some np -> domain_ldims n_grid np = Some c) /\ (n_patches_3 n_grid given c = Some np -> domain_ldims n_grid np = Some c) /\ n_patches n_grid given c <> None.
Proof.
  intros n given c np Hn Hg Hc (m & ->). assert (Hm : (0 < m)%Z) by (destruct (Z.lt_trichotomy m 0) as [C|[C|C]]; [assert (m * c < 0)%Z by (apply Z.mul_neg_pos; lia); lia|subst; lia|exact C]).
  assert (V : n_patches (m * c) given c = Some m). { unfold n_patches. destruct (Z.leb_spec given 0); [|lia]. destruct (Z.eqb_spec c 0); [lia|]. rewrite Z.quot_mul by lia. reflexivity. }
  assert (D : domain_ldims (m * c) m = Some c). { unfold domain_ldims. destruct (Z.leb_spec (m * c) 0); [lia|]. destruct (Z.eqb_spec m 0); [lia|]. rewrite (Z.mul_comm m c), Z.rem_mul, Z.quot_mul by lia. reflexivity. }
  split; [rewrite V; intros [= <-]; exact D|]. split; [|rewrite V; discriminate]. unfold n_patches_3. destruct (Z.ltb_spec (m * c) c); [nia|]. rewrite V. intros [= <-]. exact D.
Qed.
Print Assumptions C76_patches.

(** the third dimension may have fewer cells than a patch *)
Theorem C76_thin : forall n_grid_3 given c, (0 < n_grid_3 < c)%Z -> exists np, n_patches_3 n_grid_3 given c = Some np /\ domain_ldims n_grid_3 np = Some n_grid_3.
Proof.
  intros n given c H. exists 1%Z. unfold n_patches_3. destruct (Z.ltb_spec n c); [|lia]. split; [reflexivity|]. unfold domain_ldims. destruct (Z.leb_spec n 0); [lia|]. cbn [Z.eqb]. rewrite Z.rem_1_r, Z.quot_1_r. reflexivity.
Qed.
Print Assumptions C76_thin.

(** the other two may not: the number of patches is then 0, and the program ends in a division by it; other numbers that do not divide end in an error, or
    in patches of another size than asked for *)
Theorem C76_patches_refuted : exists n n' n'' c, (0 < n < c)%Z /\ n_patches n (-1) c = Some 0%Z /\ domain_ldims n 0 = None /\
  (exists np, n_patches n' (-1) c = Some np /\ (0 < np)%Z /\ domain_ldims n' np = None) /\ (exists np l, n_patches n'' (-1) c = Some np /\ domain_ldims n'' np = Some l /\ l <> c).
Proof. exists 2%Z, 13%Z, 10%Z, 4%Z. split; [lia|]. split; [reflexivity|]. split; [reflexivity|]. split; [exists 3%Z; repeat split|exists 2%Z, 5%Z; repeat split; lia]. Qed.
Print Assumptions C76_patches_refuted.

(** * Examples *)
Definition ex_g : params := Params (1 / 10) (9 / 10) (1 / 1000) 1 1 1 false true (1 / 50).

Example ex_C75 : (exists erf, error_function erf) /\ 0 < g_beta ex_g /\ 0 <= g_k ex_g /\ g_h0 ex_g < 1 /\ A_phi ex_g (Tab [] []) (1 / 500) = Done (5 / 10 * 1 * (1 / 500)) /\
  - (3 / 2) * g_box_size ex_g <= 3 / 200 <= 3 / 2 * g_box_size ex_g /\ getCoord ex_g (3 / 200) = 3 / 200 - 1 / 50.
Proof.
  split; [exact an_error_function|]. cbn [ex_g g_beta g_k g_h0 g_box_size]. do 3 (split; [lra|]). split; [reflexivity|]. split; [lra|]. unfold getCoord. cbn [ex_g g_box_size].
  destruct (Rlt_dec (3 / 200) (- (1 / 50) / 2)); [lra|]. destruct (Rlt_dec (1 / 50 / 2) (3 / 200)); [reflexivity|lra].
Qed.

(** an electron at y = -3, z = 4, with reversal for y < 0 *)
Example ex_C75_momentum : 5 * 5 = -3 * -3 + 4 * 4 /\ pdist_p ex_g (-3) 4 5 1 0 (1 / 2) = (- (1 / 2), 4 / 5, 3 / 5).
Proof. split; [lra|]. unfold pdist_p. cbn [ex_g g_v_e_coef g_reverse_v g_reverse_v_half g_m_e]. destruct (Rlt_dec (-3) 0); [|lra]. repeat (apply f_equal2; [|field]). field. Qed.

Example ex_C76 : (exists s, getSpikeSize 1 (1 / 10) (1 / 1000) = Some s /\ 0 < s) /\ Z.divide 4 12 /\ n_patches 12 (-1) 4 = Some 3%Z /\ domain_ldims 12 3 = Some 4%Z /\ n_patches_3 1 (-1) 4 = Some 1%Z.
Proof.
  split; [destruct (C76_spike ex_g (Tab [] []) ltac:(cbn; lra) ltac:(cbn; lra) ltac:(cbn; lra) eq_refl) as (s & E & P & _); exists s; split; assumption|]. split; [exists 3%Z; reflexivity|]. repeat split.
Qed.
