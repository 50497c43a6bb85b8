From Coq Require Import Reals Lra Psatz.
From Flocq Require Import Core.
From Verif Require Import Base RSum FieldModel DepositModel DepositSpec.
Local Open Scope R_scope.

(** ** The statements *)

Definition delta3 (a n : V3 Z) : R := delta (c0 a) (c0 n) * delta (c1 a) (c1 n) * delta (c2 a) (c2 n).

Lemma Rabs_def2b x a : Rabs x <= a -> - a <= x <= a.
Proof. intros H. apply Rabs_le_inv. exact H. Qed.

Lemma v3_eqb_delta a n : (if v3_eqb a n then 1 else 0) = delta3 a n.
Proof.
  unfold v3_eqb, delta3, delta.
  destruct (c0 a =? c0 n)%Z, (c1 a =? c1 n)%Z, (c2 a =? c2 n)%Z; cbn [andb]; ring.
Qed.

Lemma radd_get f i v n : radd f i v n = f n + v * delta3 i n.
Proof. unfold radd. rewrite <- v3_eqb_delta. destruct (v3_eqb i n); ring. Qed.

Lemma radd_all_get l : forall f n, radd_all f l n = f n + rsum (map (fun e => snd e * delta3 (fst e) n) l).
Proof.
  induction l as [|e l IH]; intros f n; [unfold radd_all; cbn; ring|].
  unfold radd_all in *. cbn [fold_left map]. rewrite IH, radd_get, rsum_cons. ring.
Qed.

(** ** One direction *)

Lemma floor_spec x : IZR (fint x) <= x < IZR (fint x) + 1.
Proof. unfold fint. split; [apply Zfloor_lb|]. rewrite <- (plus_IZR _ 1). apply Rlt_le_trans with (1 := Zfloor_ub x). rewrite plus_IZR. lra. Qed.

Lemma fint_unique x k : IZR k <= x < IZR k + 1 -> fint x = k.
Proof. intros H. unfold fint. apply Zfloor_imp. rewrite plus_IZR. exact H. Qed.

Lemma nint_spec x : Rabs (x - IZR (nint x)) <= / 2.
Proof. unfold nint. apply Znearest_half. Qed.

Lemma IZR_le_or n k : (n <= k)%Z -> IZR n <= IZR k.
Proof. apply IZR_le. Qed.

Lemma hat_cell x k n : IZR k <= x <= IZR k + 1 -> hat (x - IZR n) = (1 - (x - IZR k)) * delta k n + (x - IZR k) * delta (k + 1) n.
Proof.
  intros H. unfold hat.
  destruct (Z.eq_dec n k) as [->|N0]; [|destruct (Z.eq_dec n (k + 1)) as [->|N1]; [|destruct (Z_lt_dec n k)]].
  - rewrite delta_same, delta_diff by lia. rewrite Rabs_right by lra. rewrite Rmax_right; lra.
  - rewrite delta_same, (delta_diff k) by lia. rewrite plus_IZR. rewrite Rabs_left1 by lra. rewrite Rmax_right; lra.
  - rewrite !delta_diff by lia. assert (IZR n <= IZR (k - 1)) by (apply IZR_le; lia). rewrite minus_IZR in *. rewrite Rabs_right by lra. rewrite Rmax_left; lra.
  - rewrite !delta_diff by lia. assert (IZR (k + 2) <= IZR n) by (apply IZR_le; lia). rewrite plus_IZR in *. rewrite Rabs_left1 by lra. rewrite Rmax_left; lra.
Qed.

Lemma spline2_in t : Rabs t <= 1 / 2 -> spline2 t = 3 / 4 - t * t.
Proof. intros H. unfold spline2. destruct (Rle_dec (Rabs t) (1 / 2)); [reflexivity|contradiction]. Qed.

Lemma spline2_mid t : 1 / 2 <= Rabs t <= 3 / 2 -> spline2 t = (3 / 2 - Rabs t) * (3 / 2 - Rabs t) / 2.
Proof.
  intros H. unfold spline2. destruct (Rle_dec (Rabs t) (1 / 2)) as [L|L].
  - assert (E : Rabs t = 1 / 2) by lra. rewrite E. assert (t * t = Rabs t * Rabs t) by (rewrite <- Rabs_mult; symmetry; apply Rabs_right; apply Rle_ge; apply Rle_0_sqr). rewrite H0, E. lra.
  - destruct (Rle_dec (Rabs t) (3 / 2)); [reflexivity|lra].
Qed.

Lemma spline2_out t : 3 / 2 <= Rabs t -> spline2 t = 0.
Proof.
  intros H. unfold spline2. destruct (Rle_dec (Rabs t) (1 / 2)); [lra|]. destruct (Rle_dec (Rabs t) (3 / 2)); [|reflexivity].
  assert (Rabs t = 3 / 2) by lra. rewrite H0. lra.
Qed.

Lemma spline2_cell x k n : Rabs (x - IZR k) <= / 2 -> let h := IZR k - x in
  spline2 (x - IZR n) = / 2 * (/ 2 + h) * (/ 2 + h) * delta (k - 1) n + (3 / 4 - h * h) * delta k n + / 2 * (/ 2 - h) * (/ 2 - h) * delta (k + 1) n.
Proof.
  intros H h. assert (Hh : - / 2 <= h <= / 2) by (apply Rabs_def2b in H; unfold h; lra). clear H.
  replace (x - IZR n) with (IZR k - IZR n - h) by (unfold h; ring). clearbody h.
  destruct (Z.eq_dec n k) as [->|N0]; [|destruct (Z.eq_dec n (k + 1)) as [->|N1]; [|destruct (Z.eq_dec n (k - 1)) as [->|N2]; [|destruct (Z_lt_dec n k)]]].
  - rewrite delta_same, !delta_diff by lia. rewrite spline2_in; [ring|]. replace (IZR k - IZR k - h) with (- h) by ring. rewrite Rabs_Ropp. apply Rabs_le. lra.
  - rewrite delta_same, !delta_diff by lia. rewrite plus_IZR. replace (IZR k - (IZR k + 1) - h) with (- (1 + h)) by ring.
    rewrite spline2_mid; rewrite Rabs_Ropp, Rabs_right by lra; lra.
  - rewrite delta_same, !delta_diff by lia. rewrite minus_IZR. replace (IZR k - (IZR k - 1) - h) with (1 - h) by ring.
    rewrite spline2_mid; rewrite Rabs_right by lra; lra.
  - rewrite !delta_diff by lia. assert (IZR n <= IZR (k - 2)) by (apply IZR_le; lia). rewrite minus_IZR in *. rewrite spline2_out; [ring|]. rewrite Rabs_right; lra.
  - rewrite !delta_diff by lia. assert (IZR (k + 2) <= IZR n) by (apply IZR_le; lia). rewrite plus_IZR in *. rewrite spline2_out; [ring|]. rewrite Rabs_left1; lra.
Qed.

Lemma hat_nonneg t : 0 <= hat t.
Proof. apply Rmax_l. Qed.

Lemma spline2_nonneg t : 0 <= spline2 t.
Proof.
  unfold spline2. destruct (Rle_dec (Rabs t) (1 / 2)).
  - assert (t * t = Rabs t * Rabs t) by (rewrite <- Rabs_mult; symmetry; apply Rabs_right; apply Rle_ge; apply Rle_0_sqr).
    rewrite H. pose proof (Rabs_pos t). assert (Rabs t * Rabs t <= 1 / 2 * (1 / 2)) by (apply Rmult_le_compat; lra). lra.
  - destruct (Rle_dec (Rabs t) (3 / 2)); [|lra]. pose proof (Rle_0_sqr (3 / 2 - Rabs t)). unfold Rsqr in *. lra.
Qed.

(** ** The shape functions of the schemes *)

Definition shape_of (s : dep_scheme) : R -> R := match s with dep_2nd_nc => spline2 | _ => hat end.
Definition offset_of (s : dep_scheme) : R := match s with dep_1st_cc => / 2 | _ => 0 end.

(** the particle's position in units of the spacing, from the nodes (or cell centers) *)
Definition place (s : dep_scheme) (dx xi : V3 R) : V3 R := gen3 (fun e => get3 xi e / get3 dx e - offset_of s).

Lemma share_get sh inv x n : share sh inv x n =
  (if get3 inv D0 then delta (c0 n) 0 else sh (c0 x - IZR (c0 n))) *
  (if get3 inv D1 then delta (c1 n) 0 else sh (c1 x - IZR (c1 n))) *
  (if get3 inv D2 then delta (c2 n) 0 else sh (c2 x - IZR (c2 n))).
Proof. reflexivity. Qed.

Lemma delta_add a b n : delta (a - b) n = delta a (n + b).
Proof. unfold delta. destruct (Z.eqb_spec (a - b) n), (Z.eqb_spec a (n + b)); try lia; reflexivity. Qed.

Lemma delta_add1 a b n k : delta (a - b + k) n = delta (a + k) (n + b).
Proof. unfold delta. destruct (Z.eqb_spec (a - b + k) n), (Z.eqb_spec (a + k) (n + b)); try lia; reflexivity. Qed.

Lemma delta_add2 a b n k : delta (a - b - k) n = delta (a - k) (n + b).
Proof. unfold delta. destruct (Z.eqb_spec (a - b - k) n), (Z.eqb_spec (a - k) (n + b)); try lia; reflexivity. Qed.

Lemma delta_sym a b : delta a b = delta b a.
Proof. unfold delta. rewrite Z.eqb_sym. reflexivity. Qed.

Definition node (ib m : V3 Z) : V3 Z := gen3 (fun e => get3 m e + get3 ib e)%Z.

Definition wf_ib (d : dim_t) (ib : V3 Z) : Prop := forall e, get3 (invar_of d) e = true -> get3 ib e = 0%Z.

Lemma deposit1st_share d ib x val l f m : wf_ib d ib ->
  deposit1st d (gen3 (fun e => fint (get3 x e) - get3 ib e)%Z) (gen3 (fun e => get3 x e - IZR (fint (get3 x e)))) val = Some l ->
  radd_all f l m = f m + val * share hat (invar_of d) x (node ib m).
Proof.
  intros Hib H. rewrite radd_all_get. f_equal. rewrite share_get. destruct x as [x0 x1 x2], ib as [b0 b1 b2], m as [m0 m1 m2].
  unfold gen3, node in *. cbn [get3 c0 c1 c2] in *.
  assert (K : forall x, IZR (fint x) <= x <= IZR (fint x) + 1) by (intros x; pose proof (floor_spec x); lra).
  destruct d; cbn [deposit1st] in H; try discriminate; injection H as <-; cbn [invar_of get3 c0 c1 c2 gen3];
    cbn [map fst snd rsum fold_right]; unfold delta3, z3; cbn [c0 c1 c2];
    rewrite ?Z.add_0_r, ?delta_add1, ?delta_add.
  - rewrite (hat_cell x0 (fint x0) (m0 + b0) (K x0)), (hat_cell x1 (fint x1) (m1 + b1) (K x1)), (hat_cell x2 (fint x2) (m2 + b2) (K x2)). ring.
  - specialize (Hib D0 eq_refl). cbn in Hib. subst b0. rewrite ?Z.add_0_r, (delta_sym m0 0).
    rewrite (hat_cell x1 (fint x1) (m1 + b1) (K x1)), (hat_cell x2 (fint x2) (m2 + b2) (K x2)). ring.
Qed.

Lemma deposit2nd_share d ib x val l f m : wf_ib d ib ->
  deposit2nd d (gen3 (fun e => nint (get3 x e) - get3 ib e)%Z) (gen3 (fun e => IZR (nint (get3 x e)) - get3 x e)) val = Some l ->
  radd_all f l m = f m + val * share spline2 (invar_of d) x (node ib m).
Proof.
  intros Hib H. rewrite radd_all_get. f_equal. rewrite share_get. destruct x as [x0 x1 x2], ib as [b0 b1 b2], m as [m0 m1 m2].
  unfold gen3, node in *. cbn [get3 c0 c1 c2] in *.
  destruct d; cbn [deposit2nd] in H; try discriminate; injection H as <-; cbn [invar_of get3 c0 c1 c2 gen3];
    cbn [map fst snd rsum fold_right]; unfold delta3, z3; cbn [c0 c1 c2];
    rewrite ?delta_add1, ?delta_add2, ?delta_add.
  - rewrite (spline2_cell x0 (nint x0) (m0 + b0) (nint_spec x0)), (spline2_cell x1 (nint x1) (m1 + b1) (nint_spec x1)), (spline2_cell x2 (nint x2) (m2 + b2) (nint_spec x2)).
    cbv zeta. rewrite ?delta_add. set (h0 := IZR (nint x0) - x0). set (h1 := IZR (nint x1) - x1). set (h2 := IZR (nint x2) - x2).
        set (m0' := / 2 * (/ 2 + h0) * (/ 2 + h0)). set (m1' := / 2 * (/ 2 + h1) * (/ 2 + h1)). set (m2' := / 2 * (/ 2 + h2) * (/ 2 + h2)).
    set (z0' := 3 / 4 - h0 * h0). set (z1' := 3 / 4 - h1 * h1). set (z2' := 3 / 4 - h2 * h2).
    set (p0' := / 2 * (/ 2 - h0) * (/ 2 - h0)). set (p1' := / 2 * (/ 2 - h1) * (/ 2 - h1)). set (p2' := / 2 * (/ 2 - h2) * (/ 2 - h2)).
    ring.
  - specialize (Hib D0 eq_refl). cbn in Hib. subst b0. rewrite ?Z.add_0_r, (delta_sym m0 0).
    rewrite (spline2_cell x1 (nint x1) (m1 + b1) (nint_spec x1)), (spline2_cell x2 (nint x2) (m2 + b2) (nint_spec x2)). cbv zeta. rewrite ?delta_add. ring.
Qed.

Lemma share_ext sh inv x y n : (forall d, get3 inv d = false -> get3 x d = get3 y d) -> share sh inv x n = share sh inv y n.
Proof.
  intros H. rewrite !share_get. pose proof (H D0) as H0. pose proof (H D1) as H1. pose proof (H D2) as H2. cbn [get3] in *.
  destruct (c0 inv), (c1 inv), (c2 inv); try rewrite (H0 eq_refl); try rewrite (H1 eq_refl); try rewrite (H2 eq_refl); reflexivity.
Qed.

Lemma code_dep_share s d dx fnqs ib xi val f f' m : wf_ib d ib ->
  code_dep s d dx fnqs ib xi val f = Some f' ->
  f' m = f m + fnqs * val * share (shape_of s) (invar_of d) (place s dx xi) (node ib m).
Proof.
  intros Hib H. unfold code_dep in H. destruct (norm_dep s d ib _ _) as [l|] eqn:E; [|discriminate]. injection H as <-.
  assert (P : forall y, (forall e, get3 y e = get3 xi e * (1 / get3 dx e) - offset_of s) -> y = place s dx xi).
  { intros y Hy. apply v3_ext. intros e. unfold place. rewrite get3_gen3, Hy. unfold Rdiv. ring. }
  destruct s; cbn [norm_dep shape_of] in *.
  - erewrite <- (P (gen3 (fun e => get3 xi e * (1 / get3 dx e)))) by (intros; rewrite get3_gen3; cbn; ring).
    unfold norm_1st_nc in E. apply deposit1st_share; [exact Hib|].
    rewrite <- E. f_equal; apply v3_ext; intros e; rewrite ?get3_gen3; reflexivity.
  - erewrite <- (P (gen3 (fun e => get3 xi e * (1 / get3 dx e) - / 2))) by (intros; rewrite get3_gen3; cbn; ring).
    unfold norm_1st_cc in E. apply deposit1st_share; [exact Hib|].
    rewrite <- E. f_equal; apply v3_ext; intros e; rewrite ?get3_gen3; reflexivity.
  - erewrite <- (P (gen3 (fun e => get3 xi e * (1 / get3 dx e)))) by (intros; rewrite get3_gen3; cbn; ring).
    unfold norm_2nd_nc in E. apply deposit2nd_share; [exact Hib|].
    rewrite <- E. f_equal; apply v3_ext; intros e; rewrite ?get3_gen3; reflexivity.
Qed.

Definition dep_dim (d : dim_t) : Prop := d = dim_xyz \/ d = dim_yz.

Lemma code_dep_total s d dx fnqs ib xi val f : dep_dim d -> exists f', code_dep s d dx fnqs ib xi val f = Some f'.
Proof.
  intros [-> | ->]; destruct s; unfold code_dep; cbn; eexists; reflexivity.
Qed.

(** ** Sums of shares *)

Lemma shape_nonneg s t : 0 <= shape_of s t.
Proof. destruct s; [apply hat_nonneg|apply hat_nonneg|apply spline2_nonneg]. Qed.

Lemma share_nonneg s inv x n : 0 <= share (shape_of s) inv x n.
Proof.
  rewrite share_get. assert (D : forall a, 0 <= delta a 0) by (intros a; unfold delta; destruct (a =? 0)%Z; lra).
  repeat apply Rmult_le_pos; match goal with |- context [if ?b then _ else _] => destruct b end; apply D || apply shape_nonneg.
Qed.

(** the nodes a particle at x can touch in one direction *)
Definition reach (s : dep_scheme) (x : R) (n : Z) : Prop :=
  match s with dep_2nd_nc => Rabs (x - IZR n) < 3 / 2 | _ => Rabs (x - IZR n) < 1 end.

Lemma shape_reach s x n : shape_of s (x - IZR n) <> 0 -> reach s x n.
Proof.
  intros H. destruct s; cbn [shape_of reach] in *.
  1,2: destruct (Rlt_dec (Rabs (x - IZR n)) 1); [assumption|]; exfalso; apply H; unfold hat; apply Rmax_left; lra.
  destruct (Rlt_dec (Rabs (x - IZR n)) (3 / 2)); [assumption|]. exfalso. apply H. apply spline2_out. lra.
Qed.

Lemma sum1_hat (g : Z -> R) x lo hi : (lo <= fint x)%Z -> (fint x + 1 < hi)%Z ->
  rsum (map (fun n => g n * hat (x - IZR n)) (zrange lo hi)) = g (fint x) * (1 - (x - IZR (fint x))) + g (fint x + 1)%Z * (x - IZR (fint x)).
Proof.
  intros H1 H2. set (k := fint x) in *. assert (K : IZR k <= x <= IZR k + 1) by (pose proof (floor_spec x) as F; fold k in F; lra).
  rewrite (rsum_ext _ (fun n => (g n * (1 - (x - IZR k))) * delta k n + (g n * (x - IZR k)) * delta (k + 1) n)) by (intros n _; rewrite (hat_cell x k n K); ring).
  rewrite rsum_plus, !(rsum_delta (fun n => g n * _)).
  replace ((lo <=? k)%Z && (k <? hi)%Z)%bool with true by lia. replace ((lo <=? k + 1)%Z && (k + 1 <? hi)%Z)%bool with true by lia. reflexivity.
Qed.

Lemma sum1_spline (g : Z -> R) x lo hi : (lo <= nint x - 1)%Z -> (nint x + 1 < hi)%Z -> let h := IZR (nint x) - x in
  rsum (map (fun n => g n * spline2 (x - IZR n)) (zrange lo hi)) =
    g (nint x - 1)%Z * (/ 2 * (/ 2 + h) * (/ 2 + h)) + g (nint x) * (3 / 4 - h * h) + g (nint x + 1)%Z * (/ 2 * (/ 2 - h) * (/ 2 - h)).
Proof.
  intros H1 H2 h. unfold h. clear h. pose proof (nint_spec x) as K. set (k := nint x) in *.
  rewrite (rsum_ext _ (fun n => ((g n * (/ 2 * (/ 2 + (IZR k - x)) * (/ 2 + (IZR k - x)))) * delta (k - 1) n + (g n * (3 / 4 - (IZR k - x) * (IZR k - x))) * delta k n) +
     (g n * (/ 2 * (/ 2 - (IZR k - x)) * (/ 2 - (IZR k - x)))) * delta (k + 1) n)) by (intros n _; rewrite (spline2_cell x k n K); ring).
  rewrite !rsum_plus, !(rsum_delta (fun n => g n * _)).
  replace ((lo <=? k - 1)%Z && (k - 1 <? hi)%Z)%bool with true by lia. replace ((lo <=? k)%Z && (k <? hi)%Z)%bool with true by lia.
  replace ((lo <=? k + 1)%Z && (k + 1 <? hi)%Z)%bool with true by lia. reflexivity.
Qed.

(** the range [lo, hi) contains all nodes within reach of x *)
Definition covers (s : dep_scheme) (x : R) (lo hi : Z) : Prop :=
  match s with dep_2nd_nc => (lo <= nint x - 1)%Z /\ (nint x + 1 < hi)%Z | _ => (lo <= fint x)%Z /\ (fint x + 1 < hi)%Z end.

Lemma sum1_one s x lo hi : covers s x lo hi -> rsum (map (fun n => shape_of s (x - IZR n)) (zrange lo hi)) = 1.
Proof.
  intros H. destruct s; cbn [shape_of covers] in *.
  1,2: rewrite (rsum_ext _ (fun n => 1 * hat (x - IZR n))) by (intros; ring); rewrite (sum1_hat (fun _ => 1)) by apply H; ring.
  rewrite (rsum_ext _ (fun n => 1 * spline2 (x - IZR n))) by (intros; ring). rewrite (sum1_spline (fun _ => 1)) by apply H. cbv zeta. lra.
Qed.

Lemma sum1_centroid s x lo hi : covers s x lo hi -> rsum (map (fun n => IZR n * shape_of s (x - IZR n)) (zrange lo hi)) = x.
Proof.
  intros H. destruct s; cbn [shape_of covers] in *.
  1,2: rewrite (sum1_hat IZR) by apply H; rewrite plus_IZR; ring.
  rewrite (sum1_spline IZR) by apply H. cbv zeta. rewrite plus_IZR, minus_IZR. lra.
Qed.

Lemma sum_nodes_rsum lo hi u : sum_nodes lo hi u =
  rsum (map (fun k => rsum (map (fun j => rsum (map (fun i => u (v3 i j k)) (zrange (c0 lo) (c0 hi)))) (zrange (c1 lo) (c1 hi)))) (zrange (c2 lo) (c2 hi))).
Proof. reflexivity. Qed.

Lemma sum_nodes_prod lo hi (a b c : Z -> R) : sum_nodes lo hi (fun n => a (c0 n) * b (c1 n) * c (c2 n)) =
  rsum (map a (zrange (c0 lo) (c0 hi))) * rsum (map b (zrange (c1 lo) (c1 hi))) * rsum (map c (zrange (c2 lo) (c2 hi))).
Proof.
  rewrite sum_nodes_rsum. cbn [c0 c1 c2].
  rewrite (rsum_ext _ (fun k => (rsum (map a (zrange (c0 lo) (c0 hi))) * rsum (map b (zrange (c1 lo) (c1 hi)))) * c k)).
  - rewrite rsum_mul. ring.
  - intros k _. rewrite (rsum_ext _ (fun j => (rsum (map a (zrange (c0 lo) (c0 hi))) * c k) * b j)).
    + rewrite rsum_mul. ring.
    + intros j _. rewrite (rsum_ext _ (fun i => (b j * c k) * a i)) by (intros; ring). rewrite rsum_mul. ring.
Qed.

Lemma sum_nodes_ext lo hi u v : (forall n, u n = v n) -> sum_nodes lo hi u = sum_nodes lo hi v.
Proof. intros H. rewrite !sum_nodes_rsum. apply rsum_ext. intros k _. apply rsum_ext. intros j _. apply rsum_ext. intros i _. apply H. Qed.

Lemma sum_nodes_plus lo hi u v : sum_nodes lo hi (fun n => u n + v n) = sum_nodes lo hi u + sum_nodes lo hi v.
Proof. rewrite !sum_nodes_rsum, <- rsum_plus. apply rsum_ext. intros k _. rewrite <- rsum_plus. apply rsum_ext. intros j _. apply rsum_plus. Qed.

Lemma sum_nodes_mul lo hi c u : sum_nodes lo hi (fun n => c * u n) = c * sum_nodes lo hi u.
Proof. rewrite !sum_nodes_rsum, <- rsum_mul. apply rsum_ext. intros k _. rewrite <- rsum_mul. apply rsum_ext. intros j _. apply rsum_mul. Qed.

Definition covers3 (s : dep_scheme) (inv : V3 bool) (x : V3 R) (lo hi : V3 Z) : Prop :=
  forall d, if get3 inv d then (get3 lo d <= 0 < get3 hi d)%Z else covers s (get3 x d) (get3 lo d) (get3 hi d).

Definition dir_share (s : dep_scheme) (inv : V3 bool) (x : V3 R) (d : dim3) (n : Z) : R :=
  if get3 inv d then delta n 0 else shape_of s (get3 x d - IZR n).

Lemma dir_sum s inv x lo hi d : covers3 s inv x lo hi ->
  rsum (map (dir_share s inv x d) (zrange (get3 lo d) (get3 hi d))) = 1.
Proof.
  intros H. specialize (H d). unfold dir_share. destruct (get3 inv d).
  - rewrite (rsum_ext _ (fun n => 1 * delta 0 n)) by (intros; rewrite delta_sym; ring). rewrite (rsum_delta (fun _ => 1)).
    replace ((get3 lo d <=? 0)%Z && (0 <? get3 hi d)%Z)%bool with true by lia. reflexivity.
  - apply sum1_one. exact H.
Qed.

Lemma dir_centroid s inv x lo hi d : covers3 s inv x lo hi ->
  rsum (map (fun n => IZR n * dir_share s inv x d n) (zrange (get3 lo d) (get3 hi d))) = if get3 inv d then 0 else get3 x d.
Proof.
  intros H. specialize (H d). unfold dir_share. destruct (get3 inv d).
  - rewrite (rsum_ext _ (fun n => IZR n * delta 0 n)) by (intros; rewrite delta_sym; ring). rewrite (rsum_delta IZR).
    destruct ((get3 lo d <=? 0)%Z && (0 <? get3 hi d)%Z)%bool; reflexivity.
  - apply sum1_centroid. exact H.
Qed.

Lemma share_dirs s inv x n : share (shape_of s) inv x n = dir_share s inv x D0 (c0 n) * dir_share s inv x D1 (c1 n) * dir_share s inv x D2 (c2 n).
Proof. reflexivity. Qed.

Lemma share_sum s inv x lo hi : covers3 s inv x lo hi -> sum_nodes lo hi (share (shape_of s) inv x) = 1.
Proof.
  intros H. rewrite (sum_nodes_ext _ _ _ _ (share_dirs s inv x)).
  rewrite (sum_nodes_prod lo hi (dir_share s inv x D0) (dir_share s inv x D1) (dir_share s inv x D2)).
  rewrite (dir_sum s inv x lo hi D0 H : rsum (map _ (zrange (c0 lo) (c0 hi))) = 1).
  rewrite (dir_sum s inv x lo hi D1 H : rsum (map _ (zrange (c1 lo) (c1 hi))) = 1).
  rewrite (dir_sum s inv x lo hi D2 H : rsum (map _ (zrange (c2 lo) (c2 hi))) = 1). ring.
Qed.

Lemma share_centroid s inv x lo hi d : covers3 s inv x lo hi ->
  sum_nodes lo hi (fun n => IZR (get3 n d) * share (shape_of s) inv x n) = if get3 inv d then 0 else get3 x d.
Proof.
  intros H.
  pose proof (dir_sum s inv x lo hi D0 H) as S0. pose proof (dir_sum s inv x lo hi D1 H) as S1. pose proof (dir_sum s inv x lo hi D2 H) as S2.
  pose proof (dir_centroid s inv x lo hi d H) as C. cbn [get3] in S0, S1, S2. destruct d; cbn [get3] in C |- *.
  - rewrite (sum_nodes_ext _ _ _ (fun n => (IZR (c0 n) * dir_share s inv x D0 (c0 n)) * dir_share s inv x D1 (c1 n) * dir_share s inv x D2 (c2 n)))
      by (intros n; rewrite share_dirs; ring).
    rewrite (sum_nodes_prod lo hi (fun i => IZR i * dir_share s inv x D0 i) (dir_share s inv x D1) (dir_share s inv x D2)), C, S1, S2. ring.
  - rewrite (sum_nodes_ext _ _ _ (fun n => dir_share s inv x D0 (c0 n) * (IZR (c1 n) * dir_share s inv x D1 (c1 n)) * dir_share s inv x D2 (c2 n)))
      by (intros n; rewrite share_dirs; ring).
    rewrite (sum_nodes_prod lo hi (dir_share s inv x D0) (fun i => IZR i * dir_share s inv x D1 i) (dir_share s inv x D2)), C, S0, S2. ring.
  - rewrite (sum_nodes_ext _ _ _ (fun n => dir_share s inv x D0 (c0 n) * dir_share s inv x D1 (c1 n) * (IZR (c2 n) * dir_share s inv x D2 (c2 n))))
      by (intros n; rewrite share_dirs; ring).
    rewrite (sum_nodes_prod lo hi (dir_share s inv x D0) (dir_share s inv x D1) (fun i => IZR i * dir_share s inv x D2 i)), C, S0, S1. ring.
Qed.

(** ** Positions inside a patch *)

(** 0 <= xi < ldims * dx in the directions that are resolved *)
Definition inside (d : dim_t) (ld : V3 Z) (dx xi : V3 R) : Prop :=
  forall e, get3 (invar_of d) e = false -> 0 < get3 dx e /\ 0 <= get3 xi e < IZR (get3 ld e) * get3 dx e.

(** the ghost points a scheme needs below and above *)
Definition ghosts_lo (s : dep_scheme) : Z := match s with dep_1st_nc => 0 | _ => 1 end.
Definition ghosts_hi (s : dep_scheme) : Z := match s with dep_2nd_nc => 2 | _ => 1 end.

Lemma nint_bounds x k : IZR k <= x -> (k <= nint x)%Z.
Proof.
  intros H. pose proof (nint_spec x) as N. apply Rabs_def2b in N.
  assert (IZR k - 1 < IZR (nint x)) by lra. rewrite <- minus_IZR in H0. apply lt_IZR in H0. lia.
Qed.
Lemma nint_bounds_hi x k : x <= IZR k -> (nint x <= k)%Z.
Proof.
  intros H. pose proof (nint_spec x) as N. apply Rabs_def2b in N.
  assert (IZR (nint x) < IZR k + 1) by lra. rewrite <- plus_IZR in H0. apply lt_IZR in H0. lia.
Qed.
Lemma fint_bounds x k : IZR k <= x -> (k <= fint x)%Z.
Proof. intros H. unfold fint. apply Zfloor_lub. exact H. Qed.
Lemma fint_bounds_hi x k : x < IZR k -> (fint x < k)%Z.
Proof. intros H. pose proof (floor_spec x). apply lt_IZR. lra. Qed.

Lemma inside_place s d ld dx xi e : inside d ld dx xi -> get3 (invar_of d) e = false ->
  - offset_of s <= get3 (place s dx xi) e < IZR (get3 ld e) - offset_of s.
Proof.
  intros H He. destruct (H e He) as [P [A B]]. unfold place. rewrite get3_gen3.
  assert (0 <= get3 xi e / get3 dx e) by (apply Rmult_le_pos; [exact A|left; apply Rinv_0_lt_compat; exact P]).
  assert (get3 xi e / get3 dx e < IZR (get3 ld e)).
  { apply Rmult_lt_reg_r with (get3 dx e); [exact P|]. unfold Rdiv. rewrite Rmult_assoc, Rinv_l by lra. lra. }
  lra.
Qed.

Lemma inside_covers s d ld dx xi : inside d ld dx xi ->
  covers3 s (invar_of d) (place s dx xi)
    (gen3 (fun e => if get3 (invar_of d) e then 0 else - ghosts_lo s)%Z) (gen3 (fun e => if get3 (invar_of d) e then 1 else get3 ld e + ghosts_hi s)%Z).
Proof.
  intros H e. rewrite !get3_gen3. destruct (get3 (invar_of d) e) eqn:E; [lia|]. pose proof (inside_place s d ld dx xi e H E) as [A B].
  set (y := get3 (place s dx xi) e) in *. destruct s; cbn [covers ghosts_lo ghosts_hi offset_of] in *.
  - assert (fint y < get3 ld e)%Z by (apply fint_bounds_hi; lra). assert (0 <= fint y)%Z by (apply fint_bounds; lra). lia.
  - assert (fint y < get3 ld e)%Z by (apply fint_bounds_hi; lra). assert (-1 <= fint y)%Z by (apply fint_bounds; lra). lia.
  - assert (nint y <= get3 ld e)%Z by (apply nint_bounds_hi; lra). assert (0 <= nint y)%Z by (apply nint_bounds; lra). lia.
Qed.

Lemma covers_reach s x lo hi n : covers s x lo hi -> reach s x n -> (lo <= n < hi)%Z.
Proof.
  intros H R0. destruct s; cbn [covers reach] in *.
  1,2: apply Rabs_def2 in R0; pose proof (floor_spec x);
    assert (IZR (fint x) - 1 < IZR n) by lra; assert (IZR n < IZR (fint x) + 2) by lra; rewrite <- minus_IZR in H1; rewrite <- plus_IZR in H2;
    apply lt_IZR in H1; apply lt_IZR in H2; lia.
  apply Rabs_def2 in R0. pose proof (nint_spec x) as N. apply Rabs_def2b in N.
  assert (IZR (nint x) - 2 < IZR n) by lra. assert (IZR n < IZR (nint x) + 2) by lra. rewrite <- minus_IZR in H0. rewrite <- plus_IZR in H1.
  apply lt_IZR in H0. apply lt_IZR in H1. lia.
Qed.

Lemma share_local s d ld dx xi n : inside d ld dx xi -> share (shape_of s) (invar_of d) (place s dx xi) n <> 0 ->
  forall e, if get3 (invar_of d) e then get3 n e = 0%Z else (- ghosts_lo s <= get3 n e < get3 ld e + ghosts_hi s)%Z.
Proof.
  intros H Hs e. pose proof (inside_covers s d ld dx xi H e) as C. rewrite !get3_gen3 in C. rewrite share_dirs in Hs.
  assert (X : dir_share s (invar_of d) (place s dx xi) e (get3 n e) <> 0).
  { intros Z. apply Hs. destruct e; cbn [get3] in Z; rewrite Z; ring. }
  unfold dir_share in X. destruct (get3 (invar_of d) e).
  - unfold delta in X. destruct (Z.eqb_spec (get3 n e) 0); [assumption|lra].
  - apply shape_reach in X. exact (covers_reach s _ _ _ _ C X).
Qed.

(** ** All particles of a patch *)

Lemma dep_particles_share s d dx fnqs ib m : wf_ib d ib -> forall prts f f',
  dep_particles s d dx fnqs ib prts f = Some f' ->
  f' m = f m + rsum (map (fun p => fnqs * snd p * share (shape_of s) (invar_of d) (place s dx (fst p)) (node ib m)) prts).
Proof.
  intros Hib. induction prts as [|[x val] prts IH]; intros f f' H; cbn [dep_particles] in H.
  - injection H as <-. cbn. ring.
  - destruct (code_dep s d dx fnqs ib x val f) as [f1|] eqn:E; [|discriminate].
    rewrite (IH f1 f' H), (code_dep_share s d dx fnqs ib x val f f1 m Hib E). cbn [map fst snd]. rewrite rsum_cons. ring.
Qed.

Lemma dep_particles_total s d dx fnqs ib : dep_dim d -> forall prts f, exists f', dep_particles s d dx fnqs ib prts f = Some f'.
Proof.
  intros Hd. induction prts as [|[x val] prts IH]; intros f; cbn [dep_particles]; [eexists; reflexivity|].
  destruct (code_dep_total s d dx fnqs ib x val f Hd) as [f1 ->]. apply IH.
Qed.

(** the total deposited, over the stored points *)
Lemma dep_particles_sum s d ld dx fnqs ib prts f' : wf_ib d ib ->
  (forall p, In p prts -> inside d ld dx (fst p)) ->
  dep_particles s d dx fnqs ib prts (fun _ => 0) = Some f' ->
  let lo := gen3 (fun e => if get3 (invar_of d) e then 0 else - ghosts_lo s)%Z in
  let hi := gen3 (fun e => if get3 (invar_of d) e then 1 else get3 ld e + ghosts_hi s)%Z in
  sum_nodes lo hi (fun n => f' (gen3 (fun e => get3 n e - get3 ib e)%Z)) = fnqs * rsum (map snd prts).
Proof.
  intros Hib Hin H lo hi.
  rewrite (sum_nodes_ext _ _ _ (fun n => rsum (map (fun p => fnqs * snd p * share (shape_of s) (invar_of d) (place s dx (fst p)) n) prts))).
  2:{ intros n. rewrite (dep_particles_share s d dx fnqs ib _ Hib prts _ _ H). rewrite Rplus_0_l. apply rsum_ext. intros p _. do 2 f_equal.
      apply v3_ext. intros e. unfold node. rewrite !get3_gen3. lia. }
  clear H. induction prts as [|p prts IH]; cbn [map].
  - rewrite (sum_nodes_ext _ _ _ (fun n => 0 * 0)) by (intros; cbn; ring). rewrite (sum_nodes_mul lo hi 0 (fun _ => 0)). cbn. ring.
  - rewrite (sum_nodes_ext _ _ _ (fun n => fnqs * snd p * share (shape_of s) (invar_of d) (place s dx (fst p)) n +
        rsum (map (fun p => fnqs * snd p * share (shape_of s) (invar_of d) (place s dx (fst p)) n) prts))) by (intros; apply rsum_cons).
    rewrite sum_nodes_plus, sum_nodes_mul, rsum_cons, (IH (fun q Hq => Hin q (or_intror Hq))).
    rewrite share_sum by (apply inside_covers; apply Hin; left; reflexivity). ring.
Qed.
