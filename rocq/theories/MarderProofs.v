From Coq Require Import Reals Lra Psatz.
From Verif Require Import Base DomainSpec CollisionProofs RSum FieldModel FieldSpec FieldProofs FieldRunProofs.
Local Open Scope R_scope.

Lemma div_nc_minus g f i : div_nc g f i = div_minus (invar g) (dx g) f i.
Proof.
  unfold div_nc, div_minus, dminus. cbn [fold_left dims3].
  destruct (get3 (invar g) D0), (get3 (invar g) D1), (get3 (invar g) D2); ring.
Qed.

Lemma sum_box_rsum n u : sum_box n u =
  rsum (map (fun k => rsum (map (fun j => rsum (map (fun i => u (v3 i j k)) (zrange 0 (c0 n)))) (zrange 0 (c1 n)))) (zrange 0 (c2 n))).
Proof. reflexivity. Qed.

Lemma sum_box_ext n u u' : (forall i, in_box n i -> u i = u' i) -> sum_box n u = sum_box n u'.
Proof.
  intros H. rewrite !sum_box_rsum. apply rsum_ext. intros k Hk. apply rsum_ext. intros j Hj. apply rsum_ext. intros i Hi.
  apply in_zrange in Hk, Hj, Hi. apply H. intros []; cbn; assumption.
Qed.

Lemma sum_box_plus n u u' : sum_box n (fun i => u i + u' i) = sum_box n u + sum_box n u'.
Proof.
  rewrite !sum_box_rsum, <- rsum_plus. apply rsum_ext. intros k _. rewrite <- rsum_plus. apply rsum_ext. intros j _. apply rsum_plus.
Qed.

Lemma sum_box_mul n c u : sum_box n (fun i => c * u i) = c * sum_box n u.
Proof.
  rewrite !sum_box_rsum, <- rsum_mul. apply rsum_ext. intros k _. rewrite <- rsum_mul. apply rsum_ext. intros j _. apply rsum_mul.
Qed.

(** the difference in direction d of a function with period n sums to zero *)
Lemma sum_box_diff n d u : (forall e, 0 <= get3 n e)%Z -> (forall i, u (shift i d (get3 n d)) = u i) ->
  sum_box n (fun i => u (shift i d 1) - u i) = 0.
Proof.
  intros Hn Hp. rewrite sum_box_rsum. pose proof (Hn D0) as N0. pose proof (Hn D1) as N1. pose proof (Hn D2) as N2. destruct d.
  - apply rsum_zero. intros k _. apply rsum_zero. intros j _. cbn [get3] in *.
    etransitivity; [exact (rsum_tele (fun i => u (v3 i j k)) (c0 n) N0)|]. cbn beta. specialize (Hp (v3 0%Z j k)). unfold shift in Hp. cbn in Hp. lra.
  - apply rsum_zero. intros k _. rewrite rsum_swap. apply rsum_zero. intros i _. cbn [get3] in *.
    etransitivity; [exact (rsum_tele (fun j => u (v3 i j k)) (c1 n) N1)|]. cbn beta. specialize (Hp (v3 i 0%Z k)). unfold shift in Hp. cbn in Hp. lra.
  - rewrite rsum_swap. apply rsum_zero. intros j _. rewrite rsum_swap. apply rsum_zero. intros i _. cbn [get3] in *.
    etransitivity; [exact (rsum_tele (fun k => u (v3 i j k)) (c2 n) N2)|]. cbn beta. specialize (Hp (v3 i j 0%Z)). unfold shift in Hp. cbn in Hp. lra.
Qed.

Lemma sum_patches_global g np (u : V3 Z -> R) : wf_grid g -> wf_np g np ->
  sum_patches g np (fun pi i => u (vadd (off g pi) i)) = sum_box (gdims g np) u.
Proof.
  intros W Wn. unfold sum_patches.
  assert (A : forall d, (0 <= get3 np d)%Z /\ (0 <= get3 (ldims g) d)%Z).
  { intros d. destruct (W d) as [A _], (Wn d) as [B _]. lia. }
  pose proof (A D0) as [N0 L0]. pose proof (A D1) as [N1 L1]. pose proof (A D2) as [N2 L2]. cbn [get3] in *.
  set (S := fun m (f : Z -> R) => rsum (map f (zrange 0 m))).
  assert (Sx : forall m f f', (forall x, f x = f' x) -> S m f = S m f') by (intros m f f' H; apply rsum_ext; auto).
  assert (Sw : forall m n f, S m (fun a => S n (f a)) = S n (fun b => S m (fun a => f a b))) by (intros; apply rsum_swap).
  assert (Sp : forall m n f, (0 <= m)%Z -> (0 <= n)%Z -> S (m * n)%Z f = S m (fun p => S n (fun i => f (p * n + i)%Z))) by (intros; apply rsum_split; assumption).
  destruct np as [m0 m1 m2], (ldims g) as [l0 l1 l2] eqn:El. cbn [c0 c1 c2] in *.
  assert (G : sum_box (gdims g (v3 m0 m1 m2)) u = S (m2 * l2)%Z (fun k => S (m1 * l1)%Z (fun j => S (m0 * l0)%Z (fun i => u (v3 i j k))))).
  { unfold gdims, gen3. rewrite El. reflexivity. }
  rewrite G, Sp by assumption.
  transitivity (S m2 (fun p2 => S m1 (fun p1 => S m0 (fun p0 => S l2 (fun k => S l1 (fun j => S l0 (fun i =>
    u (v3 (p0 * l0 + i)%Z (p1 * l1 + j)%Z (p2 * l2 + k)%Z)))))))).
  { unfold off. rewrite El. reflexivity. }
  apply Sx. intros p2.
  transitivity (S l2 (fun k => S m1 (fun p1 => S m0 (fun p0 => S l1 (fun j => S l0 (fun i => u (v3 (p0 * l0 + i)%Z (p1 * l1 + j)%Z (p2 * l2 + k)%Z))))))).
  { etransitivity; [|symmetry; apply Sw]. apply Sx. intros p1. apply Sw. }
  apply Sx. intros k. rewrite Sp by assumption. apply Sx. intros p1. etransitivity; [apply Sw|]. apply Sx. intros j. symmetry. apply Sp; assumption.
Qed.

(** ** One pass *)

Definition kappa (g : fgrid) (diffusion : R) : R := 1 / 2 * dt g * diffusion.

Definition gmarder (g : fgrid) (diffusion : R) (G : pf) (r : V3 Z -> R) : pf := fun q d x =>
  match q with QE => G QE d x + kappa g diffusion * dplus (invar g) (dx g) d r x | _ => G q d x end.

Lemma shift_interior_stored g i d : wf_grid g -> in_box (ldims g) i -> get3 (invar g) d = false -> stored g (shift i d 1).
Proof. intros W Hi Hd. apply (within_stored g 1 1); [exact W|lia|lia|]. apply in_box_shift_stored; assumption || lia. Qed.

Lemma holds_marder g np mf G dif (res : V3 Z -> V3 Z -> R) Gr : wf_grid g -> holds g np mf G ->
  holds g np (fun pi _ _ i => res pi i) Gr ->
  holds_in g np (fun pi => marder_correct g dif (mf pi) (res pi)) (gmarder g dif G (Gr QE D0)).
Proof.
  intros W H Hr pi q d i Hp Hi. unfold marder_correct.
  pose proof (H pi q d i Hp (in_box_stored g i W Hi)) as E0.
  destruct q; cbn [qty_eqb andb gmarder]; try exact E0.
  rewrite (proj2 (interior_iff g i) Hi), andb_true_r. unfold dplus.
  destruct (get3 (invar g) d) eqn:Ed; cbn [negb]; [rewrite E0; ring|].
  pose proof (Hr pi QE D0 i Hp (in_box_stored g i W Hi)) as R0. pose proof (Hr pi QE D0 _ Hp (shift_interior_stored g i d W Hi Ed)) as R1.
  cbn beta in R0, R1. rewrite R0, R1, E0, vadd_shift. unfold kappa. field. apply W.
Qed.

Lemma gmarder_div g dif G r x : wf_grid g ->
  div_minus (invar g) (dx g) (gmarder g dif G r QE) x = div_minus (invar g) (dx g) (G QE) x + kappa g dif * laplace (invar g) (dx g) r x.
Proof.
  intros W. pose proof (wf_dx g W) as Hh.
  rewrite (div_minus_local _ _ _ (fun d j => 1 * G QE d j + kappa g dif * dplus (invar g) (dx g) d r j));
    [|intros; cbn [gmarder]; ring|intros; cbn [gmarder]; ring].
  rewrite (div_minus_lin _ _ 1 (kappa g dif) (G QE) (fun d => dplus (invar g) (dx g) d r)) by exact Hh.
  change (div_minus (invar g) (dx g) (fun d => dplus (invar g) (dx g) d r) x) with (laplace (invar g) (dx g) r x). ring.
Qed.

Lemma laplace_local inv h u v i : (u i = v i) -> (forall d s, get3 inv d = false -> (s = 1 \/ s = -1)%Z -> u (shift i d s) = v (shift i d s)) ->
  laplace inv h u i = laplace inv h v i.
Proof.
  intros H0 H1. unfold laplace, dminus, dplus.
  rewrite !(shift_back i _ (-1) 1) by lia. rewrite !H0.
  destruct (get3 inv D0) eqn:E0, (get3 inv D1) eqn:E1, (get3 inv D2) eqn:E2;
    repeat (rewrite H1 by (assumption || (left; reflexivity) || (right; reflexivity))); reflexivity.
Qed.

Lemma holds_laplace g np (res : V3 Z -> V3 Z -> R) Gr pi i : wf_grid g -> holds g np (fun pi _ _ i => res pi i) Gr ->
  in_box np pi -> in_box (ldims g) i ->
  laplace (invar g) (dx g) (res pi) i = laplace (invar g) (dx g) (Gr QE D0) (vadd (off g pi) i).
Proof.
  intros W Hr Hp Hi.
  assert (E : laplace (invar g) (dx g) (Gr QE D0) (vadd (off g pi) i) = laplace (invar g) (dx g) (fun j => Gr QE D0 (vadd (off g pi) j)) i).
  { unfold laplace, dminus, dplus. rewrite <- !vadd_shift. reflexivity. }
  rewrite E. apply laplace_local.
  - apply (Hr pi QE D0 i Hp). apply in_box_stored; assumption.
  - intros d s Hd Hs. apply (Hr pi QE D0 _ Hp). apply (within_stored g 1 1); [exact W|lia|lia|].
    apply in_box_shift_stored; assumption || lia.
Qed.

Definition residual (g : fgrid) (mf : V3 Z -> pf) (rho : V3 Z -> V3 Z -> R) (pi i : V3 Z) : R := marder_res g (mf pi) (rho pi) i.

(** everything about a pass, in terms of a periodic function r for the residual *)
Lemma pass_facts g np dif rho mf mf' : wf_grid g -> wf_np g np -> marder_pass g np dif rho mf mf' ->
  consistent g np mf' /\
  exists Gr : pf, periodic g np Gr /\
    (forall pi i, in_box np pi -> in_box (ldims g) i -> residual g mf rho pi i = Gr QE D0 (vadd (off g pi) i)) /\
    (forall pi i, in_box np pi -> in_box (ldims g) i -> residual g mf' rho pi i =
       Gr QE D0 (vadd (off g pi) i) + kappa g dif * laplace (invar g) (dx g) (Gr QE D0) (vadd (off g pi) i)) /\
    (forall pi q d i, in_box np pi -> in_box (ldims g) i -> mf' pi q d i =
       match q with QE => mf pi QE d i + kappa g dif * dplus (invar g) (dx g) d (Gr QE D0) (vadd (off g pi) i) | _ => mf pi q d i end).
Proof.
  intros W Wn [[G [P H]] [res [Hres [[Gr [Pr Hr]] [Href [G' [P' H']]]]]]]. split; [exists G'; auto|]. exists Gr. split; [exact Pr|].
  assert (R0 : forall pi i, in_box np pi -> in_box (ldims g) i -> residual g mf rho pi i = Gr QE D0 (vadd (off g pi) i)).
  { intros pi i Hp Hi. unfold residual. rewrite <- Hres by assumption. apply (Hr pi QE D0 i Hp). apply in_box_stored; assumption. }
  split; [exact R0|].
  pose proof (holds_marder g np mf G dif res Gr W H Hr) as Hm.
  assert (HG : forall q d x, G' q d x = gmarder g dif G (Gr QE D0) q d x).
  { intros q d x. apply (pinned g np mf'); try assumption.
    - intros q0 d0 i0 e. destruct q0; cbn [gmarder]; rewrite P; try reflexivity. unfold dplus. rewrite (shift_comm i0 e _ d0 1), !Pr. reflexivity.
    - intros pi i Hp Hi. apply H'; [exact Hp|apply in_box_stored; assumption].
    - intros pi i Hp Hi. rewrite Href by assumption. apply Hm; assumption. }
  split.
  - intros pi i Hp Hi. rewrite <- R0 by assumption. unfold residual, marder_res. rewrite !div_nc_minus.
    rewrite (holds_div_minus g np mf' G'), (holds_div_minus g np mf G) by assumption.
    rewrite (div_minus_local _ _ (G' QE) (gmarder g dif G (Gr QE D0) QE)) by (intros; apply HG). rewrite gmarder_div by exact W. ring.
  - intros pi q d i Hp Hi. rewrite Href by assumption. rewrite Hm by assumption.
    pose proof (H pi q d i Hp (in_box_stored g i W Hi)) as E. destruct q; cbn [gmarder]; rewrite E; reflexivity.
Qed.

(** the defect obeys a diffusion step; the Laplacian reads the residual with its
    ghost points *)
Lemma pass_diffusion g np dif rho mf mf' : wf_grid g -> wf_np g np -> marder_pass g np dif rho mf mf' ->
  exists res : V3 Z -> V3 Z -> R, consistent g np (fun pi _ _ i => res pi i) /\
  (forall pi i, in_box np pi -> in_box (ldims g) i -> res pi i = residual g mf rho pi i) /\
  forall pi i, in_box np pi -> in_box (ldims g) i ->
  residual g mf' rho pi i = residual g mf rho pi i + 1 / 2 * dt g * dif * laplace (invar g) (dx g) (res pi) i.
Proof.
  intros W Wn Hp0. destruct (pass_facts g np dif rho mf mf' W Wn Hp0) as [_ [Gr [Pr [R0 [R1 _]]]]].
  exists (fun pi i => Gr QE D0 (vadd (off g pi) i)).
  assert (Hh : holds g np (fun pi _ _ i => Gr QE D0 (vadd (off g pi) i)) (fun _ _ => Gr QE D0)) by (intros pi q d i _ _; reflexivity).
  split; [|split].
  - exists (fun _ _ => Gr QE D0). split; [intros q d i e; apply Pr|exact Hh].
  - intros pi i Hp Hi. symmetry. apply R0; assumption.
  - intros pi i Hp Hi. rewrite R1, R0 by assumption.
    rewrite (holds_laplace g np (fun pi i => Gr QE D0 (vadd (off g pi) i)) (fun _ _ => Gr QE D0)) by assumption. reflexivity.
Qed.

Lemma pass_zero g np dif rho mf mf' : wf_grid g -> wf_np g np -> marder_pass g np dif rho mf mf' ->
  (forall pi i, in_box np pi -> in_box (ldims g) i -> residual g mf rho pi i = 0) ->
  forall pi q d i, in_box np pi -> in_box (ldims g) i -> mf' pi q d i = mf pi q d i.
Proof.
  intros W Wn Hp0 Hz. destruct (pass_facts g np dif rho mf mf' W Wn Hp0) as [_ [Gr [Pr [R0 [_ E]]]]].
  assert (Z : forall x, Gr QE D0 x = 0).
  { intros x. rewrite <- (periodic_wrap g np Gr W Wn Pr). destruct (covered g np x W Wn) as [pi [i [Hp [Hi <-]]]].
    rewrite <- R0 by assumption. apply Hz; assumption. }
  intros pi q d i Hp Hi. rewrite E by assumption. destruct q; try reflexivity.
  unfold dplus. rewrite !Z. destruct (get3 (invar g) d); [ring|]. unfold Rdiv. ring.
Qed.

Lemma laplace_sum g np (Gr : pf) : wf_grid g -> wf_np g np -> periodic g np Gr ->
  sum_box (gdims g np) (laplace (invar g) (dx g) (Gr QE D0)) = 0.
Proof.
  intros W Wn P. set (r := Gr QE D0).
  assert (N : forall e, (0 <= get3 (gdims g np) e)%Z).
  { intros e. unfold gdims. rewrite get3_gen3. destruct (W e) as [A _], (Wn e) as [B _]. apply Z.mul_nonneg_nonneg; lia. }
  assert (Hper : forall i d, r (shift i d (get3 (gdims g np) d)) = r i).
  { intros i d. unfold gdims. rewrite get3_gen3. apply P. }
  assert (S1 : forall d, sum_box (gdims g np) (fun i => dminus (invar g) (dx g) d (dplus (invar g) (dx g) d r) i) = 0).
  { intros d. destruct (get3 (invar g) d) eqn:Ed.
    - rewrite (sum_box_ext _ _ (fun i => 0 * r i)) by (intros; unfold dminus; rewrite Ed; ring). rewrite sum_box_mul. ring.
    - set (w := fun i => r i - r (shift i d (-1))).
      rewrite (sum_box_ext _ _ (fun i => (/ (get3 (dx g) d * get3 (dx g) d)) * (w (shift i d 1) - w i))).
      + rewrite sum_box_mul, sum_box_diff; [ring|exact N|]. intros i. unfold w. rewrite (shift_comm i d _ d (-1)), !Hper. reflexivity.
      + intros i _. unfold dminus, dplus, w. rewrite Ed. rewrite (shift_back i d (-1) 1), (shift_back i d 1 (-1)) by lia.
        field. apply W. }
  rewrite (sum_box_ext _ _ (fun i => (dminus (invar g) (dx g) D0 (dplus (invar g) (dx g) D0 r) i + dminus (invar g) (dx g) D1 (dplus (invar g) (dx g) D1 r) i) +
     dminus (invar g) (dx g) D2 (dplus (invar g) (dx g) D2 r) i)) by (intros; reflexivity).
  rewrite sum_box_plus, sum_box_plus, !S1. ring.
Qed.

Lemma sum_patches_ext g np u v : (forall pi i, in_box np pi -> in_box (ldims g) i -> u pi i = v pi i) -> sum_patches g np u = sum_patches g np v.
Proof. intros H. unfold sum_patches. apply sum_box_ext. intros pi Hp. apply sum_box_ext. intros i Hi. apply H; assumption. Qed.

Lemma pass_total g np dif rho mf mf' : wf_grid g -> wf_np g np -> marder_pass g np dif rho mf mf' ->
  sum_patches g np (residual g mf' rho) = sum_patches g np (residual g mf rho).
Proof.
  intros W Wn Hp0. destruct (pass_facts g np dif rho mf mf' W Wn Hp0) as [_ [Gr [Pr [R0 [R1 _]]]]].
  rewrite (sum_patches_ext g np _ _ R0).
  rewrite (sum_patches_ext g np _ _ R1).
  rewrite (sum_patches_global g np (Gr QE D0)) by assumption.
  rewrite (sum_patches_global g np (fun x => Gr QE D0 x + kappa g dif * laplace (invar g) (dx g) (Gr QE D0) x)) by assumption.
  rewrite sum_box_plus, sum_box_mul, laplace_sum by assumption. ring.
Qed.

(** ** The defect does not grow *)

Definition inv_sq (g : fgrid) (d : dim3) : R := if get3 (invar g) d then 0 else / (get3 (dx g) d * get3 (dx g) d).

Lemma inv_sq_pos g d : wf_grid g -> 0 <= inv_sq g d /\ (get3 (invar g) d = false -> 0 < inv_sq g d).
Proof.
  intros W. unfold inv_sq. pose proof (wf_dx g W d) as Hh.
  assert (0 < get3 (dx g) d * get3 (dx g) d) by (assert (0 < Rsqr (get3 (dx g) d)) by (apply Rsqr_pos_lt; exact Hh); exact H).
  apply Rinv_0_lt_compat in H. destruct (get3 (invar g) d); split; intros; try discriminate; lra.
Qed.

Lemma laplace_unfold g r i : wf_grid g -> laplace (invar g) (dx g) r i =
  inv_sq g D0 * (r (shift i D0 1) + r (shift i D0 (-1)) - 2 * r i) +
  inv_sq g D1 * (r (shift i D1 1) + r (shift i D1 (-1)) - 2 * r i) +
  inv_sq g D2 * (r (shift i D2 1) + r (shift i D2 (-1)) - 2 * r i).
Proof.
  intros W. unfold laplace.
  assert (H : forall d, dminus (invar g) (dx g) d (dplus (invar g) (dx g) d r) i = inv_sq g d * (r (shift i d 1) + r (shift i d (-1)) - 2 * r i)).
  { intros d. unfold dminus, dplus, inv_sq. destruct (get3 (invar g) d); [ring|]. rewrite (shift_back i d (-1) 1) by lia. field. apply wf_dx. exact W. }
  rewrite !H. reflexivity.
Qed.

Lemma kappa_diffusion g dif_ : wf_grid g -> dt g <> 0 -> (exists d, get3 (invar g) d = false) ->
  2 * kappa g (marder_diffusion g dif_) * (inv_sq g D0 + inv_sq g D1 + inv_sq g D2) = dif_.
Proof.
  intros W Hdt [d Hd]. unfold kappa, marder_diffusion. cbv zeta.
  assert (E : fold_left (fun s d => if get3 (invar g) d then s else s + (1 / get3 (dx g) d) * (1 / get3 (dx g) d)) dims3 0 = inv_sq g D0 + inv_sq g D1 + inv_sq g D2).
  { unfold inv_sq, dims3. cbn [fold_left].
    pose proof (wf_dx g W D0). pose proof (wf_dx g W D1). pose proof (wf_dx g W D2).
    destruct (get3 (invar g) D0), (get3 (invar g) D1), (get3 (invar g) D2); field; auto. }
  rewrite E. set (s := inv_sq g D0 + inv_sq g D1 + inv_sq g D2).
  assert (0 < s).
  { unfold s. destruct (inv_sq_pos g D0 W), (inv_sq_pos g D1 W), (inv_sq_pos g D2 W).
    destruct d; match goal with H : _ = false -> 0 < ?x |- _ => specialize (H Hd) end; lra. }
  field. split; lra.
Qed.

Lemma convex_bound k a b c r x1 x2 y1 y2 z1 z2 M : 0 <= k -> 0 <= a -> 0 <= b -> 0 <= c -> 2 * k * (a + b + c) <= 1 ->
  Rabs r <= M -> Rabs x1 <= M -> Rabs x2 <= M -> Rabs y1 <= M -> Rabs y2 <= M -> Rabs z1 <= M -> Rabs z2 <= M ->
  Rabs (r + k * (a * (x1 + x2 - 2 * r) + b * (y1 + y2 - 2 * r) + c * (z1 + z2 - 2 * r))) <= M.
Proof.
  intros Hk Ha Hb Hc Hs Hr H1 H2 H3 H4 H5 H6.
  assert (Ka : 0 <= k * a) by (apply Rmult_le_pos; assumption).
  assert (Kb : 0 <= k * b) by (apply Rmult_le_pos; assumption).
  assert (Kc : 0 <= k * c) by (apply Rmult_le_pos; assumption).
  replace (r + k * (a * (x1 + x2 - 2 * r) + b * (y1 + y2 - 2 * r) + c * (z1 + z2 - 2 * r)))
    with ((1 - 2 * k * (a + b + c)) * r + k * a * x1 + k * a * x2 + k * b * y1 + k * b * y2 + k * c * z1 + k * c * z2) by ring.
  assert (A : forall w x, 0 <= w -> Rabs x <= M -> Rabs (w * x) <= w * M).
  { intros w x Hw Hx. rewrite Rabs_mult, (Rabs_right w) by lra. apply Rmult_le_compat_l; assumption. }
  pose proof (A (1 - 2 * k * (a + b + c)) r ltac:(lra) Hr).
  pose proof (A (k * a) x1 Ka H1). pose proof (A (k * a) x2 Ka H2). pose proof (A (k * b) y1 Kb H3). pose proof (A (k * b) y2 Kb H4).
  pose proof (A (k * c) z1 Kc H5). pose proof (A (k * c) z2 Kc H6).
  assert (T : forall p q P Q, Rabs p <= P -> Rabs q <= Q -> Rabs (p + q) <= P + Q) by (intros; eapply Rle_trans; [apply Rabs_triang|lra]).
  apply Rle_trans with ((1 - 2 * k * (a + b + c)) * M + k * a * M + k * a * M + k * b * M + k * b * M + k * c * M + k * c * M);
    [repeat apply T; assumption|]. right. ring.
Qed.

Lemma pass_bound g np dif_ rho mf mf' M : wf_grid g -> wf_np g np -> 0 < dt g -> 0 <= dif_ <= 1 -> (exists d, get3 (invar g) d = false) ->
  marder_pass g np (marder_diffusion g dif_) rho mf mf' ->
  (forall pi i, in_box np pi -> in_box (ldims g) i -> Rabs (residual g mf rho pi i) <= M) ->
  forall pi i, in_box np pi -> in_box (ldims g) i -> Rabs (residual g mf' rho pi i) <= M.
Proof.
  intros W Wn Hdt Hd Hex Hp0 HM pi i Hp Hi.
  destruct (pass_facts g np _ rho mf mf' W Wn Hp0) as [_ [Gr [Pr [R0 [R1 _]]]]].
  assert (B : forall x, Rabs (Gr QE D0 x) <= M).
  { intros x. rewrite <- (periodic_wrap g np Gr W Wn Pr). destruct (covered g np x W Wn) as [pi' [i' [Hp' [Hi' <-]]]].
    rewrite <- R0 by assumption. apply HM; assumption. }
  rewrite R1 by assumption. rewrite laplace_unfold by exact W.
  pose proof (kappa_diffusion g dif_ W ltac:(lra) Hex) as Hk.
  set (k := kappa g (marder_diffusion g dif_)) in *.
  destruct (inv_sq_pos g D0 W) as [P0 Q0], (inv_sq_pos g D1 W) as [P1 Q1], (inv_sq_pos g D2 W) as [P2 Q2].
  assert (S : 0 < inv_sq g D0 + inv_sq g D1 + inv_sq g D2) by (destruct Hex as [[] Hd']; [specialize (Q0 Hd')|specialize (Q1 Hd')|specialize (Q2 Hd')]; lra).
  assert (0 <= k).
  { destruct (Rle_dec 0 k) as [H|H]; [exact H|]. exfalso. apply Rnot_le_lt in H.
    assert (2 * k * (inv_sq g D0 + inv_sq g D1 + inv_sq g D2) < 0) by (apply Ropp_lt_cancel; rewrite Ropp_0, Ropp_mult_distr_l; apply Rmult_lt_0_compat; lra). lra. }
  apply convex_bound; try apply B; try assumption. lra.
Qed.

Lemma passes_keep g np dif_ rho n mf mf' M : wf_grid g -> wf_np g np -> 0 < dt g -> 0 <= dif_ <= 1 -> (exists d, get3 (invar g) d = false) ->
  marder_passes g np (marder_diffusion g dif_) rho n mf mf' ->
  sum_patches g np (residual g mf' rho) = sum_patches g np (residual g mf rho) /\
  ((forall pi i, in_box np pi -> in_box (ldims g) i -> Rabs (residual g mf rho pi i) <= M) ->
   forall pi i, in_box np pi -> in_box (ldims g) i -> Rabs (residual g mf' rho pi i) <= M).
Proof.
  intros W Wn Hdt Hd Hex H. induction H as [mf|n mf mf1 mf2 H IH Hs]; [split; auto|].
  destruct IH as [IH1 IH2]. split.
  - rewrite <- IH1. eapply pass_total; eassumption.
  - intros HM. eapply pass_bound; try eassumption. exact (IH2 HM).
Qed.

Lemma passes_zero g np dif rho n mf mf' : wf_grid g -> wf_np g np -> marder_passes g np dif rho n mf mf' ->
  (forall pi i, in_box np pi -> in_box (ldims g) i -> residual g mf rho pi i = 0) ->
  forall pi q d i, in_box np pi -> in_box (ldims g) i -> mf' pi q d i = mf pi q d i.
Proof.
  intros W Wn H Hz. enough (X : (forall pi i, in_box np pi -> in_box (ldims g) i -> residual g mf' rho pi i = 0) /\
    forall pi q d i, in_box np pi -> in_box (ldims g) i -> mf' pi q d i = mf pi q d i) by apply X.
  induction H as [mf|n mf mf1 mf2 H IH Hs]; [split; auto|]. destruct (IH Hz) as [Z E]. split.
  - destruct (pass_facts g np _ rho mf1 mf2 W Wn Hs) as [_ [Gr [Pr [R0 [R1 _]]]]].
    assert (B : forall x, Gr QE D0 x = 0).
    { intros x. rewrite <- (periodic_wrap g np Gr W Wn Pr). destruct (covered g np x W Wn) as [pi' [i' [Hp' [Hi' <-]]]].
      rewrite <- R0 by assumption. apply Z; assumption. }
    intros pi i Hp Hi. rewrite R1, laplace_unfold, !B by assumption. ring.
  - intros pi q d i Hp Hi. rewrite <- E by assumption. eapply pass_zero; eassumption.
Qed.

(** ** The hypotheses can be met *)

Lemma cut_marder g np dif G (rho : V3 Z -> R) : wf_grid g -> periodic g np G ->
  (forall i e, rho (shift i e (get3 np e * get3 (ldims g) e)%Z) = rho i) ->
  let r := fun x => div_minus (invar g) (dx g) (G QE) x - rho x in
  marder_pass g np dif (fun pi i => rho (vadd (off g pi) i)) (cut g G) (cut g (gmarder g dif G r)).
Proof.
  intros W P Hrho. cbv zeta. set (r := fun x => div_minus (invar g) (dx g) (G QE) x - rho x).
  assert (Pr : forall i e, r (shift i e (get3 np e * get3 (ldims g) e)%Z) = r i).
  { intros i e. unfold r. rewrite Hrho. unfold div_minus, dminus. rewrite !(shift_comm i e _ _ (-1)), !P. reflexivity. }
  split; [apply cut_consistent; exact P|].
  exists (fun pi i => r (vadd (off g pi) i)). split; [|split].
  - intros pi i Hp Hi. unfold marder_res, r. rewrite div_nc_minus, (holds_div_minus g np (cut g G) G) by (assumption || apply cut_holds). reflexivity.
  - exists (fun _ _ => r). split; [intros q d i e; apply Pr|]. intros pi q d i _ _. reflexivity.
  - split.
    + intros pi q d i Hp Hi. symmetry.
      apply (holds_marder g np (cut g G) G dif (fun pi i => r (vadd (off g pi) i)) (fun _ _ => r) W (cut_holds g np G)); try assumption.
      intros pi' q' d' i' _ _. reflexivity.
    + apply cut_consistent. intros q d i e. destruct q; cbn [gmarder]; rewrite P; try reflexivity.
      unfold dplus. rewrite (shift_comm i e _ d 1), !Pr. reflexivity.
Qed.
