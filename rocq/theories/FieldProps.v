(** C27-C31: the particle push, the field updates and the Marder correction. *)
From Coq Require Import Reals Lra Psatz.
From Verif Require Import Base DomainSpec PushModel PushSpec PushProofs FieldModel FieldSpec FieldProofs FieldRunProofs MarderProofs.
Local Open Scope R_scope.

(** ** C27: the momentum update *)

(** the update is the one solution of the Boris scheme's implicit equation *)
Theorem C27_boris : forall p E H dq p', boris p E H p' dq <-> p' = push_p p E H dq.
Proof. exact push_p_unique. Qed.
Print Assumptions C27_boris.

Example ex_C27_boris : push_p (v3 0 0 0) (v3 1 0 0) (v3 0 0 0) (1 / 2) = v3 1 0 0.
Proof. rewrite push_p_noH. unfold vplus, vscale, gen3. cbn. f_equal; field. Qed.

(** between the two half impulses the squared momentum is unchanged, with E = 0
    that of the particle *)
Theorem C27_energy : forall p E H dq,
  let pm := vplus p (vscale dq E) in let pp := vplus (push_p p E H dq) (vscale (- dq) E) in dot pp pp = dot pm pm.
Proof. exact push_p_energy. Qed.
Print Assumptions C27_energy.

Theorem C27_magnetic : forall p H dq, dot (push_p p (v3 0 0 0) H dq) (push_p p (v3 0 0 0) H dq) = dot p p.
Proof. exact push_p_noE. Qed.
Print Assumptions C27_magnetic.

(** a quarter turn: the momentum (sqrt 3, 0, 0) has gamma 2; with dq = 2 and H = (0, 0, 1) it turns to -y *)
Example ex_C27_magnetic : push_p (v3 (sqrt 3) 0 0) (v3 0 0 0) (v3 0 0 1) 2 = v3 0 (- sqrt 3) 0.
Proof.
  symmetry. apply push_p_unique. unfold boris. cbv zeta.
  assert (Z : forall q s, vplus q (vscale s (v3 0 0 0)) = q) by (intros [a b c] s; unfold vplus, vscale, gen3; cbn; f_equal; ring).
  rewrite !Z. assert (G : gamma (v3 (sqrt 3) 0 0) = 2).
  { unfold gamma, dot. cbn [c0 c1 c2]. rewrite sqrt_sqrt by lra. replace (1 + (3 + 0 * 0 + 0 * 0)) with (2 * 2) by ring. apply sqrt_square. lra. }
  rewrite G. unfold vplus, vscale, cross, gen3. cbn. f_equal; field.
Qed.

Theorem C27_electric : forall p E dq, push_p p E (v3 0 0 0) dq = vplus p (vscale (2 * dq) E).
Proof. exact push_p_noH. Qed.
Print Assumptions C27_electric.

(** for a kind with charge q and mass m the impulse is eta dt q / m E *)
Example ex_C27_electric : push_p (v3 1 2 3) (v3 4 0 (-1)) (v3 0 0 0) (dq_kind 1 (1 / 4) (-1) 2) = v3 (1 / 2) 2 (25 / 8).
Proof. rewrite push_p_noH. unfold vplus, vscale, gen3, dq_kind. cbn. f_equal; field. Qed.

(** ** C28: speed below that of light *)

Theorem C28_speed : forall u, 0 <= dot (calc_v u) (calc_v u) < 1.
Proof. exact calc_v_lt_1. Qed.
Print Assumptions C28_speed.

(** the velocity is the momentum over gamma *)
Theorem C28_velocity : forall u, calc_v u = vscale (/ gamma u) u.
Proof. exact calc_v_gamma. Qed.
Print Assumptions C28_velocity.

Example ex_C28_speed : calc_v (v3 0 (sqrt 3) 0) = v3 0 (sqrt 3 / 2) 0.
Proof.
  rewrite calc_v_gamma. assert (G : gamma (v3 0 (sqrt 3) 0) = 2).
  { unfold gamma, dot. cbn [c0 c1 c2]. rewrite sqrt_sqrt by lra. replace (1 + (0 * 0 + 3 + 0 * 0)) with (2 * 2) by ring. apply sqrt_square. lra. }
  rewrite G. unfold vscale, gen3. cbn. f_equal; field.
Qed.

Theorem C28_step : forall invar dt x p E H dq d, 0 < dt ->
  let x' := fst (advance invar dt x p E H dq) in
  (get3 invar d = true -> get3 x' d = get3 x d) /\ (get3 invar d = false -> Rabs (get3 x' d - get3 x d) < dt).
Proof. exact advance_pos. Qed.
Print Assumptions C28_step.

Theorem C28_distance : forall dt x p E H dq, 0 < dt ->
  let x' := fst (advance (v3 false false false) dt x p E H dq) in
  let s := vplus x' (vscale (-1) x) in dot s s < dt * dt.
Proof. exact advance_dist. Qed.
Print Assumptions C28_distance.

Example ex_C28_step : 0 < 1 / 10 /\ get3 (v3 true false false) D0 = true /\ get3 (v3 true false false) D1 = false.
Proof. repeat split. lra. Qed.

(** ** A field to try: four by two points in two patches, z invariant *)

Definition ex_grid : fgrid := FGrid (v3 2 2 1)%Z (v3 2 2 0)%Z (v3 (1 / 2) 1 1) (1 / 4) (v3 false false true).
Definition ex_np : V3 Z := (v3 2 1 1)%Z.

Lemma ex_wf : wf_grid ex_grid.
Proof. intros []; cbn; repeat split; try lia; lra. Qed.
Lemma ex_wf_np : wf_np ex_grid ex_np.
Proof. intros []; cbn; split; try lia; intros; reflexivity || discriminate. Qed.

(** E_y and J_x grow with x over the period of four points *)
Definition ex_G : pf := fun q d x =>
  match q, d with QE, D1 | QJ, D0 => IZR (c0 x mod 4) | _, _ => 0 end.

Lemma ex_periodic : periodic ex_grid ex_np ex_G.
Proof.
  intros q d i e.
  assert (X : (c0 (shift i e (get3 ex_np e * get3 (ldims ex_grid) e)) mod 4 = c0 i mod 4)%Z).
  { destruct e; cbn -[Z.modulo]; try reflexivity. replace (c0 i + 4)%Z with (c0 i + 1 * 4)%Z by ring. apply Z_mod_plus_full. }
  unfold ex_G. destruct q, d; rewrite ?X; reflexivity.
Qed.

(** ** C29: the divergence of H *)

(** at every point of a patch where the divergence of the pushed values can be formed *)
Theorem C29_one_push : forall g c f i, wf_grid g -> within g 2 0 i ->
  div_plus (invar g) (dx g) (push_H g c f QH) i = div_plus (invar g) (dx g) (f QH) i.
Proof. exact patch_divH. Qed.
Print Assumptions C29_one_push.

(** what the loop writes is the curl of E *)
Theorem C29_faraday : forall g np mf G c, wf_grid g -> holds g np mf G ->
  forall pi d i, in_box np pi -> in_box (ldims g) i ->
  push_H g c (mf pi) QH d i = G QH d (vadd (off g pi) i) - c * dt g * curl_plus (invar g) (dx g) (G QE) d (vadd (off g pi) i).
Proof. intros g np mf G c W H pi d i Hp Hi. exact (holds_push_H g np mf G c W H pi QH d i Hp Hi). Qed.
Print Assumptions C29_faraday.

Theorem C29_run : forall g np mf mf', wf_grid g -> wf_np g np -> consistent g np mf -> run_H g np mf mf' ->
  consistent g np mf' /\ forall pi i, in_box np pi -> in_box (ldims g) i ->
    div_plus (invar g) (dx g) (mf' pi QH) i = div_plus (invar g) (dx g) (mf pi QH) i.
Proof. exact run_H_div. Qed.
Print Assumptions C29_run.

(** a push that changes H, on consistent patches *)
Example ex_C29 : wf_grid ex_grid /\ wf_np ex_grid ex_np /\ consistent ex_grid ex_np (cut ex_grid ex_G) /\
  exists mf', run_H ex_grid ex_np (cut ex_grid ex_G) mf' /\ mf' (v3 1 0 0)%Z QH D2 (v3 0 1 0)%Z = - (1 / 2).
Proof.
  split; [exact ex_wf|]. split; [exact ex_wf_np|]. split; [apply cut_consistent; exact ex_periodic|].
  exists (cut ex_grid (gpush_H ex_grid 1 ex_G)). split.
  - eapply run_H_push; [apply run_H_refl|]. apply cut_push_H; [exact ex_wf|exact ex_periodic].
  - cbn. unfold curl_plus, dplus, dth. cbn. field.
Qed.

(** ** C30: the divergence of E *)

Theorem C30_one_push : forall g c f i, wf_grid g -> within g 0 2 i ->
  div_minus (invar g) (dx g) (push_E g c f QE) i =
  div_minus (invar g) (dx g) (f QE) i - c * dt g * div_minus (invar g) (dx g) (f QJ) i.
Proof. exact patch_divE. Qed.
Print Assumptions C30_one_push.

Theorem C30_ampere : forall g np mf G c, wf_grid g -> holds g np mf G ->
  forall pi d i, in_box np pi -> in_box (ldims g) i ->
  push_E g c (mf pi) QE d i = G QE d (vadd (off g pi) i) +
    c * dt g * (curl_minus (invar g) (dx g) (G QH) d (vadd (off g pi) i) - G QJ d (vadd (off g pi) i)).
Proof. intros g np mf G c W H pi d i Hp Hi. exact (holds_push_E g np mf G c W H pi QE d i Hp Hi). Qed.
Print Assumptions C30_ampere.

Theorem C30_run : forall g np s s', wf_grid g -> wf_np g np -> consistent g np (fst s) -> run_gauss g np s s' ->
  consistent g np (fst s') /\ forall pi i, in_box np pi -> in_box (ldims g) i ->
    div_minus (invar g) (dx g) (fst s' pi QE) i - snd s' pi i = div_minus (invar g) (dx g) (fst s pi QE) i - snd s pi i.
Proof. exact run_gauss_div. Qed.
Print Assumptions C30_run.

(** a push with a current that is not divergence free *)
Example ex_C30 : exists rho', run_gauss ex_grid ex_np (cut ex_grid ex_G, fun _ _ => 0) (cut ex_grid (gpush_E ex_grid 1 ex_G), rho') /\
  rho' (v3 0 0 0)%Z (v3 1 0 0)%Z = - (1 / 2).
Proof.
  exists (fun pi i => - (1 * dt ex_grid) * div_minus (invar ex_grid) (dx ex_grid) (cut ex_grid ex_G pi QJ) i). split.
  - eapply (run_g_push ex_grid ex_np 1); [apply run_g_refl| |].
    + apply cut_push_E; [exact ex_wf|exact ex_periodic].
    + intros pi i _ _. cbv beta. ring.
  - unfold cut, div_minus, dminus. cbn. field.
Qed.

(** ** C31: the Marder correction *)

Theorem C31_diffusion : forall g np dif rho mf mf', wf_grid g -> wf_np g np -> marder_pass g np dif rho mf mf' ->
  exists res : V3 Z -> V3 Z -> R, consistent g np (fun pi _ _ i => res pi i) /\
  (forall pi i, in_box np pi -> in_box (ldims g) i -> res pi i = div_minus (invar g) (dx g) (mf pi QE) i - rho pi i) /\
  forall pi i, in_box np pi -> in_box (ldims g) i ->
  div_minus (invar g) (dx g) (mf' pi QE) i - rho pi i =
  div_minus (invar g) (dx g) (mf pi QE) i - rho pi i + 1 / 2 * dt g * dif * laplace (invar g) (dx g) (res pi) i.
Proof.
  intros g np dif rho mf mf' W Wn H. destruct (pass_diffusion g np dif rho mf mf' W Wn H) as [res [A [B C]]].
  exists res. split; [exact A|]. split; intros pi i Hp Hi; rewrite <- !div_nc_minus; [exact (B pi i Hp Hi)|exact (C pi i Hp Hi)].
Qed.
Print Assumptions C31_diffusion.

Theorem C31_no_defect : forall g np dif rho n mf mf', wf_grid g -> wf_np g np -> marder_passes g np dif rho n mf mf' ->
  (forall pi i, in_box np pi -> in_box (ldims g) i -> div_minus (invar g) (dx g) (mf pi QE) i = rho pi i) ->
  forall pi q d i, in_box np pi -> in_box (ldims g) i -> mf' pi q d i = mf pi q d i.
Proof.
  intros g np dif rho n mf mf' W Wn H Hz. apply (passes_zero g np dif rho n mf mf' W Wn H).
  intros pi i Hp Hi. unfold residual, marder_res. rewrite div_nc_minus, (Hz pi i Hp Hi). ring.
Qed.
Print Assumptions C31_no_defect.

(** the parameter of the correction ([diffusion] in psc) is between 0 and 1: the total
    defect is conserved and its maximum does not grow *)
Theorem C31_conserved_bounded : forall g np dif_ rho n mf mf' M, wf_grid g -> wf_np g np -> 0 < dt g -> 0 <= dif_ <= 1 ->
  (exists d, get3 (invar g) d = false) ->
  marder_passes g np (marder_diffusion g dif_) rho n mf mf' ->
  let defect := fun (m : V3 Z -> pf) pi i => div_minus (invar g) (dx g) (m pi QE) i - rho pi i in
  sum_patches g np (defect mf') = sum_patches g np (defect mf) /\
  ((forall pi i, in_box np pi -> in_box (ldims g) i -> Rabs (defect mf pi i) <= M) ->
   forall pi i, in_box np pi -> in_box (ldims g) i -> Rabs (defect mf' pi i) <= M).
Proof.
  intros g np dif_ rho n mf mf' M W Wn Hdt Hd Hex H. cbv zeta.
  assert (E : forall m pi i, div_minus (invar g) (dx g) (m pi QE) i - rho pi i = residual g m rho pi i)
    by (intros; unfold residual, marder_res; rewrite div_nc_minus; reflexivity).
  destruct (passes_keep g np dif_ rho n mf mf' M W Wn Hdt Hd Hex H) as [A B]. split.
  - rewrite !(sum_patches_ext g np _ _ (fun pi i _ _ => E _ pi i)). exact A.
  - intros HM pi i Hp Hi. rewrite E. apply B; try assumption. intros pi' i' Hp' Hi'. rewrite <- E. apply HM; assumption.
Qed.
Print Assumptions C31_conserved_bounded.

(** a defect that is not zero, and a pass that reduces it *)
Example ex_C31 : wf_grid ex_grid /\ wf_np ex_grid ex_np /\ 0 < dt ex_grid /\ (exists d, get3 (invar ex_grid) d = false) /\
  let G := fun q d x => match q, d with QE, D0 => IZR (c0 x mod 4) | _, _ => 0 end in
  exists mf', marder_passes ex_grid ex_np (marder_diffusion ex_grid (1 / 2)) (fun _ _ => 0) 1 (cut ex_grid G) mf' /\
  marder_res ex_grid (cut ex_grid G (v3 0 0 0)%Z) (fun _ => 0) (v3 0 0 0)%Z = -6 /\
  mf' (v3 0 0 0)%Z QE D0 (v3 0 0 0)%Z = 4 / 5.
Proof.
  split; [exact ex_wf|]. split; [exact ex_wf_np|]. split; [cbn; lra|]. split; [exists D0; reflexivity|]. cbv zeta.
  set (G := fun q d x => match q, d with QE, D0 => IZR (c0 x mod 4) | _, _ => 0 end : R).
  eexists. split; [|split].
  - eapply passes_S; [apply passes_0|]. apply (cut_marder ex_grid ex_np _ G (fun _ => 0) ex_wf).
    + intros q d i e.
      assert (X : (c0 (shift i e (get3 ex_np e * get3 (ldims ex_grid) e)) mod 4 = c0 i mod 4)%Z).
      { destruct e; cbn -[Z.modulo]; try reflexivity. replace (c0 i + 4)%Z with (c0 i + 1 * 4)%Z by ring. apply Z_mod_plus_full. }
      unfold G. destruct q, d; rewrite ?X; reflexivity.
    + reflexivity.
  - unfold marder_res, div_nc, cut, G. cbn. field.
  - unfold cut, gmarder, G, kappa, marder_diffusion, dplus, div_minus, dminus. cbn. field.
Qed.

(** the CUDA version of the correction does not follow the gradient of the defect in x:
    it reads the neighbour in y.  The correction then neither reduces to nothing where
    the defect does not depend on x, nor diffuses it. *)
Theorem C31_cuda_refuted : exists g f res i, wf_grid g /\ in_box (ldims g) i /\ dt g > 0 /\
  (forall j, res (shift j D0 1) = res j) /\
  marder_correct_cuda g 1 f res QE D0 i <> f QE D0 i + 1 / 2 * dt g * 1 * dplus (invar g) (dx g) D0 res i.
Proof.
  exists (FGrid (v3 4 4 4)%Z (v3 2 2 2)%Z (v3 1 1 1) 1 (v3 false false false)), (fun _ _ _ => 0), (fun x => IZR (c1 x)), (v3 1 1 1)%Z.
  split; [intros []; cbn; repeat split; try lia; lra|]. split; [intros []; cbn; lia|]. split; [cbn; lra|].
  split; [reflexivity|]. unfold marder_correct_cuda, dplus. cbn. lra.
Qed.
Print Assumptions C31_cuda_refuted.
