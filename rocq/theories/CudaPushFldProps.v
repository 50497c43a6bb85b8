(** C68: the field updates on the GPU are those of the CPU. *)
From Coq Require Import Reals Permutation Lra.
From Verif Require Import Base FieldModel FieldSpec FieldProofs CudaPushFldModel CudaPushFldSpec CudaPushFldProofs.
Local Open Scope Z_scope.

(** In two dimensions: the views agree in shape, no access is out of bounds, and whatever
    the order of the elements every patch gets what the CPU code computes at every point
    with storage. *)
Theorem C68_push_yz : forall g np c f, grid_yz g -> 0 <= np ->
  (exists st, gpu_push_E_yz g np c = Some st /\ gt_always (gt_shape g) st f (updated g np (fun _ => push_E g c) f)) /\
  (exists st, gpu_push_H_yz g np c = Some st /\ gt_always (gt_shape g) st f (updated g np (fun _ => push_H g c) f)).
Proof. intros g np c f G Hn. split; [apply push_E_yz_ok|apply push_H_yz_ok]; assumption. Qed.
Print Assumptions C68_push_yz.

(** In three dimensions, where a launch runs the statements of all threads in any order. *)
Theorem C68_push_xyz : forall g np c f, grid_xyz g -> 0 <= np ->
  (exists st, gpu_push_E_xyz g np c = Some st /\ gt_always (gt_shape g) st f (updated g np (fun _ => push_E g c) f)) /\
  (exists st, gpu_push_H_xyz g np c = Some st /\ gt_always (gt_shape g) st f (updated g np (fun _ => push_H g c) f)).
Proof. intros g np c f G Hn. split; [apply push_E_xyz_ok|apply push_H_xyz_ok]; assumption. Qed.
Print Assumptions C68_push_xyz.

(** The Marder correction in two dimensions is that of the CPU; in three dimensions it is
    the one that property C31 shows to differ from it. *)
Theorem C68_marder : forall g np diff f,
  (grid_yz g -> gt_always (gt_shape g) (gpu_marder g np diff) f
     (updated g np (fun p h => marder_correct g diff h (res_of g f p)) f)) /\
  (grid_xyz g -> gt_always (gt_shape g) (gpu_marder g np diff) f
     (updated g np (fun p h => marder_correct_cuda g diff h (res_of g f p)) f)).
Proof. intros g np diff f. split; intros G; [apply marder_yz_ok|apply marder_xyz_ok]; assumption. Qed.
Print Assumptions C68_marder.

(** Read as a relation between the states before and after: there is a run, and all runs
    have that outcome. *)
Theorem C68_runs : forall sh st f Q, gt_always sh st f Q ->
  (exists f', gt_runs sh st f f') /\ forall f', gt_runs sh st f f' -> Q f'.
Proof. exact always_runs. Qed.
Print Assumptions C68_runs.

(** ** Examples *)

(** two patches of 4 x 5 cells, and of 3 x 4 x 5 cells *)
Definition g68 : fgrid := FGrid (v3 1 4 5) (v3 0 2 2) (v3 1 1 1)%R (1 / 2)%R (v3 true false false).
Definition h68 : fgrid := FGrid (v3 3 4 5) (v3 2 2 2) (v3 1 1 1)%R (1 / 2)%R (v3 false false false).
(** a magnetic field that grows in y, a current that depends on the patch, a residual that
    grows in z *)
Definition f68 : gtf := fun p c n =>
  match c with Comp QH D2 => IZR (c1 n) | Comp QJ D0 => IZR (p + 2) | Res => IZR (c2 n) | _ => 0%R end.

Lemma g68_yz : grid_yz g68.
Proof. split; [|split; reflexivity]. intros []; cbn; split; try lia; split; try lra; try lia; split; reflexivity. Qed.
Lemma h68_xyz : grid_xyz h68.
Proof. split; [|split; reflexivity]. intros []; cbn; split; try lia; split; try lra; lia. Qed.

Example ex_C68_yz : grid_yz g68 /\ exists st f', gpu_push_E_yz g68 2 1 = Some st /\ gt_runs (gt_shape g68) st f68 f' /\
  f68 1 (Comp QE D0) (v3 0 3 4) = 0%R /\ f' 1 (Comp QE D0) (v3 0 3 4) = (-1)%R.
Proof.
  split; [exact g68_yz|]. destruct (C68_push_yz g68 2 1 f68 g68_yz ltac:(lia)) as [[st [E A]] _].
  destruct (C68_runs _ _ _ _ A) as [[f' R] H]. exists st, f'. split; [exact E|]. split; [exact R|]. split; [reflexivity|].
  pose proof (proj1 (H f' R 1 ltac:(lia)) QE D0 (v3 0 1 2)) as X. change (f' 1 (Comp QE D0) (v3 0 3 4)) with (patch_of g68 f' 1 QE D0 (v3 0 1 2)).
  rewrite X by (intros []; cbn; lia). rewrite push_E_in; [|apply g68_yz|intros []; cbn; lia].
  unfold deltaE, curl_minus, dminus, vw, patch_of, dth, fnorm, shift, g68, f68. cbn [nxt invar ibn dx dt get3 set3 gen3 c0 c1 c2 Z.add Z.opp Z.pos_sub Pos.add Pos.succ Pos.pred_double].
  lra.
Qed.

Example ex_C68_xyz : grid_xyz h68 /\ exists st f', gpu_push_E_xyz h68 2 1 = Some st /\ gt_runs (gt_shape h68) st f68 f' /\
  f68 1 (Comp QE D0) (v3 2 3 4) = 0%R /\ f' 1 (Comp QE D0) (v3 2 3 4) = (-1)%R.
Proof.
  split; [exact h68_xyz|]. destruct (C68_push_xyz h68 2 1 f68 h68_xyz ltac:(lia)) as [[st [E A]] _].
  destruct (C68_runs _ _ _ _ A) as [[f' R] H]. exists st, f'. split; [exact E|]. split; [exact R|]. split; [reflexivity|].
  pose proof (proj1 (H f' R 1 ltac:(lia)) QE D0 (v3 0 1 2)) as X. change (f' 1 (Comp QE D0) (v3 2 3 4)) with (patch_of h68 f' 1 QE D0 (v3 0 1 2)).
  rewrite X by (intros []; cbn; lia). rewrite push_E_in; [|apply h68_xyz|intros []; cbn; lia].
  unfold deltaE, curl_minus, dminus, vw, patch_of, dth, fnorm, shift, h68, f68. cbn [nxt invar ibn dx dt get3 set3 gen3 c0 c1 c2 Z.add Z.opp Z.pos_sub Pos.add Pos.succ Pos.pred_double].
  lra.
Qed.

Example ex_C68_marder : exists f', gt_runs (gt_shape g68) (gpu_marder g68 2 4) f68 f' /\
  f68 1 (Comp QE D2) (v3 0 3 4) = 0%R /\ f' 1 (Comp QE D2) (v3 0 3 4) = 1%R.
Proof.
  pose proof (proj1 (C68_marder g68 2 4 f68) g68_yz) as A.
  destruct (C68_runs _ _ _ _ A) as [[f' R] H]. exists f'. split; [exact R|]. split; [reflexivity|].
  pose proof (proj1 (H f' R 1 ltac:(lia)) QE D2 (v3 0 1 2)) as X. change (f' 1 (Comp QE D2) (v3 0 3 4)) with (patch_of g68 f' 1 QE D2 (v3 0 1 2)).
  rewrite X by (intros []; cbn; lia).
  unfold marder_correct, interior, res_of, patch_of, shift, g68, f68.
  cbn [qty_eqb andb negb ldims invar ibn dx dt get3 set3 gen3 c0 c1 c2 Z.add Z.opp Z.pos_sub Pos.add Pos.succ Pos.pred_double Z.leb Z.ltb Z.compare Pos.compare Pos.compare_cont].
  lra.
Qed.
