(** C70: Gauss's law is kept when the particles are pushed on the GPU. *)
From Coq Require Import Reals Lra Lia.
From Verif Require Import Base Arr DomainModel DomainSpec BndPrtModel DdcPrtSpec GhostModel FieldModel DepositModel CurrentModel CudaCurrModel PushModel CudaPrtModel CudaPrtSpec CudaLaunchModel CudaLaunchProps
  GaussModel GaussSpec GaussProofs GaussProps CudaGaussModel CudaGaussSpec CudaGaussProofs.
Local Open Scope R_scope.

(** After any number of steps in which the kernels of the GPU push the particles and leave the current, in any order of their threads, with
    particles sorted and collided in between and whatever the new momenta, div E - rho is at every point of every patch what it
    was at the start; and the hypotheses hold again.  Every process has particles, else C59. *)
Theorem C70_gauss : forall S c np gdims per pr dep bs F P F' P' rho rho', periodic_run S c np gdims per pr -> s_sch S = sch_cuda dep bs -> blocks_fit S bs ->
  single_valued S QE F -> particles_inside S P -> gpu_run S dep bs F P F' P' ->
  (single_valued S QE F' /\ particles_inside S P') /\ (density S P rho -> density S P' rho' ->
  forall r p x, a_patch S r p -> in_box (grid_ldims (s_dm S)) x -> div_at S QE F' r p x - rho' r p x = div_at S QE F r p x - rho r p x).
Proof.
  intros S c np gdims per pr dep bs F P F' P' rho rho' HR Hs Hf HE HP H.
  exact (gauss_run S c np gdims per pr HR F P F' P' rho rho' HE HP (g_run S c np gdims per pr HR dep bs Hs Hf F P F' P' HE HP H)).
Qed.
Print Assumptions C70_gauss.

(** in each step the density changes by the divergence of the current the kernels leave *)
Theorem C70_continuity : forall S c np gdims per pr dep bs un cs F P Fa Pa F' P' rho rho', periodic_run S c np gdims per pr -> s_sch S = sch_cuda dep bs -> blocks_fit S bs ->
  single_valued S QE F -> particles_inside S P -> busy S P -> stores_hold S bs cs P -> gpu_pushed S dep bs un cs F P Fa Pa -> after_push S Fa Pa F' P' ->
  density S P rho -> density S P' rho' ->
  forall r p x, a_patch S r p -> in_box (grid_ldims (s_dm S)) x -> rho' r p x - rho r p x + s_dt S * div_at S QJ F' r p x = 0.
Proof.
  intros S c np gdims per pr dep bs un cs F P Fa Pa F' P' rho rho' HR Hs Hf HE HP HB HC HU (G2 & G3 & G4 & G5 & HA) D D'.
  apply (gauss_step S c np gdims per pr HR (fun r p => map (un r p) (patch_prts P r p)) F P F' P' rho rho' HE HP); try assumption.
  exists Fa, Pa, G2, G3, G4, G5. split; [|exact HA]. exact (g_pushed S c np gdims per pr HR dep bs Hs Hf un cs F P Fa Pa HP HB HC HU).
Qed.
Print Assumptions C70_continuity.

(** the kernels leave in every patch the current of its particles, each pushed as on the CPU *)
Theorem C70_push : forall S c np gdims per pr dep bs un cs F P Fa Pa, periodic_run S c np gdims per pr -> s_sch S = sch_cuda dep bs -> blocks_fit S bs ->
  particles_inside S P -> busy S P -> stores_hold S bs cs P -> gpu_pushed S dep bs un cs F P Fa Pa ->
  pushed S (fun r p => map (un r p) (patch_prts P r p)) F P Fa Pa.
Proof. intros S c np gdims per pr dep bs un cs F P Fa Pa HR Hs Hf HP HB HC HU. exact (g_pushed S c np gdims per pr HR dep bs Hs Hf un cs F P Fa Pa HP HB HC HU). Qed.
Print Assumptions C70_push.

(** the particles can be stored, and from every store of them a step can be made, in which no array is indexed out of bounds *)
Theorem C70_progress : forall S c np gdims per pr dep bs un F P, periodic_run S c np gdims per pr -> s_sch S = sch_cuda dep bs -> blocks_fit S bs ->
  single_valued S QE F -> particles_inside S P -> busy S P ->
  (exists cs, stores_hold S bs cs P) /\
  forall cs, stores_hold S bs cs P -> exists Fa Pa F' P', gpu_pushed S dep bs un cs F P Fa Pa /\ after_push S Fa Pa F' P' /\ gpu_run S dep bs F P F' P'.
Proof.
  intros S c np gdims per pr dep bs un F P HR Hs Hf HE HP HB. split; [exact (g_stores S c np gdims per pr HR bs Hf P HP)|].
  intros cs HC. destruct (g_progress S c np gdims per pr HR dep bs Hs Hf un cs F P HE HP HB HC) as (Fa & Pa & F' & P' & A & B).
  exists Fa, Pa, F', P'. split; [exact A|]. split; [exact B|]. exact (gpu_step S dep bs un cs F P F P Fa Pa F' P' (gpu_refl _ _ _ _ _) HB HC A B).
Qed.
Print Assumptions C70_progress.

(** the setting of ex_C30, with the deposition of the GPU in blocks of 4 x 4 cells; a particle also on the other process *)
Definition ex70_S : setting := Setting ex_dm 2 dim_yz (v3 0 2 2)%Z (v3 1 8 8) (v3 0 0 0) (v3 PRT_PERIODIC PRT_PERIODIC PRT_PERIODIC) (v3 PRT_PERIODIC PRT_PERIODIC PRT_PERIODIC) (3 / 4) 1 (sch_cuda vb_3d (v3 1 4 4)%Z).
Definition ex70_P (r : Z) : list (list (particle R)) :=
  if (r =? 0)%Z then [[mkP (v3 0 (15 / 4) 1) (v3 0 0 0) (-1); mkP (v3 0 (1 / 4) (31 / 4)) (v3 0 0 0) 1]] else [[mkP (v3 0 (1 / 2) 5) (v3 0 0 0) 1]].

Example ex_C70 : periodic_run ex70_S CURVE_BYDIM (v3 1 2 1)%Z (v3 1 8 8)%Z (v3 true true true) None /\ blocks_fit ex70_S (v3 1 4 4)%Z /\
  single_valued ex70_S QE ex_F /\ particles_inside ex70_S ex70_P /\ busy ex70_S ex70_P /\ g_ldims (geom_of ex70_S (v3 1 4 4)%Z 1) = (v3 1 4 8)%Z.
Proof.
  destruct ex_C30 as (H1 & _ & H3 & _).
  assert (GL : grid_ldims ex_dm = (v3 1 4 8)%Z) by (vm_compute; reflexivity). assert (GD : dm_gdims ex_dm = (v3 1 8 8)%Z) by (vm_compute; reflexivity).
  assert (N : forall r, (0 <= r < 2)%Z -> patches_of ex_dm r = 1%Z) by (intros r Hr; assert (r = 0 \/ r = 1)%Z as [-> | ->] by lia; vm_compute; reflexivity).
  split; [exact H1|]. split; [|split; [exact H3|split; [|split]]].
  - unfold blocks_fit. cbn [s_dm ex70_S s_size s_dim]. rewrite GL. split; [|split].
    + intros []; cbn; (split; [lia|]); [exists 1%Z|exists 1%Z|exists 2%Z]; reflexivity.
    + intros r Hr. rewrite (N r Hr). cbn. lia.
    + intros _. cbn. lia.
  - split; [intros r Hr; cbn [s_size s_dm ex70_S] in *; rewrite (N r Hr); assert (r = 0 \/ r = 1)%Z as [-> | ->] by lia; reflexivity|].
    intros r p b q [Hr Hp] Eb Hq d. cbn [s_size s_dm s_len ex70_S] in *. rewrite GL, GD. rewrite (N r Hr) in Hp. assert (p = 0)%Z as -> by lia. assert (r = 0 \/ r = 1)%Z as [-> | ->] by lia; cbn in Eb; injection Eb as <-.
    + destruct Hq as [<- | [<- | []]]; destruct d; cbn; lra.
    + destruct Hq as [<- | []]; destruct d; cbn; lra.
  - intros r Hr. cbn [s_size ex70_S] in Hr. assert (r = 0 \/ r = 1)%Z as [-> | ->] by lia; cbn; eexists; eexists; (split; [left; reflexivity|left; reflexivity]).
  - exact GL.
Qed.

(** so the particles can be stored and a step made *)
Example ex_C70_steps : exists F' P', gpu_run ex70_S vb_3d (v3 1 4 4)%Z ex_F ex70_P F' P' /\ single_valued ex70_S QE F' /\ particles_inside ex70_S P' /\
  forall rho rho', density ex70_S ex70_P rho -> density ex70_S P' rho' ->
  div_at ex70_S QE F' 1 0 (v3 0 0 1)%Z - rho' 1%Z 0%Z (v3 0 0 1)%Z = div_at ex70_S QE ex_F 1 0 (v3 0 0 1)%Z - rho 1%Z 0%Z (v3 0 0 1)%Z.
Proof.
  destruct ex_C70 as (H1 & H2 & H3 & H4 & H5 & _).
  destruct (C70_progress _ _ _ _ _ _ vb_3d (v3 1 4 4)%Z (fun r p q => v3 0 2 1) _ _ H1 eq_refl H2 H3 H4 H5) as [[cs HC] H].
  destruct (H cs HC) as (Fa & Pa & F' & P' & _ & _ & HG). exists F', P'. split; [exact HG|].
  pose proof (fun rho rho' => C70_gauss _ _ _ _ _ _ _ _ _ _ _ _ rho rho' H1 eq_refl H2 H3 H4 HG) as K. split; [apply (K (fun _ _ _ => 0) (fun _ _ _ => 0))|]. split; [apply (K (fun _ _ _ => 0) (fun _ _ _ => 0))|].
  intros rho rho' D D'. apply (proj2 (K rho rho') D D').
  - split; vm_compute; intuition discriminate.
  - intros []; vm_compute; intuition discriminate.
Qed.

(** three dimensions, blocks of 4 x 4 x 4 cells *)
Definition ex70_S3 : setting := Setting ex_dm3 2 dim_xyz (v3 2 2 2)%Z (v3 8 8 8) (v3 0 0 0) (v3 PRT_PERIODIC PRT_PERIODIC PRT_PERIODIC) (v3 PRT_PERIODIC PRT_PERIODIC PRT_PERIODIC) (1 / 2) 1 (sch_cuda vb_3d (v3 4 4 4)%Z).
Example ex_C70_3d : periodic_run ex70_S3 CURVE_BYDIM (v3 2 1 1)%Z (v3 8 8 8)%Z (v3 true true true) None /\ blocks_fit ex70_S3 (v3 4 4 4)%Z.
Proof.
  split; [exact (proj1 ex_C30_3d)|]. assert (GL : grid_ldims ex_dm3 = (v3 4 8 8)%Z) by (vm_compute; reflexivity).
  unfold blocks_fit. cbn [s_dm ex70_S3 s_size s_dim]. rewrite GL. split; [|split].
  - intros []; cbn; (split; [lia|]); [exists 1%Z|exists 2%Z|exists 2%Z]; reflexivity.
  - intros r Hr. assert (r = 0 \/ r = 1)%Z as [-> | ->] by lia; vm_compute; intuition discriminate.
  - discriminate.
Qed.
