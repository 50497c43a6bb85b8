(** C67: the push on the GPU does to every particle what the push on the CPU does. *)
From Coq Require Import Reals Permutation Lra String.
From Flocq Require Import Core.
From Verif Require Import Base Arr FieldModel DepositModel InterpModel PushModel MomentModel CudaPrtModel CudaPrtSpec CudaPrtProofs CudaPrtProps CudaLaunchModel CudaLaunchSpec CudaMomModel CudaFldModel CudaFldSpec CudaFldProofs.
Local Open Scope Z_scope.

(** ** The cache *)

(** Whatever was in shared memory and in whichever order the threads store: after the load the cache of a
    block has, for every component of E and H, the field's value at every point of the block and up to two
    points beyond; nothing outside of the field or of the cache is touched. *)
Theorem C67_cache : forall g ibn F p pos, geom_ok g -> setup_ok g ibn -> is_pos g p pos ->
  (exists r, load_runs g ibn F (block_at g p pos) r) /\
  forall r, load_runs g ibn F (block_at g p pos) r -> exists data, r = Some data /\
    forall m c n, m = QE \/ m = QH -> cached g (k_ci0 (block_at g p pos)) n -> fc_read g data (k_ci0 (block_at g p pos)) m c n = Some (F p m c n).
Proof.
  intros g ibn F p pos ok sok HP. destruct (load_ok g ok ibn sok F p pos HP) as ((data & E) & U). split; [exists (Some data); exact E|].
  intros r Hr. destruct (U r Hr) as (d & -> & Rc). exists d. split; [reflexivity|]. intros m c n Hm Hn. apply Rc; [|exact Hn]. destruct Hm as [-> | ->], c; cbn; tauto.
Qed.
Print Assumptions C67_cache.

(** ** The push *)

(** For every store that a process can get to (C58), with particles of any kinds there are, at most four:
    the push goes through, with any order of the threads, of their stores, of the blocks of a launch and
    any former contents of shared memory.  Afterwards each block's slots have, in their order, its
    particles pushed as the CPU does. *)
Theorem C67_push : forall g ibn F dx dt eta ks dP moved acts c outs, geom_ok g -> setup_ok g ibn -> step_ok g dx dt -> alen ks <= 4 ->
  allowed_run (cell_by dx) g [] acts -> exec_run (cell_by dx) dP moved g (fresh g) acts = Some (c, outs) ->
  (forall w, In w (fold_left (after (cell_by dx) g) acts []) -> 0 <= mp_kind (snd w) < alen ks) ->
  (exists r, fpush_runs g ibn F dx dt eta ks c r) /\
  forall r, fpush_runs g ibn F dx dt eta ks c r -> exists c', r = Some c' /\ c_n c' = c_n c /\
    forall p b, is_pos g p b -> exists l l', stored c (block_no g p b) l /\ stored c' (block_no g p b) l' /\
      Forall2 (pushed_by (dim_of g) dx dt eta ks (F p)) l l'.
Proof.
  intros g ibn F dx dt eta ks dP moved acts c outs ok sok Hst Hks A E HK.
  destruct (run_inv_perm (cell_by dx) dP moved g ok acts (fresh g) [] [] c outs (inv_fresh (cell_by dx) dP moved g ok) (Permutation_refl _) A E) as (L & I & PL).
  assert (HL : forall w, In w L -> 0 <= mp_kind (snd w) < alen ks).
  { intros w Hw. apply (HK (fst w / n_blocks_per_patch g, snd w)). apply (Permutation_in _ (Permutation_sym PL)). unfold untag. apply in_map_iff. exists w. auto. }
  destruct (fpush_all g ok ibn sok F dx dt eta ks Hst Hks c L I HL) as (Ex & U). split; [exact Ex|]. intros r Hr. rewrite (U r Hr).
  destruct (push_step (cell_by dx) mp_zero (fun x => x) g ok c L _ I (push1_push_ok g ok F dx dt eta ks Hst)) as (c' & E' & _). exists c'. split; [exact E'|].
  exact (push_blocks g ok F dx dt eta ks Hst c L I HL c' E').
Qed.
Print Assumptions C67_push.

(** A whole step: the push is one of those of C58, so that the exchange that follows is given just the
    particles that left their patch, and the store then holds just those that stayed and those that came.
    [f] is the push of the CPU. *)
Theorem C67_step : forall g ibn F dx dt eta ks moved acts c outs recv, geom_ok g -> setup_ok g ibn -> step_ok g dx dt -> alen ks <= 4 ->
  allowed_run (cell_by dx) g [] acts -> exec_run (cell_by dx) mp_zero moved g (fresh g) acts = Some (c, outs) -> bufs_in (cell_by dx) g recv ->
  let S := fold_left (after (cell_by dx) g) acts [] in (forall w, In w S -> 0 <= mp_kind (snd w) < alen ks) ->
  exists f, (forall p x, 0 <= mp_kind x < alen ks -> pushed_by (dim_of g) dx dt eta ks (F p) x (f p x)) /\
    ((S <> [] -> stay (cell_by dx) g (pushed f S) ++ tag g recv <> []) ->
     forall r, fpush_runs g ibn F dx dt eta ks c r -> exists c1 bufs c2 c3, r = Some c1 /\ prep g c1 = Some (bufs, c2) /\ post (cell_by dx) mp_zero moved g c2 recv = Some c3 /\
       alen bufs = g_np g /\ (forall p, 0 <= p < g_np g -> exists l, aget bufs p = Some l /\ Permutation l (leave (cell_by dx) g p (pushed f S))) /\
       represents (cell_by dx) g c3 (stay (cell_by dx) g (pushed f S) ++ tag g recv)).
Proof.
  intros g ibn F dx dt eta ks moved acts c outs recv ok sok Hst Hks A E B S HK.
  destruct (run_inv_perm (cell_by dx) mp_zero moved g ok acts (fresh g) [] [] c outs (inv_fresh (cell_by dx) mp_zero moved g ok) (Permutation_refl _) A E) as (L & I & PL). fold S in PL.
  assert (HL : forall w, In w L -> 0 <= mp_kind (snd w) < alen ks).
  { intros w Hw. apply (HK (fst w / n_blocks_per_patch g, snd w)). apply (Permutation_in _ (Permutation_sym PL)). unfold untag. apply in_map_iff. exists w. auto. }
  destruct (fpush_all g ok ibn sok F dx dt eta ks Hst Hks c L I HL) as (_ & U). set (f := push1 g F dx dt eta ks) in *. exists f. split; [intros p x Hx; apply push1_ok; exact Hx|].
  intros NE r Hr. rewrite (U r Hr). pose proof (push1_push_ok g ok F dx dt eta ks Hst) as PO.
  destruct (exec_ok (cell_by dx) mp_zero moved g ok c L S (Step f recv) I PL) as (c3 & o & L3 & E3 & I3 & P3 & R3); [split; [exact PO|split; [exact B|exact NE]]|].
  cbn [exec] in E3. destruct (push_mprts (cell_by dx) mp_zero g f c) as [c1|]; [|discriminate]. destruct (prep g c1) as [[bufs c2]|] eqn:E2; [|discriminate].
  destruct (post (cell_by dx) mp_zero moved g c2 recv) as [c4|] eqn:E4; [|discriminate]. cbn [option_map] in E3. injection E3 as <- <-. cbn [right_output] in R3. destruct R3 as [R1 R2].
  exists c1, bufs, c2, c4. split; [reflexivity|]. split; [exact E2|]. split; [exact E4|]. split; [exact R1|]. split; [exact R2|].
  exact (inv_represents (cell_by dx) mp_zero moved g ok c4 L3 _ I3 P3).
Qed.
Print Assumptions C67_step.

(** ** One particle at rest in the second of two patches, in a uniform electric field along y, in two and
    in three dimensions: the push gives it momentum along y. *)

Definition ex67_g (yz : bool) : geom := if yz then mkgeom (v3 1 4 4) (v3 1 8 8) 2 true else mkgeom (v3 4 4 4) (v3 8 8 8) 2 false.
Definition ex67_ibn (yz : bool) : V3 Z := if yz then v3 0 2 2 else v3 2 2 2.
Definition ex67_F : emfield := fun _ m c _ => match m, c with QE, D1 => 1%R | _, _ => 0%R end.
Definition ex67_x : mprt := MPrt (v3 (1 / 2) (5 / 2) (9 / 2))%R (v3 0 0 0)%R 0 1%R.
Definition ex67_dx : V3 R := v3 1%R 1%R 1%R.
Definition ex67_ks : list kind := [Kind 1%R 1%R EmptyString].
Definition ex67_acts : list (action mprt) := [Inject [[]; [ex67_x]]].

Lemma stored_fun {P} (c : cm P) k l l' : stored c k l -> stored c k l' -> l = l'.
Proof.
  intros (lo & hi & A1 & A2 & A3 & A4 & A5 & A6) (lo' & hi' & B1 & B2 & B3 & B4 & B5 & B6). rewrite A1 in B1. rewrite A2 in B2. injection B1 as <-. injection B2 as <-.
  apply alist_ext; [lia|]. intros i Hi. specialize (A6 i ltac:(lia)). specialize (B6 i ltac:(lia)). destruct (c_re c); [|congruence].
  destruct A6 as (j & J1 & J2), B6 as (j' & J1' & J2'). rewrite J1 in J1'. injection J1' as <-. congruence.
Qed.

Lemma ex67_cell : cell_by ex67_dx ex67_x = v3 0 2 4.
Proof. apply v3_ext. intros d. unfold cell_by. rewrite get3_gen3. apply Zfloor_imp. destruct d; cbn; lra. Qed.

Example ex_C67 : forall yz, geom_ok (ex67_g yz) /\ setup_ok (ex67_g yz) (ex67_ibn yz) /\ step_ok (ex67_g yz) ex67_dx (1 / 2)%R /\
  allowed_run (cell_by ex67_dx) (ex67_g yz) [] ex67_acts /\
  exists c outs, exec_run (cell_by ex67_dx) mp_zero (fun x => x) (ex67_g yz) (fresh (ex67_g yz)) ex67_acts = Some (c, outs) /\
  (exists r, fpush_runs (ex67_g yz) (ex67_ibn yz) ex67_F ex67_dx (1 / 2) 2 ex67_ks c r) /\
  forall r, fpush_runs (ex67_g yz) (ex67_ibn yz) ex67_F ex67_dx (1 / 2) 2 ex67_ks c r ->
    exists c' y, r = Some c' /\ stored c' (block_no (ex67_g yz) 1 (v3 0 0 1)) [y] /\ mp_u y = v3 0%R 1%R 0%R /\ c2 (mp_x y) = (9 / 2)%R /\ (5 / 2 < c1 (mp_x y))%R.
Proof.
  intros yz.
  assert (ok : geom_ok (ex67_g yz)) by (destruct yz; constructor; try (intros d; destruct d; cbn; try lia; try (exists 1; lia); exists 2; lia); try (cbn; lia); cbn; discriminate).
  assert (sok : setup_ok (ex67_g yz) (ex67_ibn yz)) by (destruct yz; constructor; try (intros d; destruct d; cbn; (split; [lia|]); intros; (discriminate || lia)); cbn; intros; (discriminate || reflexivity)).
  assert (st : step_ok (ex67_g yz) ex67_dx (1 / 2)%R) by (split; [lra|]; intros d; destruct d; cbn; split; intros; lra).
  assert (C : cell_in (ex67_g yz) (cell_by ex67_dx ex67_x)) by (rewrite ex67_cell; destruct yz; intros d; destruct d; cbn; lia).
  assert (A : allowed_run (cell_by ex67_dx) (ex67_g yz) [] ex67_acts).
  { split; [|exact Logic.I]. split; [destruct yz; reflexivity|]. intros l x [<-|[<-|[]]] Hx; cbn [In] in Hx; [contradiction|]. destruct Hx as [<-|[]]. exact C. }
  split; [exact ok|]. split; [exact sok|]. split; [exact st|]. split; [exact A|].
  destruct (C58_run mprt (cell_by ex67_dx) mp_zero (fun x => x) (ex67_g yz) ex67_acts ok A) as (c & outs & E & Rp & _). exists c, outs. split; [exact E|].
  assert (HS : fold_left (after (cell_by ex67_dx) (ex67_g yz)) ex67_acts [] = [(1, ex67_x)]) by (destruct yz; reflexivity).
  destruct (C67_push (ex67_g yz) (ex67_ibn yz) ex67_F ex67_dx (1 / 2) 2 ex67_ks mp_zero (fun x => x) ex67_acts c outs ok sok st ltac:(vm_compute; discriminate) A E) as (Ex & U).
  { rewrite HS. intros w [<-|[]]. cbn. lia. }
  split; [exact Ex|]. intros r Hr. destruct (U r Hr) as (c' & -> & _ & Bl). rewrite HS in Rp. destruct Rp as (_ & _ & Rb).
  assert (Ps : is_pos (ex67_g yz) 1 (v3 0 0 1)) by (split; [destruct yz; cbn; lia|intros d; destruct yz, d; cbn; lia]).
  destruct (Bl 1 (v3 0 0 1) Ps) as (l & l' & S1 & S2 & Fa). destruct Ps as [P1 P2]. destruct (Rb 1 (v3 0 0 1) P1 P2) as (l0 & S0 & Pm).
  rewrite (stored_fun _ _ _ _ S0 S1) in Pm. cbn [filter map fst snd] in Pm. rewrite ex67_cell in Pm.
  replace (in_blockb (ex67_g yz) (v3 0 2 4) (v3 0 0 1)) with true in Pm by (destruct yz; reflexivity). cbn [Z.eqb Pos.eqb andb map snd] in Pm.
  apply Permutation_sym, Permutation_length_1_inv in Pm. subst l. inversion Fa as [|x0 y l1 l2 Py Fa' Q1 Q2]. subst. inversion Fa'. subst.
  exists c', y. split; [reflexivity|]. split; [exact S2|]. destruct Py as (k & E0 & H0 & Hk & HE & HH & Hadv & _).
  assert (K : k = Kind 1%R 1%R EmptyString) by (cbn in Hk; congruence). subst k.
  assert (EE : E0 = v3 0%R 1%R 0%R).
  { apply v3_ext. intros d. specialize (HE d). unfold interp, dim_of in HE. destruct yz; cbn [ex67_g g_yz] in HE; injection HE as <-; destruct d; cbn; ring. }
  assert (EH : H0 = v3 0%R 0%R 0%R).
  { apply v3_ext. intros d. specialize (HH d). unfold interp, dim_of in HH. destruct yz; cbn [ex67_g g_yz] in HH; injection HH as <-; destruct d; cbn; ring. }
  subst E0 H0. unfold advance in Hadv. cbv zeta in Hadv. injection Hadv as Hx Hu.
  assert (U1 : mp_u y = v3 0%R 1%R 0%R).
  { rewrite Hu. unfold push_p, dq_kind. cbn [mp_u ex67_x c0 c1 c2 k_q k_m]. cbv zeta. rewrite !Rmult_0_l. unfold sqr. apply v3_ext. intros d. destruct d; cbn [get3 c0 c1 c2]; field. }
  split; [exact U1|]. rewrite <- Hu, U1 in Hx. rewrite Hx. assert (V : (0 < c1 (calc_v (v3 0%R 1%R 0%R)))%R).
  { unfold calc_v, rsqrt, sqr. cbn [c0 c1 c2]. apply Rmult_lt_0_compat; [lra|]. apply Rinv_0_lt_compat. apply sqrt_lt_R0. lra. }
  assert (V2 : (c2 (calc_v (v3 0%R 1%R 0%R)) = 0)%R) by (unfold calc_v; cbn [c0 c1 c2]; ring).
  unfold push_x, dim_of. destruct yz; cbn [ex67_g g_yz invar_of c0 c1 c2 mp_x ex67_x]; rewrite V2; split; lra.
Qed.
