(** C58: the particle store of the CUDA implementation and its boundary exchange;
    C59: the current of a process without particles. *)
From Coq Require Import Permutation Sorted.
From Verif Require Import Base Arr CudaPrtModel CudaPrtSpec CudaPrtProofs.
Local Open Scope Z_scope.

(** From a new store, any sequence of putting particles in, steps, reordering and
    reading goes through without a failed assert or an access outside an array, as
    long as a process that has particles does not lose all of them.  At the end the
    store holds exactly the particles it should, block by block; each exchange is
    given, patch by patch, exactly the particles that left; each read gives exactly
    the particles there are, patch by patch. *)
Theorem C58_run : forall P (cpos : P -> V3 Z) dP moved g acts, geom_ok g -> allowed_run cpos g [] acts ->
  exists c outs, exec_run cpos dP moved g (fresh g) acts = Some (c, outs) /\
    represents cpos g c (fold_left (after cpos g) acts []) /\ right_run cpos g [] acts outs.
Proof.
  intros P cpos dP moved g acts ok A.
  exact (run_ok cpos dP moved g ok acts (fresh g) [] [] (inv_fresh cpos dP moved g ok) (Permutation_refl _) A).
Qed.
Print Assumptions C58_run.

(** The stores of a kernel may be done in any order: reordering, computing offsets
    from any sorted block indices, and, in every state reached, the push and finding
    the block indices. *)
Theorem C58_schedule : forall P (cpos : P -> V3 Z) (dP : P) moved g acts c outs, geom_ok g -> allowed_run cpos g [] acts ->
  exec_run cpos dP moved g (fresh g) acts = Some (c, outs) ->
  (forall f ws ws' st idx, push_ok cpos g f -> push_reads cpos g f c = Some ws -> Permutation ws ws' ->
     run_writes (map (fun w => (fst w, fst (snd w))) ws') st = run_writes (map (fun w => (fst w, fst (snd w))) ws) st /\
     run_writes (map (fun w => (fst w, snd (snd w))) ws') idx = run_writes (map (fun w => (fst w, snd (snd w))) ws) idx) /\
  (forall c1 ws ws' idx, reorder dP c = Some c1 -> find_idx_writes cpos g (c_st c1) (c_off c1) = Some ws ->
     Permutation ws ws' -> run_writes ws' idx = run_writes ws idx) /\
  (forall (alt : list P) id n ws ws' st, reorder_writes alt id n = Some ws -> Permutation ws ws' ->
     run_writes ws' st = run_writes ws st) /\
  (forall idx wo wo' off, StronglySorted Z.le idx -> (forall k, In k idx -> 0 <= k < n_blocks g) ->
     offset_writes g idx (alen idx) = Some wo -> Permutation wo wo' -> run_writes wo' off = run_writes wo off).
Proof.
  intros P cpos dP moved g acts c outs ok A E.
  destruct (run_inv cpos dP moved g ok acts (fresh g) [] [] c outs (inv_fresh cpos dP moved g ok) (Permutation_refl _) A E) as [L I].
  split; [|split; [|split]].
  - intros f ws ws' st idx PO Ew Pm. pose proof (push_places cpos dP moved g ok c L f ws I PO Ew) as F.
    split; apply run_writes_perm; try (apply Permutation_map, Pm); rewrite map_map; cbn [fst]; change (NoDup (map fst ws)); rewrite F; apply NoDup_zrange.
  - intros c1 ws ws' idx E1 Ew Pm. apply run_writes_perm; [|exact Pm].
    rewrite (find_places cpos dP moved g ok c L c1 ws I E1 Ew). apply NoDup_zrange.
  - intros alt id n ws ws' st Ew Pm. apply run_writes_perm; [|exact Pm]. rewrite (reorder_places alt id n ws Ew). apply NoDup_zrange.
  - intros idx wo wo' off S R Ew Pm. apply run_writes_perm; [|exact Pm].
    rewrite (offset_places cpos dP moved g ok idx wo S R Ew). apply NoDup_zrange.
Qed.
Print Assumptions C58_schedule.

(** ** A process with two patches of 2 x 2 blocks of 4 x 4 cells, in 2-d.  A
    particle: its cell and a number. *)

Definition exg : geom := mkgeom (v3 1 4 4) (v3 1 8 8) 2 true.
Definition exp : Type := V3 Z * Z.
Definition exd : exp := (v3 0 0 0, 0).
(** Particles move one cell along y. *)
Definition exf (p : Z) (x : exp) : exp := (v3 (c0 (fst x)) (c1 (fst x) + 1) (c2 (fst x)), snd x).
Definition ex_acts : list (action exp) :=
  [Inject [[(v3 0 7 1, 1); (v3 0 3 2, 2)]; [(v3 0 5 6, 3)]];
   Step exf [[(v3 0 0 5, 4)]; [(v3 0 0 1, 1)]];
   Inject [[]; [(v3 0 6 0, 5)]];
   Step exf [[(v3 0 2 2, 6)]; []];
   Get; Reorder].

Lemma exg_ok : geom_ok exg.
Proof.
  constructor; cbn; try lia.
  - intros []; cbn; lia.
  - intros []; cbn; lia.
  - intros []; cbn; [exists 1|exists 2|exists 2]; reflexivity.
Qed.

Lemma exf_ok : push_ok fst exg exf.
Proof.
  intros p [x n] H. cbn. split; [|reflexivity].
  pose proof (H D0) as H0. pose proof (H D1) as H1. pose proof (H D2) as H2. cbn in H0, H1, H2.
  intros []; cbn; lia.
Qed.

Lemma bufs_in_dec (bufs : list (list exp)) : alen bufs = g_np exg ->
  forallb (fun l => forallb (fun x => cell_inb exg (fst x)) l) bufs = true -> bufs_in fst exg bufs.
Proof.
  intros H0 H. split; [exact H0|]. intros l x Hl Hx. rewrite forallb_forall in H. specialize (H l Hl). cbn beta in H.
  rewrite forallb_forall in H. apply (cell_inb_spec exg), (H x Hx).
Qed.

Lemma ex_allowed : allowed_run fst exg [] ex_acts.
Proof.
  unfold ex_acts. cbn [allowed_run allowed].
  repeat match goal with |- _ /\ _ => split end; try apply exf_ok; try (apply bufs_in_dec; reflexivity); try exact Logic.I;
    intros _ H; vm_compute in H; discriminate H.
Qed.

Example C58_run_example : geom_ok exg /\ allowed_run fst exg [] ex_acts /\
  option_map snd (exec_run fst exd (fun x => x) exg (fresh exg) ex_acts) =
    Some [Nothing;
          Sent [[(v3 0 8 1, 1)]; []];
          Nothing;
          Sent [[]; []];
          Read [(v3 0 2 2, 6); (v3 0 5 2, 2); (v3 0 1 5, 4); (v3 0 1 1, 1); (v3 0 7 0, 5); (v3 0 7 6, 3)] [0; 3; 6];
          Nothing].
Proof. split; [apply exg_ok|]. split; [apply ex_allowed|]. vm_compute. reflexivity. Qed.

Example C58_schedule_example : exists c outs ws,
  exec_run fst exd (fun x => x) exg (fresh exg) ex_acts = Some (c, outs) /\
  push_reads fst exg exf c = Some ws /\ alen ws = 6 /\
  exists c1, reorder exd c = Some c1 /\ exists wf, find_idx_writes fst exg (c_st c1) (c_off c1) = Some wf /\ alen wf = 6.
Proof. eexists _, _, _. split; [vm_compute; reflexivity|]. split; [vm_compute; reflexivity|]. split; [reflexivity|].
  eexists. split; [vm_compute; reflexivity|]. eexists. split; [vm_compute; reflexivity|]. reflexivity. Qed.

(** ** What does not hold *)

(** A process that loses its last particle cannot make another step, nor be given a
    particle: the vectors keep the size they had, and the asserts of prep and of
    inject_initial fail. *)
Theorem C58_last_particle_refuted : exists (P : Type) (cpos : P -> V3 Z) (dP : P) (moved : P -> P) g acts1 acts2,
  geom_ok g /\ in_place_run cpos g acts1 /\ in_place_run cpos g acts2 /\
  exec_run cpos dP moved g (fresh g) acts1 = None /\ exec_run cpos dP moved g (fresh g) acts2 = None.
Proof.
  set (i1 := Inject [[(v3 0 7 1, 1)]; []] : action exp). set (s1 := Step exf [[]; []] : action exp).
  exists exp, fst, exd, (fun x => x), exg, [i1; s1; s1], [i1; s1; Inject [[(v3 0 0 1, 2)]; []]].
  split; [apply exg_ok|].
  split; [cbn [in_place_run i1 s1]; repeat match goal with |- _ /\ _ => split end; try apply exf_ok; try (apply bufs_in_dec; reflexivity); exact Logic.I|].
  split; [cbn [in_place_run i1 s1]; repeat match goal with |- _ /\ _ => split end; try apply exf_ok; try (apply bufs_in_dec; reflexivity); exact Logic.I|].
  split; vm_compute; reflexivity.
Qed.
Print Assumptions C58_last_particle_refuted.

(** The repair of a particle just outside its patch is lost when it is received:
    the particle is put right by checkInPatchMod, yet the next assert fails. *)
Theorem C58_receive_repair_refuted : exists (P : Type) (cpos : P -> V3 Z) (moved : P -> P) g bufs,
  geom_ok g /\ alen bufs = g_np g /\
  (forall l x, In l bufs -> In x l -> exists y, check_in_patch_mod cpos moved g x = Some y /\ cell_in g (cpos y)) /\
  received cpos moved g bufs = None.
Proof.
  exists exp, fst, (fun x => (v3 (c0 (fst x)) 7 (c2 (fst x)), snd x)), exg, [[(v3 0 8 1, 1)]; []].
  split; [apply exg_ok|]. split; [reflexivity|]. split; [|vm_compute; reflexivity].
  intros l x [<-|[<-|[]]] Hx; [|destruct Hx]. destruct Hx as [<-|[]]. eexists. split; [vm_compute; reflexivity|].
  intros []; cbn; lia.
Qed.
Print Assumptions C58_receive_repair_refuted.

(** With particles, the current of a step is what this step adds, whatever it was
    before. *)
Theorem C59_current_partial : forall hist s, fst (fst s) <> 0 -> fold_left step_current (hist ++ [s]) 0 = current_of s.
Proof.
  intros hist [[n dep] nb] H. rewrite fold_left_app. cbn [fold_left step_current fst] in *. unfold push_current, current_of.
  destruct (Z.eqb_spec n 0); [contradiction|]. rewrite !fold_symmetric by (intros; lia).
  induction dep as [|x dep IH]; cbn; [lia|]. rewrite <- IH. lia.
Qed.
Print Assumptions C59_current_partial.

Example C59_current_example : fold_left step_current ([(0, [], 3); (0, [], 4)] ++ [(2, [1; 5], -1)]) 0 = 5.
Proof. reflexivity. Qed.

(** Without particles, the current is not cleared: what the ghost points of the
    neighbours bring adds up from step to step. *)
Theorem C59_current_piles_up : forall nbs, fold_left step_current (map (fun nb => (0, @nil Z, nb)) nbs) 0 = zsum nbs.
Proof.
  intros nbs.
  assert (E : forall x, fold_left step_current (map (fun nb => (0, @nil Z, nb)) nbs) x = x + zsum nbs).
  { induction nbs as [|nb nbs IH]; intros x; [cbn; lia|]. cbn [map fold_left zsum]. rewrite IH.
    unfold step_current, push_current. cbn [Z.eqb]. lia. }
  rewrite E. lia.
Qed.
Print Assumptions C59_current_piles_up.

Example C59_current_piles_up_example : fold_left step_current (map (fun nb => (0, @nil Z, nb)) [7; 7; 7]) 0 = 21.
Proof. reflexivity. Qed.

Theorem C59_current_refuted : exists hist s, fold_left step_current (hist ++ [s]) 0 <> current_of s.
Proof. exists [(0, [], 7)], (0, [], 7). cbn. discriminate. Qed.
Print Assumptions C59_current_refuted.
