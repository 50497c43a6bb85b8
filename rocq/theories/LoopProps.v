(** The theorems about the main loop, its diagnostics and checkpoints and the time step
    (properties C34 to C36, C46, C47, C51). *)
From Coq Require Import Reals Lra.
From Verif Require Import Base OutputModel OutputProofs LoopModel LoopSpec LoopProofs LoopClockProofs CourantProofs.
Local Open Scope Z_scope.

(** C34: full claim -- for every interval k, window length L, sampling interval s >= 1,
    the averaged fields written by a run are the means over the windows.  It is false at
    step 0 (see below); it holds for runs started at a later step, without plain output of
    the item, or if step 0 happens to be sampled.  [window_in] says which steps are in a
    window. *)
Theorem C34_means_partial : forall X (p k L s t0 : Z) (item : Z -> X -> R),
  0 < k -> 1 <= L -> 1 <= s -> 0 <= t0 -> (t0 = 0 -> p <= 0 \/ accum_at_0 k L s = true) ->
  forall n, exists os, run_item p (Tfield k L s) item item_init (zrange t0 (t0 + Z.of_nat n)) = Some os /\
    Forall2 same_output os (expected p (Tfield k L s) item t0 (zrange t0 (t0 + Z.of_nat n))).
Proof. exact @run_all. Qed.
Print Assumptions C34_means_partial.

Theorem C34_windows : forall t0 k L s t, 0 < k -> 1 <= L -> 1 <= s -> t0 <= t ->
  NoDup (window t0 k L s t) /\ In t (window t0 k L s t) /\
  (forall t', In t' (window t0 k L s t) <-> t0 <= t' <= t /\ t - t' < L /\ t - t' < k /\ (s | t - t')) /\
  (forall u t', t mod k = 0 -> u mod k = 0 -> t <> u -> In t' (window t0 k L s t) -> In t' (window t0 k L s u) -> False).
Proof.
  intros t0 k L s t Hk HL Hs Ht. split; [apply window_nodup|]. split; [apply window_last; lia|].
  split; [intros; apply window_in; lia|]. intros u t' Hm Hu. apply windows_disjoint; lia || assumption.
Qed.
Print Assumptions C34_windows.

Example ex_C34 : window 1 4 3 2 8 = [6; 8] /\ window 1 4 3 2 4 = [2; 4] /\ accum_at_0 4 3 2 = false /\
  (1 = 0 -> 2 <= 0 \/ accum_at_0 4 3 2 = true).
Proof. repeat split; try reflexivity. lia. Qed.

(** at step 0 it fails: with the plain output of the item on, and an interval of
    at least 2 whose step 0 is not sampled, an empty accumulator is divided by 0 *)
Theorem C34_step0_refuted : exists (p k L s : Z) (item : Z -> unit -> R), 0 < p /\ 0 < k /\ 1 <= L /\ 1 <= s /\
  run_item p (Tfield k L s) item item_init [0] = None.
Proof. exists 1, 2, 1, 1, (fun _ _ => 0%R). repeat split; lia. Qed.
Print Assumptions C34_step0_refuted.

Theorem C34_step0_fails : forall X p k L s (item : Z -> X -> R), 0 < p -> 0 < k -> 1 <= L -> 1 <= s ->
  accum_at_0 k L s = false -> forall ts, run_item p (Tfield k L s) item item_init (0 :: ts) = None.
Proof. exact @step0_fails. Qed.
Print Assumptions C34_step0_fails.

Example ex_C34_step0 : accum_at_0 100 50 1 = false.
Proof. reflexivity. Qed.

(** C35: full claim -- an output with a non-positive interval does nothing at all.  It
    is false of the averaged fields with interval 0 (division by zero), of the ascii
    particle output with interval 0 and of the status line; it holds otherwise. *)
Theorem C35_disabled_refuted :
  (exists p L s (item : Z -> unit -> R) t, run_item p (Tfield 0 L s) item item_init [t] = None) /\
  (exists t, ascii_out 0 t = None) /\
  (exists t, stats_out 0 t = None).
Proof. split; [exists 0, 1, 1, (fun _ _ => 0%R), 1; reflexivity|]. split; exists 1; reflexivity. Qed.
Print Assumptions C35_disabled_refuted.

Theorem C35_zero_interval_faults : forall X p L s (item : Z -> X -> R) st t ts,
  run_item p (Tfield 0 L s) item st (t :: ts) = None.
Proof. exact @tfield_zero_faults. Qed.
Print Assumptions C35_zero_interval_faults.

Example ex_C35_zero : run_item 10 (Tfield 0 1 1) (fun (t : Z) (x : Z) => 1%R) item_init [0; 1] = None.
Proof. reflexivity. Qed.

Theorem C35_disabled_partial : forall k t, k <= 0 ->
  do_out k t = Some false /\ interval_out k t = Some false /\ (k <> 0 -> ascii_out k t = Some false) /\
  (forall X p L s (item : Z -> X -> R) st ts, k <> 0 -> s <> 0 -> Forall (fun t => 0 <= t) ts ->
    run_item p (Tfield k L s) item st ts =
    Some (flat_map (fun t => if (0 <? p) && (t mod p =? 0) then [Pfd t (item t)] else []) ts)).
Proof.
  intros k t Hk. split; [apply do_out_disabled; exact Hk|]. split; [apply interval_out_disabled; exact Hk|].
  split; [|intros; apply tfield_negative_inert; (lia || assumption)].
  intros Hn. unfold ascii_out. destruct (Z.ltb_spec k 0); [reflexivity|lia].
Qed.
Print Assumptions C35_disabled_partial.

Example ex_C35 : run_item 2 (Tfield (-1) 1 1) (fun (t : Z) (x : unit) => IZR t) item_init [0; 1; 2] =
  Some [Pfd 0 (fun _ => 0%R); Pfd 2 (fun _ => 2%R)].
Proof. reflexivity. Qed.

(** C36: the steps at which checkpoints are written, by a run from t0 to its end *)
Theorem C36_checkpoints : forall cfg t0, stats_every cfg <> 0 -> exists tend trace,
  ends_at cfg t0 tend /\ integrate (Z.to_nat (nmax cfg - t0)) cfg t0 = Some trace /\
  times Checkpoint trace =
    (if write_checkpoint_every_step cfg <=? 0 then []
     else filter (multiple (write_checkpoint_every_step cfg)) (zrange (t0 + 1) tend) ++ [tend]).
Proof. intros cfg t0 H. destruct (integrate_times cfg t0 H) as [e [tr T]]. exists e, tr. tauto. Qed.
Print Assumptions C36_checkpoints.

Example cfg_ex : config := Config 7 3 10 4 2 3 0 2 3 1 0 1 (fun t => t =? 5) (fun _ => false).
Example ex_C36 : option_map (times Checkpoint) (integrate 7 cfg_ex 0) = Some [3; 6; 7] /\
  option_map (times Checkpoint) (integrate 4 cfg_ex 3) = Some [6; 7].
Proof. split; vm_compute; reflexivity. Qed.

(** a run restarted from the checkpoint of step c writes the checkpoints after c of the
    run that was not interrupted, and ends at the same step *)
Theorem C36_restart : forall cfg t0 tend c, stats_every cfg <> 0 -> ends_at cfg t0 tend -> t0 <= c < tend ->
  exists trace trace', integrate (Z.to_nat (nmax cfg - t0)) cfg t0 = Some trace /\
    integrate (Z.to_nat (nmax cfg - c)) cfg c = Some trace' /\ ends_at cfg c tend /\
    times Checkpoint trace' = filter (fun t => c <? t) (times Checkpoint trace).
Proof. exact restart_trace. Qed.
Print Assumptions C36_restart.

Example ex_C36_restart : ends_at cfg_ex 0 7 /\ 0 <= 3 < 7.
Proof. split; [|lia]. right. split; [cbn; lia|]. split; [reflexivity|]. left. reflexivity. Qed.

(** after a crash during step s at most one interval of steps is lost *)
Theorem C36_crash : forall cfg t0 tend s, stats_every cfg <> 0 -> 0 < write_checkpoint_every_step cfg ->
  ends_at cfg t0 tend -> t0 < s <= tend ->
  exists trace, integrate (Z.to_nat (nmax cfg - t0)) cfg t0 = Some trace /\
  (s - t0 <= write_checkpoint_every_step cfg \/
   exists c, In c (times Checkpoint trace) /\ s - write_checkpoint_every_step cfg <= c < s).
Proof. exact crash_trace. Qed.
Print Assumptions C36_crash.

Example ex_C36_crash : 0 < write_checkpoint_every_step cfg_ex /\ 0 < 5 <= 7.
Proof. cbn. lia. Qed.

(** C47: which operation is called during which steps of a run *)
Theorem C47_schedule : forall cfg t0, stats_every cfg <> 0 -> exists tend trace,
  ends_at cfg t0 tend /\ integrate (Z.to_nat (nmax cfg - t0)) cfg t0 = Some trace /\
  times PushParticles trace = zrange (t0 + 1) (tend + 1) /\
  times PushE trace = zrange (t0 + 1) (tend + 1) /\
  times PushH trace = flat_map (fun t => [t; t]) (zrange (t0 + 1) (tend + 1)) /\
  times BndParticles trace = zrange (t0 + 1) (tend + 1) /\
  times Diagnostics trace = zrange t0 (tend + 1) /\
  times Balance trace = filter (balance_wanted cfg) (zrange (t0 + 1) (tend + 1)) /\
  times Sort trace = filter (multiple (sort_interval cfg)) (zrange (t0 + 1) (tend + 1)) /\
  times Collide trace = filter (multiple (collision_interval cfg)) (zrange (t0 + 1) (tend + 1)) /\
  times ContinuityBefore trace = filter (multiple (continuity_interval cfg)) (zrange (t0 + 1) (tend + 1)) /\
  times ContinuityAfter trace = filter (multiple (continuity_interval cfg)) (zrange (t0 + 1) (tend + 1)) /\
  times Inject trace = flat_map (fun t => repeat t (n_injectors cfg)) (zrange (t0 + 1) (tend + 1)) /\
  times ExternalCurrent trace = flat_map (fun t => repeat t (n_currents cfg)) (zrange (t0 + 1) (tend + 1)) /\
  times Marder trace =
    flat_map (fun t => repeat t (n_correctors cfg)) (filter (multiple (marder_interval cfg)) (zrange (t0 + 1) (tend + 1))) /\
  times Gauss trace = filter (multiple (gauss_interval cfg)) (zrange t0 (tend + 1)) /\
  times Checkpoint trace =
    (if write_checkpoint_every_step cfg <=? 0 then []
     else filter (multiple (write_checkpoint_every_step cfg)) (zrange (t0 + 1) tend) ++ [tend]).
Proof. exact integrate_times. Qed.
Print Assumptions C47_schedule.

Example ex_C47 : option_map (fun tr => (times PushH tr, times Balance tr, times Gauss tr)) (integrate 7 cfg_ex 0) =
  Some ([1; 1; 2; 2; 3; 3; 4; 4; 5; 5; 6; 6; 7; 7], [4; 5], [0; 3; 6]).
Proof. vm_compute. reflexivity. Qed.

(** ... and within each step in the documented order *)
Theorem C47_sequence : forall cfg n t0 trace, integrate n cfg t0 = Some trace -> forall t, t0 < t -> follows documented (ops_at t trace).
Proof. exact run_follows. Qed.
Print Assumptions C47_sequence.

Example ex_C47_sequence : option_map (ops_at 5) (integrate 7 cfg_ex 0) =
  Some [Balance; PushParticles; Inject; BndParticles; WallJ; AddGhostsJ; FillGhostsJ; PushH; WallH; FillGhostsH; PushE; WallE; FillGhostsE;
        PushH; WallH; FillGhostsH; Diagnostics].
Proof. vm_compute. reflexivity. Qed.

(** ... an order in which every operation finds its operands at the right time
    and up to date ([exec]): particles pushed with the fields of their positions' time,
    H half way between old and new E when E is advanced with the J of that time, the checks
    and Marder on synchronous E and positions, and so on.  (Ghost points at walls are
    left to C51: [walls] is false here.) *)
Theorem C47_order : forall cfg t0 s, stats_every cfg <> 0 -> at_time t0 s -> js s = JOld ->
  exists tend trace s', ends_at cfg t0 tend /\ integrate (Z.to_nat (nmax cfg - t0)) cfg t0 = Some trace /\
    exec_all false (map snd trace) s = Some s' /\ at_time tend s'.
Proof. intros cfg t0 s H. apply integrate_ready; [exact H|left; reflexivity]. Qed.
Print Assumptions C47_order.

Example ex_C47_order : stats_every cfg_ex <> 0 /\ at_time 0 (Clocks 1 0 1 1 0 0 true false false false false JOld).
Proof. split; [discriminate|]. repeat split. Qed.

(** with an interval of 0 for the status line the run fails at once (see C35) *)
Theorem C47_stats_every_zero : forall cfg t0 n, stats_every cfg = 0 -> t0 < nmax cfg -> integrate n cfg t0 = None.
Proof.
  intros cfg t0 n H Ht. unfold integrate. destruct n as [|n]; cbn [time_loop]; destruct (Z.ltb_spec t0 (nmax cfg)); try lia; [reflexivity|].
  rewrite H. destruct (checkpointing _ _ _). reflexivity.
Qed.
Print Assumptions C47_stats_every_zero.

Example ex_C47_stats : integrate 5 (Config 5 0 0 0 0 0 0 0 0 0 0 0 (fun _ => false) (fun _ => false)) 0 = None.
Proof. reflexivity. Qed.

(** C51: full claim -- all ghost points an operation uses are up to date.  True
    without walls or without Marder correction (above); with both it is false: the
    correction changes E and exchanges the patch boundaries, but the ghost points at the
    walls keep mirroring the uncorrected field when the particles are pushed next. *)
Theorem C51_fresh_partial : forall walls cfg t0 s, stats_every cfg <> 0 -> no_marder_at_walls walls cfg ->
  at_time t0 s -> js s = JOld ->
  exists tend trace s', ends_at cfg t0 tend /\ integrate (Z.to_nat (nmax cfg - t0)) cfg t0 = Some trace /\
    exec_all walls (map snd trace) s = Some s' /\ at_time tend s'.
Proof. exact integrate_ready. Qed.
Print Assumptions C51_fresh_partial.

Example ex_C51_fresh : no_marder_at_walls true (Config 9 3 10 4 2 0 0 2 3 1 0 1 (fun t => t =? 5) (fun _ => false)).
Proof. right. left. cbn. lia. Qed.

Theorem C51_marder_refuted : exists cfg t0 s trace, stats_every cfg <> 0 /\ at_time t0 s /\ js s = JOld /\
  integrate (Z.to_nat (nmax cfg - t0)) cfg t0 = Some trace /\ exec_all true (map snd trace) s = None.
Proof.
  exists (Config 2 0 1 0 0 1 0 0 0 0 0 1 (fun _ => false) (fun _ => false)), 0, (Clocks 1 0 1 1 0 0 true false false false false JOld).
  eexists. split; [discriminate|]. split; [repeat split|]. split; [reflexivity|]. split; vm_compute; reflexivity.
Qed.
Print Assumptions C51_marder_refuted.

(** not only in this run: the step after any step with a correction *)
Theorem C51_marder_stale : forall cfg n s s1, due (marder_interval cfg) (n + 1) = true -> n_correctors cfg <> 0%nat ->
  ready true n s -> exec_all true (step_ops cfg (n + 1)) s = Some s1 ->
  exec_all true (step_ops cfg (n + 1 + 1)) s1 = None.
Proof. intros cfg n s s1 H1 H2 H3 H4. apply stale_push. eapply marder_stale; eassumption. Qed.
Print Assumptions C51_marder_stale.

Example ex_C51 : due (marder_interval cfg_ex) (2 + 1) = true /\ n_correctors cfg_ex <> 0%nat /\
  ready true 2 (Clocks 5 4 5 5 4 3 true true true true true JReady) /\
  exec_all true (step_ops cfg_ex 3) (Clocks 5 4 5 5 4 3 true true true true true JReady) =
  Some (Clocks 7 6 7 7 6 3 true true true false true JReady).
Proof. split; [reflexivity|]. split; [discriminate|]. split; [repeat split|]. vm_compute. reflexivity. Qed.

Local Open Scope R_scope.

(** C46 *)
Theorem C46_courant : forall invar dx, (forall d, 0 < get3 dx d) -> ~ all_invar invar ->
  0 < courant_length invar dx /\ courant_length invar dx ^ 2 * inv_sq_sum invar dx = 1 /\
  (forall d, get3 invar d = false -> courant_length invar dx <= get3 dx d).
Proof.
  intros invar dx H N. destruct (courant_square invar dx H N). repeat split; try assumption.
  intros d. apply courant_le. exact H.
Qed.
Print Assumptions C46_courant.

(** no wave grows with a time step of cfl <= 1 times this length, and some wave does
    with cfl > 1 *)
Theorem C46_stable : forall invar dx k cfl, (forall d, 0 < get3 dx d) -> ~ all_invar invar -> 0 <= cfl <= 1 ->
  exists w, sin (w * (cfl * courant_length invar dx) / 2) ^ 2 = (cfl * courant_length invar dx) ^ 2 * wave_sum invar dx k.
Proof. exact courant_stable. Qed.
Print Assumptions C46_stable.

Theorem C46_sharp : forall invar dx cfl, (forall d, 0 < get3 dx d) -> ~ all_invar invar -> 1 < cfl ->
  forall w, sin (w * (cfl * courant_length invar dx) / 2) ^ 2 <>
    (cfl * courant_length invar dx) ^ 2 * wave_sum invar dx (v3 (PI / c0 dx) (PI / c1 dx) (PI / c2 dx)).
Proof. exact courant_sharp. Qed.
Print Assumptions C46_sharp.

Example ex_C46 : (forall d, 0 < get3 (v3 3 4 7) d) /\ ~ all_invar (v3 false false true) /\
  courant_length (v3 false false true) (v3 3 4 7) = 12 / 5 /\ 0 <= 3/4 <= 1.
Proof.
  split; [intros []; cbn; lra|]. split; [intros [H _]; discriminate|]. split; [|lra].
  assert (N : ~ all_invar (v3 false false true)) by (intros [H _]; discriminate).
  destruct (courant_square (v3 false false true) (v3 3 4 7)) as [P Q]; [intros []; cbn; lra|exact N|].
  unfold inv_sq_sum in Q. cbn [c0 c1 c2] in Q. set (L := courant_length _ _) in *.
  assert (L ^ 2 = (12 / 5) ^ 2) by nra. assert ((L - 12 / 5) * (L + 12 / 5) = 0) by nra.
  apply Rmult_integral in H0. lra.
Qed.

(** without any active dimension the length is 1 *)
Theorem C46_no_dimension : forall invar dx, all_invar invar -> courant_length invar dx = 1.
Proof. exact courant_all_invar. Qed.
Print Assumptions C46_no_dimension.

Example ex_C46_no_dimension : all_invar (v3 true true true).
Proof. repeat split. Qed.
