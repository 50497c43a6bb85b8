(** The main loop: src/include/psc.hxx (Psc::integrate, Psc::step) and
    src/include/checkpoint.hxx (Checkpointing).  CPU version (without USE_CUDA).
    A run is the list of the operations called, each with the time step during
    which it is called. *)
From Coq Require Import Reals.
From Verif Require Import Base OutputModel.
Local Open Scope Z_scope.

(** the operations called in psc.hxx:220-486, by line *)
Inductive op :=
| Balance          (* balance_, 353 *)
| Sort             (* sort_, 359 *)
| Collide          (* collision_, 366 *)
| ContinuityBefore (* checks_.continuity.before_particle_push, 382 *)
| PushParticles    (* pushp_.push_mprts, 389 *)
| Inject           (* injector->inject, 397 *)
| ExternalCurrent  (* external_current->inject_current, 406 *)
| BndParticles     (* bndp_, 412 *)
| WallJ            (* bndf.add_ghosts_J, 417 *)
| AddGhostsJ       (* bnd_.add_ghosts JXI, 418 *)
| FillGhostsJ      (* bnd_.fill_ghosts JXI, 419 and 225 *)
| PushH            (* pushf_.push_H .5, 426 and 461 *)
| WallH            (* bndf.fill_ghosts_H, 431, 466 and 222 *)
| FillGhostsH      (* bnd_.fill_ghosts HX, 432, 467 and 223 *)
| PushE            (* pushf_.push_E 1., 439 *)
| WallE            (* bndf.fill_ghosts_E, 444 and 227 *)
| FillGhostsE      (* bnd_.fill_ghosts EX, 445 and 228 *)
| Marder           (* corrector->correct_gauss, 452 *)
| ContinuityAfter  (* checks_.continuity.after_particle_push, 474 *)
| Gauss            (* checks_.gauss, 481 and 236 *)
| Diagnostics      (* perform_diagnostics, 254 and 282 *)
| PrintStatus      (* print_status, 258 and 290 *)
| Checkpoint.      (* write_checkpoint, checkpoint.hxx:109 and 122 *)

(** PscParams (psc.hxx:66-84), Collision::interval, the check parameters, the
    numbers of injectors, external currents and Gauss correctors.  The memory
    fraction (350-352) and the elapsed time (293-299) are oracles: whether they
    exceed their limit in a given time step. *)
Record config := Config {
  nmax : Z;
  write_checkpoint_every_step : Z;
  stats_every : Z;
  balance_interval : Z;
  sort_interval : Z;
  marder_interval : Z;
  collision_interval : Z;
  continuity_interval : Z;
  gauss_interval : Z;
  n_injectors : nat;
  n_currents : nat;
  n_correctors : nat;
  mem_exceeded : Z -> bool;
  time_exceeded : Z -> bool
}.

(** [interval > 0 && timestep % interval == 0] -- psc.hxx:356, 363, 448,
    checks_params.hxx:14-17.  ([Z.rem] by a positive number only.) *)
Definition due (interval t : Z) : bool := (0 <? interval) && (Z.rem t interval =? 0).

(** psc.hxx:351-352 *)
Definition balance_due (cfg : config) (t : Z) : bool :=
  (0 <? balance_interval cfg) && ((Z.rem t (balance_interval cfg) =? 0) || mem_exceeded cfg t).

(** an if around an operation (psc.hxx:351-483) *)
Definition when (b : bool) (o : op) : list op := if b then [o] else [].

(** psc.hxx:321-486, for the new time step *)
Definition step_ops (cfg : config) (t : Z) : list op :=
  when (balance_due cfg t) Balance ++
  when (due (sort_interval cfg) t) Sort ++
  when (due (collision_interval cfg) t) Collide ++
  when (due (continuity_interval cfg) t) ContinuityBefore ++
  [PushParticles] ++
  repeat Inject (n_injectors cfg) ++
  repeat ExternalCurrent (n_currents cfg) ++
  [BndParticles; WallJ; AddGhostsJ; FillGhostsJ;
   PushH; WallH; FillGhostsH;
   PushE; WallE; FillGhostsE] ++
  (if due (marder_interval cfg) t then repeat Marder (n_correctors cfg) else []) ++
  [PushH; WallH; FillGhostsH] ++
  when (due (continuity_interval cfg) t) ContinuityAfter ++
  when (due (gauss_interval cfg) t) Gauss.

(** psc.hxx:220-238; [gauss] itself checks the actual time step once more
    (checks_impl.hxx:153) *)
Definition pre_first_step (cfg : config) (t : Z) : list op :=
  [WallH; FillGhostsH; FillGhostsJ; WallE; FillGhostsE] ++
  when (due (gauss_interval cfg) 0 && due (gauss_interval cfg) t) Gauss.

(** checkpoint.hxx:95-111: new first_time_, and whether a checkpoint is written *)
Definition checkpointing (interval : Z) (first_time : bool) (t : Z) : bool * list op :=
  if interval <=? 0 then (first_time, [])
  else if first_time then (false, [])
  else (first_time, when (Z.rem t interval =? 0) Checkpoint).

(** checkpoint.hxx:116-123 *)
Definition checkpoint_final (interval : Z) : list op := if interval <=? 0 then [] else [Checkpoint].

(** operations during time step t (used for all of psc.hxx:243-316) *)
Definition at_step (t : Z) (l : list op) : list (Z * op) := map (fun o => (t, o)) l.

(** psc.hxx:265-306; [fuel] bounds the number of iterations, running out is [None] *)
Fixpoint time_loop (fuel : nat) (cfg : config) (first_time : bool) (t : Z) : option (list (Z * op)) :=
  if t <? nmax cfg then
    match fuel with
    | O => None
    | S fuel =>
        let '(first_time, cps) := checkpointing (write_checkpoint_every_step cfg) first_time t in
        let t' := t + 1 in
        match stats_out (stats_every cfg) t' with
        | None => None
        | Some st =>
            let this := at_step t cps ++ at_step t' (step_ops cfg t' ++ [Diagnostics] ++ when st PrintStatus) in
            if time_exceeded cfg t' then Some (this ++ at_step t' (checkpoint_final (write_checkpoint_every_step cfg)))
            else match time_loop fuel cfg first_time t' with
                 | Some r => Some (this ++ r)
                 | None => None
                 end
        end
    end
  else Some (at_step t (checkpoint_final (write_checkpoint_every_step cfg))).

(** psc.hxx:243-316, started at time step t0 (from a checkpoint, or 0) *)
Definition integrate (fuel : nat) (cfg : config) (t0 : Z) : option (list (Z * op)) :=
  match time_loop fuel cfg true t0 with
  | Some r => Some (at_step t0 (pre_first_step cfg t0 ++ [Diagnostics; PrintStatus]) ++ r)
  | None => None
  end.

(** psc.hxx:88-100 *)
Definition courant_length (invar : V3 bool) (dx : V3 R) : R :=
  let inv_sum := fold_left (fun s d => if get3 invar d then s else (s + 1 / (get3 dx d * get3 dx d))%R) [D0; D1; D2] 0%R in
  let inv_sum := if Req_EM_T inv_sum 0 then 1%R else inv_sum in
  sqrt (1 / inv_sum).
