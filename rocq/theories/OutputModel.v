(** When and what is written: src/include/output_fields.hxx,
    src/include/checks_params.hxx, src/include/DiagEnergies.inl and the particle
    outputs.  C's [/] and [%] truncate; dividing by zero is undefined ([None]). *)
From Coq Require Import Reals.
From Verif Require Import Base.
Local Open Scope Z_scope.

(** C's division, as used in output_fields.hxx:96 *)
Definition c_div (a b : Z) : option Z := if b =? 0 then None else Some (Z.quot a b).
(** C's remainder, as used in output_fields.hxx:78 *)
Definition c_mod (a b : Z) : option Z := if b =? 0 then None else Some (Z.rem a b).

(** output_fields.hxx:74 *)
Definition enabled (out_interval : Z) : bool := 0 <? out_interval.

(** output_fields.hxx:76-79; the same in checks_params.hxx:12-17 *)
Definition do_out (out_interval timestep : Z) : option bool :=
  if enabled out_interval
  then match c_mod timestep out_interval with Some r => Some (r =? 0) | None => None end
  else Some false.

(** OutputTfieldItemParams, output_fields.hxx:85-90 with 70 *)
Record tfield_prm := Tfield { out_interval : Z; average_length : Z; sample_interval : Z }.

(** output_fields.hxx:93-102 *)
Definition do_accum (prm : tfield_prm) (timestep : Z) : option bool :=
  match c_div (timestep - 1) (out_interval prm) with
  | None => None
  | Some n_intervals_elapsed =>
      let next_out := out_interval prm * (n_intervals_elapsed + 1) in
      let in_averaging_range := next_out - timestep <? average_length prm in
      match c_mod (next_out - timestep) (sample_interval prm) with
      | None => None
      | Some r => Some (enabled (out_interval prm) && in_averaging_range && (r =? 0))
      end
  end.

Section Item.
  (** grid points and components of the item; its values are reals *)
  Context {X : Type}.

  (** a write_step call: output_fields.hxx:193-194 and 222-223 *)
  Inductive output := Pfd (t : Z) (f : X -> R) | Tfd (t : Z) (f : X -> R).

  (** output_fields.hxx:237-238: tfd_ (null at first) and naccum_ *)
  Record item_state := ItemState { tfd_ : option (X -> R); naccum_ : Z }.

  (** output_fields.hxx:237-238, initial values *)
  Definition item_init : item_state := ItemState None 0.

  (** output_fields.hxx:200-208; a new Mfields is zero (fields3d.hxx:347) *)
  Definition accumulate (st : item_state) (pfd : X -> R) : item_state :=
    let f := match tfd_ st with Some f => f | None => fun _ => 0%R end in
    ItemState (Some (fun x => (f x + pfd x)%R)) (naccum_ st + 1).

  (** output_fields.hxx:211-229; using the null tfd_ is undefined, and with naccum_ = 0
      the factor is not finite: both [None] *)
  Definition write_mean (st : item_state) (t : Z) : option (item_state * output) :=
    match tfd_ st with
    | None => None
    | Some f =>
        if naccum_ st =? 0 then None
        else Some (ItemState (Some (fun _ => 0%R)) 0, Tfd t (fun x => (1 / IZR (naccum_ st) * f x)%R))
    end.

  (** output_fields.hxx:159-232; [item] is the value of the item (its interior,
      line 183) at this time step *)
  Definition perform_diagnostic (p_interval : Z) (tf : tfield_prm) (st : item_state) (timestep : Z) (item : X -> R)
    : option (item_state * list output) :=
    match do_out p_interval timestep, do_out (out_interval tf) timestep, do_accum tf timestep with
    | Some do_pfield, Some do_tfield, Some do_tfield_accum =>
        if do_pfield || do_tfield_accum then
          let ps := if do_pfield then [Pfd timestep item] else [] in
          let st := if do_tfield_accum then accumulate st item else st in
          if do_tfield then
            match write_mean st timestep with
            | Some (st, o) => Some (st, ps ++ [o])
            | None => None
            end
          else Some (st, ps)
        else Some (st, [])
    | _, _, _ => None
    end.

  (** the diagnostics of a run (psc.hxx:254 and 282): one call per time step *)
  Fixpoint run_item (p_interval : Z) (tf : tfield_prm) (item : Z -> X -> R) (st : item_state) (ts : list Z)
    : option (list output) :=
    match ts with
    | [] => Some []
    | t :: ts =>
        match perform_diagnostic p_interval tf st t (item t) with
        | Some (st, os) =>
            match run_item p_interval tf item st ts with
            | Some os' => Some (os ++ os')
            | None => None
            end
        | None => None
        end
    end.
End Item.
Arguments output : clear implicits.
Arguments item_state : clear implicits.

(** DiagEnergies.inl:42; the same in output_particles_hdf5_impl.hxx:808 and
    output_particles_adios2_impl.hxx:149.  [Some true]: writes. *)
Definition interval_out (interval timestep : Z) : option bool :=
  if interval <=? 0 then Some false
  else match c_mod timestep interval with Some r => Some (r =? 0) | None => None end.

(** src/libpsc/psc_output_particles/output_particles_ascii_impl.hxx:22 *)
Definition ascii_out (every_step timestep : Z) : option bool :=
  if every_step <? 0 then Some false
  else match c_mod timestep every_step with Some r => Some (r =? 0) | None => None end.

(** psc.hxx:289 *)
Definition stats_out (stats_every timestep : Z) : option bool :=
  match c_mod timestep stats_every with Some r => Some (r =? 0) | None => None end.
