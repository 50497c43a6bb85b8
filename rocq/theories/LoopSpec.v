(** What is demanded of the main loop, independently of how it is written. *)
From Verif Require Import Base LoopModel.
Local Open Scope Z_scope.

Definition op_eq_dec (a b : op) : {a = b} + {a <> b}.
Proof. decide equality. Defined.

(** the time steps during which an operation is called, in order *)
Definition times (o : op) (trace : list (Z * op)) : list Z :=
  map fst (filter (fun e => if op_eq_dec (snd e) o then true else false) trace).

(** a step number which is a multiple of a positive interval *)
Definition multiple (interval t : Z) : bool := (0 <? interval) && (t mod interval =? 0).

(** the run starting at t0 ends at step tend: nmax is reached, or there is nothing
    to do, or the time limit is exceeded at tend for the first time *)
Definition ends_at (cfg : config) (t0 tend : Z) : Prop :=
  (nmax cfg <= t0 /\ tend = t0) \/
  (t0 < tend <= nmax cfg /\ (forall t, t0 < t < tend -> time_exceeded cfg t = false) /\
   (tend = nmax cfg \/ time_exceeded cfg tend = true)).

(** the operations of one time step, in order *)
Definition ops_at (t : Z) (trace : list (Z * op)) : list op := map snd (filter (fun e => fst e =? t) trace).

(** the sequence of a time step as documented by the comments in Psc::step; each operation any number of times in a row *)
Definition documented : list op :=
  [Balance; Sort; Collide; ContinuityBefore; PushParticles; Inject; ExternalCurrent; BndParticles; WallJ; AddGhostsJ; FillGhostsJ;
   PushH; WallH; FillGhostsH; PushE; WallE; FillGhostsE; Marder; PushH; WallH; FillGhostsH; ContinuityAfter; Gauss;
   Diagnostics; PrintStatus; Checkpoint].
Fixpoint follows (doc l : list op) : Prop :=
  match doc with
  | [] => l = []
  | o :: doc => exists n l', l = repeat o n ++ l' /\ follows doc l'
  end.

(** ** Time centering and validity of ghost points *)

(** progress of the current density of a step *)
Inductive jstate := JOld | JDeposited | JWalled | JSummed | JReady.

(** Times of the quantities in units of dt/2 (psc.hxx:340, 421, 434, 456, 469),
    whether the particles are in the patch that holds them, whether the ghost points
    of E and H at patch boundaries (g) and at walls (w) are those of the current
    interior values, the state of J, and the time of the charge density saved by the
    continuity check. *)
Record clocks := Clocks {
  t_x : Z; t_p : Z; t_E : Z; t_H : Z; t_J : Z; t_rho : Z;
  inside : bool; gE : bool; gH : bool; wE : bool; wH : bool; js : jstate
}.

Definition j_is (a b : jstate) : bool :=
  match a, b with
  | JOld, JOld | JDeposited, JDeposited | JWalled, JWalled | JSummed, JSummed | JReady, JReady => true
  | _, _ => false
  end.

Definition sync (s : clocks) : bool := (t_x s =? t_E s) && (t_E s =? t_H s) && (t_p s =? t_x s - 1).

Definition demand (b : bool) (s : clocks) : option clocks := if b then Some s else None.

(** What an operation needs and does; [None]: it uses something at the wrong time or
    out of date.  [walls]: some side of the domain is not periodic. *)
Definition exec (walls : bool) (o : op) (s : clocks) : option clocks :=
  match s with Clocks x p E H J rho ins gE gH wE wH js =>
  match o with
  | Balance | Sort | Collide => demand ins s
  | ContinuityBefore => demand ins (Clocks x p E H J x ins gE gH wE wH js)
  (* the fields at the time of the old positions accelerate, the current belongs to
     the time half way *)
  | PushParticles => demand (ins && (x =? E) && (x =? H) && (p =? x - 1) && gE && gH && (negb walls || wE && wH))
                       (Clocks (x + 2) (p + 2) E H (x + 1) rho false gE gH wE wH JDeposited)
  | Inject | ExternalCurrent => demand (j_is js JDeposited) s
  | BndParticles => Some (Clocks x p E H J rho true gE gH wE wH js)
  | WallJ => demand (j_is js JDeposited) (Clocks x p E H J rho ins gE gH wE wH JWalled)
  | AddGhostsJ => demand (j_is js JWalled) (Clocks x p E H J rho ins gE gH wE wH JSummed)
  | FillGhostsJ => demand (negb (j_is js JDeposited || j_is js JWalled)) (Clocks x p E H J rho ins gE gH wE wH JReady)
  (* half a step of H, with E at its beginning or at its end; the interior values use
     E in the interior, across patch boundaries and, tangential, on the wall *)
  | PushH => demand (gE && ((E =? H) || (E =? H + 1))) (Clocks x p E (H + 1) J rho ins gE false wE false js)
  | WallH => Some (Clocks x p E H J rho ins gE false wE true js)
  | FillGhostsH => Some (Clocks x p E H J rho ins gE true wE wH js)
  (* a full step of E, with H and J half way *)
  | PushE => demand (gH && (negb walls || wH) && (H =? E + 1) && (J =? E + 1) && j_is js JReady)
               (Clocks x p (E + 2) H J rho ins false gH false wH js)
  | WallE => Some (Clocks x p E H J rho ins false gH true wH js)
  | FillGhostsE => Some (Clocks x p E H J rho ins true gH wE wH js)
  (* exchanges the ghost points of E itself (marder_impl.hxx:219, 263), but does not
     apply the wall conditions again *)
  | Marder => demand (ins && (x =? E)) (Clocks x p E H J rho ins true gH false wH js)
  | ContinuityAfter => demand (ins && (x =? rho + 2) && (J =? rho + 1) && j_is js JReady) s
  | Gauss => demand (ins && (x =? E) && gE) s
  | Diagnostics | Checkpoint => demand (ins && sync s && gE && gH) s
  | PrintStatus => Some s
  end
  end.

Fixpoint exec_all (walls : bool) (l : list op) (s : clocks) : option clocks :=
  match l with
  | [] => Some s
  | o :: l => match exec walls o s with Some s => exec_all walls l s | None => None end
  end.

(** the state between steps n and n+1: x, E and H at n + 1/2, p at n *)
Definition at_time (n : Z) (s : clocks) : Prop :=
  t_x s = 2 * n + 1 /\ t_p s = 2 * n /\ t_E s = 2 * n + 1 /\ t_H s = 2 * n + 1 /\ inside s = true.
