(** Particle ids: src/include/UniqueIdGenerator.h, and when the generators are
    created anew. *)
From Verif Require Import Base.
Local Open Scope Z_scope.

(** Id is uint64_t: src/include/particle.h:13 *)
Definition u64 (x : Z) : Z := x mod 2 ^ 64.

(** UniqueIdGenerator.h:22: [id_++ * size_ + rank_]; returns the id and the new
    value of id_.  size_ and rank_ are converted to uint64_t. *)
Definition next_id (size rank id_ : Z) : Z * Z := (u64 (id_ * size + rank), u64 (id_ + 1)).

(** the generators of all processes: id_ (UniqueIdGenerator.h:27) by rank *)
Definition gens := Z -> Z.

(** UniqueIdGenerator.h:27, and the constructor 16-20 *)
Definition fresh_gens : gens := fun _ => 0.

(** what happens in a run, as far as ids are concerned: a particle is injected on
    some process (src/include/injector_simple.hxx:34), or all the particles are
    moved to a new distribution.  The latter constructs a new Mparticles, with a
    new generator (src/include/particles_simple.hxx:137-140), on each process and
    replaces the old one by it (src/libpsc/psc_balance/psc_balance_impl.hxx:587 and
    668).  The particles keep their ids there (C08). *)
Inductive uid_event := Inject (rank : Z) | Rebalance.

(** the ids given out, in order: one call of UniqueIdGenerator.h's operator() per
    injected particle (injector_simple.hxx:21-37) *)
Fixpoint run_ids (size : Z) (g : gens) (evs : list uid_event) : list Z :=
  match evs with
  | [] => []
  | Inject r :: evs =>
      let '(i, id_) := next_id size r (g r) in
      i :: run_ids size (fun r' => if r' =? r then id_ else g r') evs
  | Rebalance :: evs => run_ids size fresh_gens evs
  end.
