(** Point-to-point message passing as the code uses it: non-blocking sends and
    receives with explicit source and tag (no wild cards), matched per channel
    (source, destination, tag) in posting order -- the non-overtaking rule of
    the MPI standard.  This models MPI itself, not a part of /repo; it is used by
    src/libpsc/psc_balance/psc_balance_impl.hxx:485-745,
    src/libmrc/src/mrc_ddc_multi.c:458-522 and
    src/include/ddc_particles.hxx:282-478. *)
From Verif Require Import Base.
Local Open Scope Z_scope.

(** (source, destination, tag): the arguments of MPI_Isend and MPI_Irecv, e.g.
    psc_balance_impl.hxx:512-531 *)
Definition chan := (Z * Z * Z)%type.

(** MPI matches messages by these three (not code of /repo: the MPI standard, 3.5) *)
Definition chan_eqb (a b : chan) : bool :=
  let '(s, d, t) := a in let '(s', d', t') := b in
  (s =? s') && (d =? d') && (t =? t').

Section Mpi.
  Context {D : Type}.

  (** (MPI standard 3.5, order) payloads sent on a channel, in posting order *)
  Definition queue (c : chan) (sends : list (chan * D)) : list D :=
    map snd (filter (fun m => chan_eqb c (fst m)) sends).

  (** (MPI standard 3.5) receives posted on a channel *)
  Definition count_chan (c : chan) (l : list chan) : nat :=
    length (filter (chan_eqb c) l).

  (** (MPI standard 3.5, order) what each posted receive obtains; [None]: no matching message, the
      receive never completes.  [before] are the receives posted earlier. *)
  Fixpoint fifo (sends : list (chan * D)) (before recvs : list chan) : list (option D) :=
    match recvs with
    | [] => []
    | c :: r => nth_error (queue c sends) (count_chan c before) :: fifo sends (before ++ [c]) r
    end.

  (** (MPI standard 3.5, progress) as many messages as receives on every channel: nothing waits forever,
      nothing is left behind *)
  Definition balanced (sends : list (chan * D)) (recvs : list chan) : Prop :=
    forall c, length (queue c sends) = count_chan c recvs.
End Mpi.
