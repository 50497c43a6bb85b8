(** Model of src/libpsc/psc_balance/psc_balance_impl.hxx: choice of the new
    distribution of patches and the transfer of their data.

    Loads are reals; [rnd] is the rounding applied after each arithmetic
    operation ([fun x => x]: exact arithmetic). *)
From Coq Require Import Reals.
From Flocq Require Import Core.Raux.
From Verif Require Import Base DomainModel MpiModel.
Local Open Scope Z_scope.

(** ** Choice of the distribution *)

Section Mapping.
  Variable rnd : R -> R.

  (** std::accumulate(begin, end, 0.) *)
  Definition accumulate (l : list R) : R := fold_left (fun s x => rnd (s + x)%R) l 0%R.

  (** psc_balance_impl.hxx:121-139, the [for (;;)] loop, reading
      load_by_patch[patch_middle], ...; [rest] is load_by_patch from
      [patch_middle] on, [None] is the read behind the end of the array.
      ([&& patch_middle] in line 133 is always true there.) *)
  Fixpoint find_middle (load_target load : R) (patch_middle : Z) (rest : list R) : option Z :=
    match rest with
    | [] => None
    | l :: r =>
        let prev_load := load in
        let load := rnd (load + l)%R in
        let patch_middle := patch_middle + 1 in
        if Rlt_bool load_target load then
          let above := rnd (load - load_target)%R in
          let below := rnd (load_target - prev_load)%R in
          Some (if Rlt_bool below above then patch_middle - 1 else patch_middle)
        else find_middle load_target load patch_middle r
    end.

  (** psc_balance_impl.hxx:142-148 *)
  Definition clamp_middle (proc_begin proc_middle proc_end patch_begin patch_end patch_middle : Z) : Z :=
    let patch_middle :=
      if patch_middle - patch_begin <? proc_middle - proc_begin
      then patch_begin + (proc_middle - proc_begin) else patch_middle in
    if patch_end - patch_middle <? proc_end - proc_middle
    then patch_end - (proc_end - proc_middle) else patch_middle.

  (** psc_balance_impl.hxx:99-154.  Instead of writing n_patches_by_proc[], the
      entries for proc_begin ... proc_end-1 are returned (each is written exactly
      once, by the call for that single process).  [None]: failed assert, read out
      of bounds, or fuel exhausted. *)
  Fixpoint best_mapping_recursive (fuel : nat) (load_by_patch : list R)
    (proc_begin proc_end patch_begin patch_end : Z) : option (list Z) :=
    match fuel with
    | O => None
    | S fuel =>
        if patch_end - patch_begin <? proc_end - proc_begin then None
        else if proc_end =? proc_begin + 1 then Some [patch_end - patch_begin]
        else
          let proc_middle := (proc_begin + proc_end) / 2 in
          let load_total :=
            accumulate (firstn (Z.to_nat (patch_end - patch_begin))
                               (skipn (Z.to_nat patch_begin) load_by_patch)) in
          let load_target :=
            rnd (rnd (load_total * IZR (proc_middle - proc_begin))
                 / IZR (proc_end - proc_begin))%R in
          match find_middle load_target 0%R patch_begin
                            (skipn (Z.to_nat patch_begin) load_by_patch) with
          | None => None
          | Some patch_middle =>
              let patch_middle :=
                clamp_middle proc_begin proc_middle proc_end patch_begin patch_end patch_middle in
              match best_mapping_recursive fuel load_by_patch proc_begin proc_middle
                                           patch_begin patch_middle,
                    best_mapping_recursive fuel load_by_patch proc_middle proc_end
                                           patch_middle patch_end with
              | Some a, Some b => Some (a ++ b)
              | _, _ => None
              end
          end
    end.

  (** psc_balance_impl.hxx:156-164; the capabilities are not used by this version
      of the code (only their number is) *)
  Definition best_mapping (n_procs : Z) (load_by_patch : list R) : option (list Z) :=
    best_mapping_recursive (Z.to_nat n_procs) load_by_patch 0 n_procs 0
                           (Z.of_nat (length load_by_patch)).

  (** psc_balance_impl.hxx:811-855: -1 for every process if nothing changes *)
  Definition find_best_mapping (nr_patches_all_old : list Z) (load_by_patch : list R)
    : option (list Z) :=
    match best_mapping (Z.of_nat (length nr_patches_all_old)) load_by_patch with
    | Some nr_patches_all_new =>
        Some (if list_eq_dec Z.eq_dec nr_patches_all_new nr_patches_all_old
              then map (fun _ => -1) nr_patches_all_new else nr_patches_all_new)
    | None => None
    end.

  (** psc_balance_impl.hxx:246-263 with factor_fields >= 0 (223-238 for the
      initial distribution): load of a patch from its number of particles.
      [rnd] after each operation. *)
  Definition patch_load (factor_fields : R) (ldims : V3 Z) (n_prts : Z) : R :=
    rnd (IZR n_prts + rnd (rnd (rnd (factor_fields * IZR (c0 ldims)) * IZR (c1 ldims))
                           * IZR (c2 ldims)))%R.
End Mapping.

(** ** Transfer of the patch data *)

(** all values or failure: a loop of which no iteration may fail (models no line by
    itself; used for the loops of psc_balance_impl.hxx:485-745) *)
Fixpoint sequence {A} (l : list (option A)) : option (list A) :=
  match l with
  | [] => Some []
  | Some a :: r => match sequence r with Some r' => Some (a :: r') | None => None end
  | None :: _ => None
  end.

(** psc_balance_impl.hxx:366-373 and 375-382: for each patch of process [rank] in
    domain [from], its owner (rank, local patch) in domain [to] *)
Definition patch_targets (from to : domain) (rank : Z) : option (list (Z * Z)) :=
  match nr_patches from rank with
  | None => None
  | Some n =>
      sequence (map (fun p =>
        match get_local_patch_info from rank p with
        | Some info =>
            match get_level_idx3_patch_info to (pi_idx3 info) with
            | Some info' => Some (pi_rank info', pi_patch info')
            | None => None
            end
        | None => None
        end) (zrange 0 n))
  end.

(** [struct by_ri], psc_balance_impl.hxx:346-351: rank and pi_to_patch (nr_patches is its length) *)
Definition by_ri := (Z * list Z)%type.

(** psc_balance_impl.hxx:384-482: one entry per rank, in order of first
    appearance, each with the patches going to (coming from) it in order.  The
    code counts, allocates and fills in separate loops; here one loop appends. *)
Fixpoint add_to_ri (tbl : list by_ri) (rank p : Z) : list by_ri :=
  match tbl with
  | [] => [(rank, [p])]
  | (r, ps) :: t => if r =? rank then (r, ps ++ [p]) :: t else (r, ps) :: add_to_ri t rank p
  end.

(** psc_balance_impl.hxx:392-401, 413-456 (send), 402-411, 419-482 (receive) *)
Definition build_by_ri (infos : list (Z * Z)) : list by_ri :=
  fold_left (fun tbl '(p, (rank, _)) => if rank <? 0 then tbl else add_to_ri tbl rank p)
            (combine (zrange 0 (Z.of_nat (length infos))) infos) [].

(** positions and elements: the loops over p, e.g. psc_balance_impl.hxx:392 *)
Definition enumerate {A} (l : list A) : list (Z * A) :=
  combine (zrange 0 (Z.of_nat (length l))) l.

(** psc_balance_impl.hxx:610-627 (sends of communicate_particles): destination,
    tag, local patch *)
Definition particle_sends (rank : Z) (tbl : list by_ri) : list (Z * Z * Z) :=
  flat_map (fun '(r, ps) => if r =? rank then []
                            else map (fun '(pi, p) => (r, pi, p)) (enumerate ps)) tbl.

(** psc_balance_impl.hxx:592-606 (receives): source, tag, local patch *)
Definition particle_recvs (rank : Z) (tbl : list by_ri) : list (Z * Z * Z) :=
  particle_sends rank tbl.

(** psc_balance_impl.hxx:684-697 and 699-717 (communicate_fields): partner, tag
    (a counter per partner), local patch *)
Definition field_step (rank : Z) (st : (Z -> Z) * list (Z * Z * Z)) (x : Z * (Z * Z))
  : (Z -> Z) * list (Z * Z * Z) :=
  let '(cnt, acc) := st in
  let '(p, (r, _)) := x in
  if (r =? rank) || (r <? 0) then st
  else (fun r' => if r' =? r then cnt r + 1 else cnt r', acc ++ [(r, cnt r, p)]).

(** psc_balance_impl.hxx:672-745, the loops over patches *)
Definition field_posts (rank : Z) (infos : list (Z * Z)) : list (Z * Z * Z) :=
  snd (fold_left (field_step rank) (enumerate infos) (fun _ => 0, [])).

(** psc_balance_impl.hxx:506-519 (sends of new_n_prts, tag 10) and 494-504:
    one message per partner, holding one number per patch *)
Definition count_posts (rank : Z) (tbl : list by_ri) : list (Z * Z * list Z) :=
  flat_map (fun '(r, ps) => if r =? rank then [] else [(r, 10, ps)]) tbl.

(** MPI_Isend calls (psc_balance_impl.hxx:519-530, 620-640, 672-745): one process'
    messages of a phase: (destination, tag, what to send), with
    the payload looked up by [get]; [None] = out-of-bounds read. *)
Definition post_payloads {W D} (rank : Z) (posts : list (Z * Z * W)) (get : W -> option D)
  : option (list (chan * D)) :=
  sequence (map (fun '(dst, tag, w) => match get w with
                                       | Some d => Some ((rank, dst, tag), d)
                                       | None => None end) posts).

(** the messages of all processes (all ranks run psc_balance_impl.hxx:485-745) *)
Definition concat_option {A} (l : list (option (list A))) : option (list A) :=
  match sequence l with Some ll => Some (concat ll) | None => None end.

(** MPI_Irecv and MPI_Waitall (psc_balance_impl.hxx:500-512, 600-618, 672-745):
    reception by process [rank] on a channel used once in the phase, out of the
    pool of all messages of the phase, in any order of arrival. *)
Definition receive {D} (pool : list (chan * D)) (rank src tag : Z) : option D :=
  nth_error (queue (src, rank, tag) pool) 0.

(** The receives posted by all processes in a phase
    (psc_balance_impl.hxx:494-504, 592-606, 684-697): [posts] as for the sends,
    from the table of sources. *)
Definition phase_recvs {W} (dom_old dom_new : domain) (ranks : list Z)
  (posts : Z -> list (Z * Z) -> list (Z * Z * W)) : list chan :=
  flat_map (fun t => match patch_targets dom_new dom_old t with
                     | Some infos => map (fun '(s, k, _) => (s, t, k)) (posts t infos)
                     | None => []
                     end) ranks.

(** What process [rank] finds in its new patch [p]: the local copy
    (psc_balance_impl.hxx:633-656 and 726-740), or the message received into it. *)
Definition new_patch {D} (rank : Z) (recv_infos : list (Z * Z)) (old : list D)
  (recvs : list (Z * Z * Z)) (received : Z -> Z -> option D) (p : Z) : option D :=
  match nth_error recv_infos (Z.to_nat p) with
  | Some (r, q) =>
      if r =? rank then (if q <? 0 then None else nth_error old (Z.to_nat q))
      else match find (fun '(_, _, p') => p' =? p) recvs with
           | Some (src, tag, _) => received src tag
           | None => None
           end
  | None => None
  end.

Section Communicate.
  Context {D : Type}.
  Variables (dom_old dom_new : domain) (ranks : list Z).

  (** *** communicate_fields, psc_balance_impl.hxx:672-745; [D] is the storage
      of one patch (all components, ghost points included), [old r] the patches
      of process [r] *)

  (** psc_balance_impl.hxx:672-745, sends *)
  Definition field_messages (old : Z -> list D) : option (list (chan * D)) :=
    concat_option (map (fun r =>
      match patch_targets dom_old dom_new r with
      | Some infos =>
          post_payloads r (field_posts r infos)
            (fun p => if p <? 0 then None else nth_error (old r) (Z.to_nat p))
      | None => None
      end) ranks).

  (** psc_balance_impl.hxx:672-745, receives and local copies *)
  Definition fields_after (pool : list (chan * D)) (old : Z -> list D) (rank : Z)
    : option (list D) :=
    match patch_targets dom_new dom_old rank with
    | Some infos =>
        sequence (map (new_patch rank infos (old rank) (field_posts rank infos)
                                 (receive pool rank))
                      (zrange 0 (Z.of_nat (length infos))))
    | None => None
    end.

  (** *** new_n_prts, psc_balance_impl.hxx:485-569; [n r] are the particle
      numbers of the patches of process [r] *)

  (** psc_balance_impl.hxx:521-525 *)
  Definition zgets (l : list Z) (ps : list Z) : option (list Z) := sequence (map (zget l) ps).

  (** psc_balance_impl.hxx:514-530 *)
  Definition count_messages (n : Z -> list Z) : option (list (chan * list Z)) :=
    concat_option (map (fun r =>
      match patch_targets dom_old dom_new r with
      | Some infos => post_payloads r (count_posts r (build_by_ri infos)) (zgets (n r))
      | None => None
      end) ranks).

  (** entry of a rank in the table (send_rank_to_ri_, recv_rank_to_ri_,
      psc_balance_impl.hxx:537-538) *)
  Definition ri_lookup (tbl : list by_ri) (r : Z) : option (list Z) :=
    option_map snd (find (fun e => fst e =? r) tbl).

  (** position of a patch in the tables, (rank, pi): inverts the loops over ri and pi
      of psc_balance_impl.hxx:554-560 and 600-612 *)
  Fixpoint index_of (p : Z) (l : list Z) (i : Z) : option Z :=
    match l with [] => None | x :: r => if x =? p then Some i else index_of p r (i + 1) end.

  (** psc_balance_impl.hxx:554-560 and 600-612, both loops *)
  Fixpoint find_pi (tbl : list by_ri) (p : Z) : option (Z * list Z * Z) :=
    match tbl with
    | [] => None
    | (r, ps) :: t => match index_of p ps 0 with
                      | Some i => Some (r, ps, i)
                      | None => find_pi t p
                      end
    end.

  (** the scatter n_new[pi_to_patch[pi]] = received[pi] of lines 555-561, written as
      a gather (every patch is in exactly one table entry); length checks: the
      assert of line 542 and the message size of line 502 *)
  Definition new_n_prts (pool : list (chan * list Z)) (n : Z -> list Z) (rank : Z)
    : option (list Z) :=
    match patch_targets dom_old dom_new rank, patch_targets dom_new dom_old rank with
    | Some send_infos, Some recv_infos =>
        let send_tbl := build_by_ri send_infos in
        let recv_tbl := build_by_ri recv_infos in
        sequence (map (fun p =>
          match find_pi recv_tbl p with
          | None => None
          | Some (r, ps, i) =>
              let vals :=
                if r =? rank then
                  match ri_lookup send_tbl rank with
                  | Some ps' => if Nat.eqb (length ps') (length ps) then zgets (n rank) ps' else None
                  | None => None
                  end
                else match receive pool rank r 10 with
                     | Some v => if Nat.eqb (length v) (length ps) then Some v else None
                     | None => None
                     end in
              match vals with Some v => zget v i | None => None end
          end) (zrange 0 (Z.of_nat (length recv_infos))))
    | _, _ => None
    end.
End Communicate.

(** *** communicate_particles, psc_balance_impl.hxx:571-670; a patch is a list
    of particles *)
Section CommunicateParticles.
  Context {P : Type}.
  Variables (dom_old dom_new : domain) (ranks : list Z).

  (** psc_balance_impl.hxx:620-640 *)
  Definition particle_messages (old : Z -> list (list P)) : option (list (chan * list P)) :=
    concat_option (map (fun r =>
      match patch_targets dom_old dom_new r with
      | Some infos =>
          post_payloads r (particle_sends r (build_by_ri infos))
            (fun p => if p <? 0 then None else nth_error (old r) (Z.to_nat p))
      | None => None
      end) ranks).

  (** [n_new] is the result of new_n_prts on this process: buffer sizes; a local
      copy asserts equal sizes (line 639), a message must have the posted size *)
  Definition particles_after (pool : list (chan * list P)) (n_new : list Z) (old : Z -> list (list P))
    (rank : Z) : option (list (list P)) :=
    match patch_targets dom_new dom_old rank with
    | Some infos =>
        sequence (map (fun p =>
          match zget n_new p,
                new_patch rank infos (old rank) (particle_recvs rank (build_by_ri infos))
                          (receive pool rank) p with
          | Some n, Some prts => if Z.of_nat (length prts) =? n then Some prts else None
          | _, _ => None
          end) (zrange 0 (Z.of_nat (length infos))))
    | None => None
    end.
End CommunicateParticles.
