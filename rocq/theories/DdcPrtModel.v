(** The particle exchange: src/include/ddc_particles.hxx, on all processes.  Messages are
    modelled as in MpiModel: what is received on a channel is the first message of the pool
    sent on this channel; the pool may be in any order.  None: an assert fails, a message of
    the wrong size arrives or never arrives, or memory is accessed out of bounds. *)
From Coq Require Import Reals.
From Verif Require Import Base Arr DomainModel MpiModel BalanceModel BndPrtModel.
Local Open Scope Z_scope.

(** the loops over dir[2], dir[1], dir[0], ddc_particles.hxx:98-100 and elsewhere *)
Definition dirs27 : list (V3 Z) :=
  flat_map (fun k => flat_map (fun j => map (fun i => v3 i j k) (zrange (-1) 2)) (zrange (-1) 2)) (zrange (-1) 2).

(** dirneg, ddc_particles.hxx:210 *)
Definition negdir (dir : V3 Z) : V3 Z := v3 (- c0 dir) (- c1 dir) (- c2 dir).

(** nei->rank and nei->patch of one patch and direction, ddc_particles.hxx:101-110; Some None: rank -1 *)
Definition nei_of (dm : domain) (rank p : Z) (dir : V3 Z) : option (option (Z * Z)) :=
  if (c0 dir =? 0) && (c1 dir =? 0) && (c2 dir =? 0) then Some None
  else get_neighbor_rank_patch dm rank p dir.

(** patches_[p].nei[dir1] of all patches of a process, in the order of the loops,
    ddc_particles.hxx:92-115: (patch, direction, neighbour) *)
Definition nei_table (dm : domain) (rank : Z) : option (list (Z * V3 Z * option (Z * Z))) :=
  match nr_patches dm rank with
  | None => None
  | Some n => sequence (flat_map (fun p => map (fun dir => option_map (fun o => (p, dir, o)) (nei_of dm rank p dir)) dirs27) (zrange 0 n))
  end.

(** dsend_entry, ddc_particles.hxx:32-38 (dir1 and dir1neg are dir2idx of dir and of negdir) *)
Record dsend_entry := mkSE { se_patch : Z; se_nei_patch : Z; se_dir : V3 Z }.

(** the send entries for process r, ddc_particles.hxx:200-225 (the counts n_send_entries
    and n_recv_entries, 124-141 and 176-191, are the length of this list) *)
Definition send_entries (tbl : list (Z * V3 Z * option (Z * Z))) (rank r : Z) : list dsend_entry :=
  flat_map (fun '(p, dir, o) =>
    match o with
    | Some (r', q) => if (r' =? r) && negb (r' =? rank) then [mkSE p q dir] else []
    | None => []
    end) tbl.

(** the processes with entries, in ascending order: cinfo_, ddc_particles.hxx:263-270 *)
Definition partners (tbl : list (Z * V3 Z * option (Z * Z))) (rank size : Z) : list Z :=
  filter (fun r => match send_entries tbl rank r with [] => false | _ => true end) (zrange 0 size).

(** MPI_Isend of the send entries, ddc_particles.hxx:254-261 *)
Definition entry_posts (tbl : list (Z * V3 Z * option (Z * Z))) (rank size : Z) : list (chan * list dsend_entry) :=
  map (fun r => ((rank, r, 111), send_entries tbl rank r)) (partners tbl rank size).

Section Comm.
  Context {P : Type}.

  (** a patch's send buffers as a function of dir1; bounds of patches_[] *)
  (** nei[dir1].send_buf of a patch, ddc_particles.hxx:308-310 *)
  Definition send_buf (sb : list (Z -> list P)) (p : Z) (dir : V3 Z) : option (list P) :=
    option_map (fun s => s (dir2idx dir)) (aget sb p).

  (** MPI_Isend of send_cnts, ddc_particles.hxx:303-316 *)
  Definition count_posts_prt (tbl : list (Z * V3 Z * option (Z * Z))) (sb : list (Z -> list P)) (rank size : Z)
    : option (list (chan * list Z)) :=
    sequence (map (fun r => option_map (fun bs => ((rank, r, 222), map (fun b => alen b) bs))
                              (sequence (map (fun e => send_buf sb (se_patch e) (se_dir e)) (send_entries tbl rank r))))
                  (partners tbl rank size)).

  (** MPI_Isend of the particles, ddc_particles.hxx:376-392; nothing is sent if there are none *)
  Definition data_posts (tbl : list (Z * V3 Z * option (Z * Z))) (sb : list (Z -> list P)) (rank size : Z)
    : option (list (chan * list P)) :=
    concat_option (map (fun r => option_map (fun bs => match concat bs with [] => [] | b => [((rank, r, 1), b)] end)
                              (sequence (map (fun e => send_buf sb (se_patch e) (se_dir e)) (send_entries tbl rank r))))
                  (partners tbl rank size)).

  (** recv_entry as received from process r (ddc_particles.hxx:245-252; the posted size is
      n_recv_entries, the number of own entries for r) *)
  Definition recv_entries (epool : list (chan * list dsend_entry)) (tbl : list (Z * V3 Z * option (Z * Z))) (rank r : Z) : option (list dsend_entry) :=
    match receive epool rank r 111 with
    | Some es => if alen es =? alen (send_entries tbl rank r) then Some es else None
    | None => None
    end.

  (** recv_cnts (ddc_particles.hxx:298-301) *)
  Definition recv_cnts (cpool : list (chan * list Z)) (tbl : list (Z * V3 Z * option (Z * Z))) (rank r : Z) : option (list Z) :=
    match receive cpool rank r 222 with
    | Some cs => if alen cs =? alen (send_entries tbl rank r) then Some cs else None
    | None => None
    end.

  (** the particles of process r (ddc_particles.hxx:396-407); nothing is received if the counts are 0 *)
  Definition recv_data (dpool : list (chan * list P)) (rank r : Z) (cnts : list Z) : option (list P) :=
    if zsum cnts =? 0 then Some []
    else match receive dpool rank r 1 with
         | Some b => if alen b =? zsum cnts then Some b else None
         | None => None
         end.

  (** what process [rank] has from r after the two MPI_Waitall: entries, counts, particles *)
  (** ddc_particles.hxx:350-351 and 449-450 *)
  Definition received_from (epool : list (chan * list dsend_entry)) (cpool : list (chan * list Z)) (dpool : list (chan * list P))
    (tbl : list (Z * V3 Z * option (Z * Z))) (rank r : Z) : option (list dsend_entry * list Z * list P) :=
    match recv_entries epool tbl rank r, recv_cnts cpool tbl rank r with
    | Some es, Some cs => match recv_data dpool rank r cs with Some b => Some (es, cs, b) | None => None end
    | _, _ => None
    end.

  (** the number of particles patch p gets: ddc_particles.hxx:318-338 (local) and 357-368
      (remote); the target patch of an entry is its nei_patch (drecv_entry, 40-46) *)
  Definition n_recv (tbl : list (Z * V3 Z * option (Z * Z))) (sb : list (Z -> list P)) (rcv : list (list dsend_entry * list Z * list P)) (rank p : Z) : option Z :=
    match sequence (flat_map (fun '(p', dir, o) =>
            match o with Some (r, q) => if (p' =? p) && (r =? rank) then [option_map (@alen P) (send_buf sb q (negdir dir))] else [] | None => [] end) tbl) with
    | Some ls => Some (zsum ls + zsum (flat_map (fun '(es, cs, _) => flat_map (fun '(e, c) => if se_nei_patch e =? p then [c] else []) (combine es cs)) rcv))
    | None => None
    end.

  (** particles from patches of this process, in the order of the loops, ddc_particles.hxx:428-447 *)
  Definition local_copies (tbl : list (Z * V3 Z * option (Z * Z))) (sb : list (Z -> list P)) (rank p : Z) : option (list P) :=
    concat_option (flat_map (fun '(p', dir, o) =>
      match o with Some (r, q) => if (p' =? p) && (r =? rank) then [send_buf sb q (negdir dir)] else [] | None => [] end) tbl).

  (** cutting recv_buf into the pieces of the entries, ddc_particles.hxx:454-462: (patch, particles) *)
  Fixpoint unpack (es : list dsend_entry) (cs : list Z) (buf : list P) : option (list (Z * list P) * list P) :=
    match es, cs with
    | [], [] => Some ([], buf)
    | e :: es, c :: cs =>
        if (c <? 0) || (alen buf <? c) then None
        else match unpack es cs (skipn (Z.to_nat c) buf) with
             | Some (l, rest) => Some ((se_nei_patch e, firstn (Z.to_nat c) buf) :: l, rest)
             | None => None
             end
    | _, _ => None
    end.

  (** the same for all partners one after the other, ddc_particles.hxx:452-464; recv_buf must be
      used up at the end *)
  Fixpoint unpack_all (rcv : list (list dsend_entry * list Z * list P)) (buf : list P) : option (list (Z * list P)) :=
    match rcv with
    | [] => match buf with [] => Some [] | _ => None end
    | (es, cs, _) :: rcv =>
        match unpack es cs buf with
        | Some (l, rest) => match unpack_all rcv rest with Some l' => Some (l ++ l') | None => None end
        | None => None
        end
    end.

  (** comm, ddc_particles.hxx:282-478, on one process: the buffers of its patches afterwards.
      kept are the particles left in the buffers by process_patch.  The room made for the
      new particles (n_recv) must be filled exactly (assert, 468-471). *)
  Definition comm (dm : domain) (size : Z) (epool : list (chan * list dsend_entry)) (cpool : list (chan * list Z)) (dpool : list (chan * list P))
    (kept : list (list P)) (sb : list (Z -> list P)) (rank : Z) : option (list (list P)) :=
    match nei_table dm rank with
    | None => None
    | Some tbl =>
        match sequence (map (received_from epool cpool dpool tbl rank) (partners tbl rank size)) with
        | None => None
        | Some rcv =>
            match unpack_all rcv (concat (map (fun '(_, _, b) => b) rcv)) with
            | None => None
            | Some pieces =>
                sequence (map (fun '(p, k) =>
                  match local_copies tbl sb rank p, n_recv tbl sb rcv rank p with
                  | Some loc, Some n =>
                      let new := loc ++ flat_map (fun '(q, b) => if q =? p then b else []) pieces in
                      if alen new =? n then Some (k ++ new) else None
                  | _, _ => None
                  end) (enumerate kept))
            end
        end
    end.
End Comm.

(** the channels of the MPI_Irecv of the entries (ddc_particles.hxx:245-252, tag 111) and of the
    counts (298-301, tag 222) *)
Definition recv_chans (tbl : list (Z * V3 Z * option (Z * Z))) (rank size tag : Z) : list chan :=
  map (fun r => (r, rank, tag)) (partners tbl rank size).
(** those of the particles (ddc_particles.hxx:396-407): only where the counts are not 0 *)
Definition recv_data_chans (cpool : list (chan * list Z)) (tbl : list (Z * V3 Z * option (Z * Z))) (rank size : Z) : option (list chan) :=
  concat_option (map (fun r => option_map (fun cs => if zsum cs =? 0 then [] else [(r, rank, 1)]) (recv_cnts cpool tbl rank r)) (partners tbl rank size)).

(** all messages of the three kinds sent by all processes (every process runs
    ddc_particles.hxx:88-272 once and 282-478 in every step) *)
Definition all_entry_posts (dm : domain) (size : Z) : option (list (chan * list dsend_entry)) :=
  concat_option (map (fun r => option_map (fun tbl => entry_posts tbl r size) (nei_table dm r)) (zrange 0 size)).
(** the same for ddc_particles.hxx:303-316 *)
Definition all_count_posts {P} (dm : domain) (size : Z) (sb : Z -> list (Z -> list P)) : option (list (chan * list Z)) :=
  concat_option (map (fun r => match nei_table dm r with Some tbl => count_posts_prt tbl (sb r) r size | None => None end) (zrange 0 size)).
(** the same for ddc_particles.hxx:376-392 *)
Definition all_data_posts {P} (dm : domain) (size : Z) (sb : Z -> list (Z -> list P)) : option (list (chan * list P)) :=
  concat_option (map (fun r => match nei_table dm r with Some tbl => data_posts tbl (sb r) r size | None => None end) (zrange 0 size)).
(** all receives of the entries or counts (ddc_particles.hxx:245-252, 298-301) *)
Definition all_recv_chans (dm : domain) (size tag : Z) : option (list chan) :=
  concat_option (map (fun r => option_map (fun tbl => recv_chans tbl r size tag) (nei_table dm r)) (zrange 0 size)).
(** all receives of particles (ddc_particles.hxx:396-407) *)
Definition all_recv_data_chans (dm : domain) (size : Z) (cpool : list (chan * list Z)) : option (list chan) :=
  concat_option (map (fun r => match nei_table dm r with Some tbl => recv_data_chans cpool tbl r size | None => None end) (zrange 0 size)).

(** the geometry of patch p of a process (patch_geom with the patch's entry of grid.patches,
    grid.hxx:73-88) *)
Definition geom_of (a : arith) (dm : domain) (len corner : V3 R) (lo hi : V3 bnd_prt) (rank p : Z) : option pgeom :=
  option_map (fun i => patch_geom a (dm_gdims dm) (pi_ldims i) (pi_off i) len corner lo hi) (get_local_patch_info dm rank p).

(** the first loop of process_and_exchange, bnd_particles_impl.hxx:65-71, on one process *)
Definition process_all {T} (a : arith) (dm : domain) (len corner : V3 R) (lo hi : V3 bnd_prt) (rank : Z) (bufs : list (list (particle T)))
  : option (list (list (particle T)) * list (Z -> list (particle T))) :=
  option_map (@split _ _) (sequence (map (fun '(p, buf) =>
    match geom_of a dm len corner lo hi rank p with Some g => process_patch a g buf | None => None end) (enumerate bufs))).
