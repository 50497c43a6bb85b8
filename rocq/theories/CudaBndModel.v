(** The exchange of ghost points on the GPU: src/libpsc/cuda/cuda_bnd.hxx and
    bnd_cuda_3_impl.cxx, on all processes.  The pattern of the exchange is that of the CPU
    code ([sr_entries] and [recv_list] of GhostModel); the GPU code makes of it lists of
    positions in the memory of the field ("maps"), keeps them for later calls, and
    gathers and scatters along them.  None: an assert fails, memory is accessed out of
    bounds, or a message of the wrong size arrives or never arrives.  Not modelled: positions
    beyond the range of uint and keys beyond that of int, the copies between host and
    device, the accounting of memory (128-135, 140-146), and the disabled versions
    (#if 0, 262-280). *)
From Verif Require Import Base Arr DomainModel MpiModel BalanceModel BndPrtModel DdcPrtModel GhostModel CudaPrtModel.
Local Open Scope Z_scope.

(** * The memory of a field *)

(** mflds_gt.shape(d), src/include/psc_fields_cuda.h:39-43: the cells of a patch with its ghost points, as the CPU
    code asserts (psc_bnd_impl.hxx:112-113) *)
Definition gt_shape (dm : domain) (ibn : V3 Z) (d : dim3) : Z := get3 (grid_ldims dm) d + 2 * get3 ibn d.

(** &mflds_gt(ix - ib[0], iy - ib[1], iz - ib[2], m, p) - mflds_gt.data(), cuda_bnd.hxx:475-476, with
    ib = -ibn; gtensor stores the first index fastest *)
Definition gt_index (dm : domain) (ibn : V3 Z) (n_comps p m : Z) (i : V3 Z) : Z :=
  (((p * n_comps + m) * gt_shape dm ibn D2 + (c2 i + c2 ibn)) * gt_shape dm ibn D1 + (c1 i + c1 ibn)) * gt_shape dm ibn D0 + (c0 i + c0 ibn).

(** mflds_gt.size() on a process with n patches (src/include/psc_fields_cuda.h:39-43) *)
Definition gt_size (dm : domain) (ibn : V3 Z) (n_comps n : Z) : Z :=
  n * n_comps * gt_shape dm ibn D2 * gt_shape dm ibn D1 * gt_shape dm ibn D0.

(** * The pattern *)

(** struct mrc_ddc_rank_info, mrc_ddc_private.h:72-86: send_entry and recv_entry for process ri_rank *)
Record rank_info := mkRI { ri_rank : Z; ri_send : list sr_entry; ri_recv : list sr_entry }.

(** patt2->ri of mrc_ddc_multi_setup_pattern2, mrc_ddc_multi.c:233-354, on process [rank] of [size]; [send]
    tells fill_ghosts2 (true) from add_ghosts2 (false), 427-430 *)
Definition pattern (send : bool) (dm : domain) (ibn : V3 Z) (size rank : Z) : option (list rank_info) :=
  all_some (map (fun r => match sr_entries send dm ibn rank r, recv_list (negb send) dm ibn rank r with
                          | Some s, Some v => Some (mkRI r s v)
                          | _, _ => None
                          end) (zrange 0 size)).

(** the processes other than this one, in order: the loops "r != sub->mpi_rank", cuda_bnd.hxx:352, 376
    and 403-405, and mrc_ddc_multi.c:307, 323 *)
Definition others (rank : Z) (ri : list rank_info) : list rank_info := filter (fun i => negb (ri_rank i =? rank)) ri.

(** * The maps *)

(** values numbered from off on: *cur++ with cur = &map[off], cuda_bnd.hxx:470-476 *)
Fixpoint numbered {A} (off : Z) (l : list A) : list (Z * A) :=
  match l with [] => [] | x :: l => (off, x) :: numbered (off + 1) l end.

(** map_setup, cuda_bnd.hxx:465-480, writing into a vector of fixed size *)
Definition map_setup dm ibn n_comps (mp : list Z) (off mb me : Z) (e : sr_entry) : option (list Z) :=
  run_writes (numbered off (map (fun '(m, i) => gt_index dm ibn n_comps (sr_patch e) m i) (loop4 mb me (sr_ilo e) (sr_ihi e)))) mp.

(** the loops over the entries, cuda_bnd.hxx:408-419 and 449-462: off advances by len * (me - mb) *)
Fixpoint maps_setup dm ibn n_comps (mp : list Z) (off mb me : Z) (es : list sr_entry) : option (list Z) :=
  match es with
  | [] => Some mp
  | e :: es => match map_setup dm ibn n_comps mp off mb me e with
               | Some mp => maps_setup dm ibn n_comps mp (off + sr_len e * (me - mb)) mb me es
               | None => None
               end
  end.

(** patt2->n_send and n_recv: what goes to and comes from other processes, mrc_ddc_multi.c:306-309 and
    322-325 *)
Definition patt_len (sel : rank_info -> list sr_entry) (rank : Z) (ri : list rank_info) : Z :=
  zsum (map (fun i => total_len (sel i)) (others rank ri)).

(** setup_remote_maps, cuda_bnd.hxx:390-421: [sel] tells map_send from map_recv *)
Definition setup_remote_map dm ibn n_comps (sel : rank_info -> list sr_entry) rank ri mb me : option (list Z) :=
  maps_setup dm ibn n_comps (repeat 0 (Z.to_nat (patt_len sel rank ri * (me - mb)))) 0 mb me (flat_map sel (others rank ri)).

(** the entries skipped, cuda_bnd.hxx:439-442 and 453-456 *)
Definition skipped (e : sr_entry) : bool :=
  (c0 (sr_ilo e) =? c0 (sr_ihi e)) || (c1 (sr_ilo e) =? c1 (sr_ihi e)) || (c2 (sr_ilo e) =? c2 (sr_ihi e)).

(** the pairs send_entry[i], recv_entry[i] of the process itself, cuda_bnd.hxx:450-457; None: beyond the
    receive entries *)
Fixpoint local_pairs (ss rs : list sr_entry) : option (list (sr_entry * sr_entry)) :=
  match ss, rs with
  | [], _ => Some []
  | s :: ss, r :: rs => option_map (fun l => if skipped s then l else (s, r) :: l) (local_pairs ss rs)
  | _ :: _, [] => None
  end.

(** ri[sub->mpi_rank], cuda_bnd.hxx:436 and 450 *)
Definition own_info (rank : Z) (ri : list rank_info) : option rank_info := find (fun i => ri_rank i =? rank) ri.

(** the loop of setup_local_maps over the receive entries, cuda_bnd.hxx:449-462: the offsets are those
    of the send entries *)
Fixpoint local_recv_setup dm ibn n_comps (mp : list Z) (off mb me : Z) (ps : list (sr_entry * sr_entry)) : option (list Z) :=
  match ps with
  | [] => Some mp
  | (s, r) :: ps => match map_setup dm ibn n_comps mp off mb me r with
                    | Some mp => local_recv_setup dm ibn n_comps mp (off + sr_len s * (me - mb)) mb me ps
                    | None => None
                    end
  end.

(** struct Maps, cuda_bnd.hxx:119-160.  Simplified: the device copies and the buffers, which are used
    within one call only, are left out. *)
Record cmaps := mkMaps { mp_send : list Z; mp_recv : list Z; mp_lsend : list Z; mp_lrecv : list Z; mp_patt : list rank_info; mp_mb : Z; mp_me : Z }.

(** Maps::Maps, cuda_bnd.hxx:121-136, with setup_local_maps, 426-463 *)
Definition make_maps (ri : list rank_info) (dm : domain) (ibn : V3 Z) (n_comps rank mb me : Z) : option cmaps :=
  match own_info rank ri with
  | None => None
  | Some own =>
      match local_pairs (ri_send own) (ri_recv own) with
      | None => None
      | Some ps =>
          let buf := repeat 0 (Z.to_nat (total_len (map fst ps) * (me - mb))) in
          match setup_remote_map dm ibn n_comps ri_send rank ri mb me, setup_remote_map dm ibn n_comps ri_recv rank ri mb me,
                maps_setup dm ibn n_comps buf 0 mb me (map fst ps), local_recv_setup dm ibn n_comps buf 0 mb me ps with
          | Some s, Some v, Some ls, Some lv => Some (mkMaps s v ls lv ri mb me)
          | _, _, _, _ => None
          end
      end
  end.

(** * The maps kept *)

(** struct CudaBnd, cuda_bnd.hxx:482-491; there is one for all users on a process, bnd_cuda_3_impl.cxx:9-14, 63 *)
Record cbnd := mkCB { cb_add : list (Z * cmaps); cb_fill : list (Z * cmaps); cb_gen : Z }.

(** key, cuda_bnd.hxx:183 *)
Definition map_key (n_comps mb me : Z) : Z := mb + 100 * me + 10000 * n_comps.

(** maps.find(key), cuda_bnd.hxx:184 *)
Definition find_key (key : Z) (l : list (Z * cmaps)) : option cmaps := option_map snd (find (fun e => fst e =? key) l).

(** clear, cuda_bnd.hxx:482-486 *)
Definition cb_clear (cb : cbnd) : cbnd := mkCB [] [] (cb_gen cb).

(** the start of add_ghosts (send = false), cuda_bnd.hxx:208-211, and fill_ghosts, 225-228: [gen] is
    psc_balance_generation_cnt *)
Definition cb_refresh (gen : Z) (cb : cbnd) : cbnd :=
  if negb (gen =? cb_gen cb) then mkCB [] [] gen else cb.

(** add_ghosts (send = false) and fill_ghosts (send = true) up to the call of ddc_run, cuda_bnd.hxx:205-217,
    222-237 and 183-189: the maps to use *)
Definition cb_maps (send : bool) (gen : Z) (dm : domain) (ibn : V3 Z) (size rank n_comps mb me : Z) (cb : cbnd) : option (cbnd * cmaps) :=
  let cb := cb_refresh gen cb in
  let key := map_key n_comps mb me in
  match find_key key (if send then cb_fill cb else cb_add cb) with
  | Some mp => Some (cb, mp)
  | None =>
      match pattern send dm ibn size rank with
      | None => None
      | Some ri =>
          match make_maps ri dm ibn n_comps rank mb me with
          | None => None
          | Some mp => Some (if send then mkCB (cb_add cb) ((key, mp) :: cb_fill cb) (cb_gen cb)
                             else mkCB ((key, mp) :: cb_add cb) (cb_fill cb) (cb_gen cb), mp)
          end
      end
  end.

(** what happens to a process: a call, or a rebalancing that gives it another part of the domain.
    psc_balance_impl.hxx:945 clears the maps and 1016 counts the generation. *)
Inductive bnd_event :=
| ECall (send : bool) (n_comps mb me : Z)
| EBalance (dm : domain).

(** the domain, its generation and the maps of a process (balance.hxx, cuda_bnd.hxx:488-490) *)
Record bnd_state := mkBS { bs_dm : domain; bs_gen : Z; bs_cb : cbnd }.

(** one event, cuda_bnd.hxx:205-237 and psc_balance_impl.hxx:945, 1014-1016; with the maps used, if any *)
Definition bnd_step (ibn : V3 Z) (size rank : Z) (s : bnd_state) (e : bnd_event) : option (bnd_state * option cmaps) :=
  match e with
  | ECall send n_comps mb me =>
      match cb_maps send (bs_gen s) (bs_dm s) ibn size rank n_comps mb me (bs_cb s) with
      | Some (cb, mp) => Some (mkBS (bs_dm s) (bs_gen s) cb, Some mp)
      | None => None
      end
  | EBalance dm => Some (mkBS dm (bs_gen s + 1) (cb_clear (bs_cb s)), None)
  end.

(** the maps used in the calls of a run, one entry per event (cuda_bnd.hxx:205-237) *)
Fixpoint bnd_run (ibn : V3 Z) (size rank : Z) (s : bnd_state) (es : list bnd_event) : option (list (option cmaps)) :=
  match es with
  | [] => Some []
  | e :: es => match bnd_step ibn size rank s e with
               | Some (s', o) => option_map (cons o) (bnd_run ibn size rank s' es)
               | None => None
               end
  end.

(** the start: BndCuda3::BndCuda3, bnd_cuda_3_impl.cxx:9-14, and CudaBnd::CudaBnd, cuda_bnd.hxx:109 *)
Definition bnd_start (dm : domain) (gen : Z) : bnd_state := mkBS dm gen (mkCB [] [] gen).

(** * One exchange *)

Section Run.
  Context {T : Type}.

  (** thrust::gather, cuda_bnd.hxx:293-294 and 309-310 *)
  Definition gather (mem : list T) (mp : list Z) : option (list T) := all_some (map (aget mem) mp).

  (** thrust::scatter, cuda_bnd.hxx:90 (op: assignment), and k_scatter_add, 30-38 and 69-72 (op: addition, atomic),
      for the elements in the sequence given *)
  Fixpoint scatter (op : T -> T -> T) (ws : list (Z * T)) (mem : list T) : option (list T) :=
    match ws with
    | [] => Some mem
    | (k, v) :: ws => match aget mem k with
                      | Some x => match aset mem k (op x v) with Some mem => scatter op ws mem | None => None end
                      | None => None
                      end
    end.

  (** the elements of a scatter: buf[i] to map[i] for all i < buf.size(), cuda_bnd.hxx:34-37 and 90 *)
  Definition scatter_of (mp : list Z) (buf : list T) : option (list (Z * T)) :=
    if alen buf <=? alen mp then Some (combine mp buf) else None.

  (** p_send and p_recv going through the buffer, cuda_bnd.hxx:350-360 and 374-384, with the assert at the
      end: the parts, given the counts *)
  Fixpoint parts {A} (ns : list (A * Z)) (buf : list T) : option (list (A * list T)) :=
    match ns with
    | [] => match buf with [] => Some [] | _ => None end
    | (r, n) :: ns =>
        if (0 <=? n) && (n <=? alen buf)
        then option_map (cons (r, firstn (Z.to_nat n) buf)) (parts ns (skipn (Z.to_nat n) buf))
        else None
    end.

  (** the processes with entries and the counts n_send * mm, n_recv * mm, cuda_bnd.hxx:351-357 and 375-381 *)
  Definition counts (sel : rank_info -> list sr_entry) (rank : Z) (mp : cmaps) : list (Z * Z) :=
    map (fun i => (ri_rank i, total_len (sel i) * (mp_me mp - mp_mb mp)))
      (filter (fun i => negb (alen (sel i) =? 0)) (others rank (mp_patt mp))).

  (** the gather of what is sent, cuda_bnd.hxx:291-299, and postSends, 366-385: the messages; tag 0 *)
  Definition cuda_posts (mp : cmaps) (mem : list T) (rank : Z) : option (list (chan * list T)) :=
    match gather mem (mp_send mp) with
    | None => None
    | Some buf => option_map (map (fun '(r, l) => ((rank, r, 0), l))) (parts (counts ri_send rank mp) buf)
    end.

  (** postReceives, cuda_bnd.hxx:342-361: source and count; None: the assert at 360 fails.  recv_buf is
      as long as the map, 127 *)
  Definition cuda_recvs (mp : cmaps) (rank : Z) : option (list (Z * Z)) :=
    let ns := counts ri_recv rank mp in
    if forallb (fun '(_, n) => 0 <=? n) ns && (zsum (map snd ns) =? alen (mp_recv mp)) then Some ns else None.

  (** the channels of the receives (cuda_bnd.hxx:354-356) *)
  Definition cuda_chans (mp : cmaps) (rank : Z) : option (list chan) :=
    option_map (map (fun '(r, _) => (r, rank, 0))) (cuda_recvs mp rank).

  (** the local part, cuda_bnd.hxx:305-316: all is gathered, then scattered; [ord] is the order in which the
      threads get to it *)
  Definition cuda_local (op : T -> T -> T) (ord : list (Z * T) -> list (Z * T)) (mp : cmaps) (mem : list T) : option (list T) :=
    match gather mem (mp_lsend mp) with
    | None => None
    | Some buf => match scatter_of (mp_lrecv mp) buf with
                  | Some ws => scatter op (ord ws) mem
                  | None => None
                  end
    end.

  (** recv_buf after MPI_Waitall, cuda_bnd.hxx:320-322: the messages in the order of the receives *)
  Definition received (ns : list (Z * Z)) (pool : list (chan * list T)) (rank : Z) : option (list T) :=
    option_map (@concat T) (all_some (map (fun '(r, n) =>
      match receive pool rank r 0 with Some l => if alen l =? n then Some l else None | None => None end) ns)).

  (** ddc_run, cuda_bnd.hxx:245-337, after the messages are sent *)
  Definition cuda_finish (op : T -> T -> T) (ord ord' : list (Z * T) -> list (Z * T)) (mp : cmaps) (pool : list (chan * list T)) (mem : list T) (rank : Z) : option (list T) :=
    match cuda_recvs mp rank, cuda_local op ord mp mem with
    | Some ns, Some mem =>
        match received ns pool rank with
        | None => None
        | Some buf => match scatter_of (mp_recv mp) buf with
                      | Some ws => scatter op (ord' ws) mem
                      | None => None
                      end
        end
    | _, _ => None
    end.
End Run.
