(** The exchange of ghost points: src/libmrc/src/mrc_ddc_multi.c with the copy functions of
    src/libpsc/psc_bnd/psc_bnd_impl.hxx, on all processes.  Messages are modelled as in
    MpiModel.  None: an assert fails, a message of the wrong size arrives or never arrives,
    memory is accessed out of bounds or read before it is written.  Not modelled: sizes beyond
    the range of int, the host mirror (psc_bnd_impl.hxx:115-116, 122, a copy), and the
    pattern for mrc_fld (fill_ghosts[], mrc_ddc_multi.c:121). *)
From Verif Require Import Base Arr DomainModel MpiModel BalanceModel BndPrtModel DdcPrtModel.
Local Open Scope Z_scope.

(** MRC_DDC_BUF3, mrc_ddc.h:56-60 *)
Definition buf3 (ilo ihi : V3 Z) (m : Z) (i : V3 Z) : Z :=
  ((m * (c2 ihi - c2 ilo) + c2 i - c2 ilo) * (c1 ihi - c1 ilo) + c1 i - c1 ilo) * (c0 ihi - c0 ilo) + c0 i - c0 ilo.

(** the loops over m, iz, iy, ix, psc_bnd_impl.hxx:28-31, 47-50 and 66-69 *)
Definition loop4 (mb me : Z) (ilo ihi : V3 Z) : list (Z * V3 Z) :=
  flat_map (fun m => flat_map (fun iz => flat_map (fun iy => map (fun ix => (m, v3 ix iy iz)) (zrange (c0 ilo) (c0 ihi)))
    (zrange (c1 ilo) (c1 ihi))) (zrange (c2 ilo) (c2 ihi))) (zrange mb me).

(** mrc_ddc_multi_get_nei_rank_patch, mrc_ddc_multi.c:27-55; Some None: rank -1 *)
Definition ddc_nei_rank_patch (dm : domain) (rank p : Z) (dir : V3 Z) : option (option (Z * Z)) :=
  match get_local_patch_info dm rank p with
  | None => None
  | Some info =>
      let nc d := neighbor_coord (get3 (dm_np dm) d) (get3 (dm_periodic dm) d) (get3 (pi_idx3 info) d) (get3 dir d) in
      match nc D0, nc D1, nc D2 with
      | Some a, Some b, Some c =>
          match get_level_idx3_patch_info dm (v3 a b c) with
          | Some info' => Some (Some (pi_rank info', pi_patch info'))
          | None => None
          end
      | _, _, _ => Some None
      end
  end.

(** sr->ilo and sr->ihi in one direction: ddc_init_outside, mrc_ddc_multi.c:80-93 *)
Definition outside1 (ld ibn dir : Z) : Z * Z :=
  if dir =? -1 then (0 - ibn, 0) else if dir =? 0 then (0, ld) else (ld, ld + ibn).
(** ddc_init_inside, mrc_ddc_multi.c:120-133 *)
Definition inside1 (ld ibn dir : Z) : Z * Z :=
  if dir =? -1 then (0, 0 + ibn) else if dir =? 0 then (0, ld) else (ld - ibn, ld).

(** struct mrc_ddc_sendrecv_entry, mrc_ddc_private.h:62-70 *)
Record sr_entry := mkSR { sr_patch : Z; sr_nei_patch : Z; sr_dir1 : Z; sr_len : Z; sr_ilo : V3 Z; sr_ihi : V3 Z }.

(** ddc_init_outside (side false), mrc_ddc_multi.c:60-96, and ddc_init_inside (side true), 101-136,
    with what setup_pattern2 makes of it (297-305, 313-321): the rank of the neighbour and the
    entry; Some None: there is no neighbour *)
Definition ddc_init (side : bool) (dm : domain) (ibn : V3 Z) (rank p : Z) (dir : V3 Z) : option (option (Z * sr_entry)) :=
  if (c0 dir =? 0) && (c1 dir =? 0) && (c2 dir =? 0) then Some None
  else match ddc_nei_rank_patch dm rank p dir, get_local_patch_info dm rank p with
       | Some None, _ => Some None
       | Some (Some (r, q)), Some info =>
           let box d := (if side then inside1 else outside1) (get3 (pi_ldims info) d) (get3 ibn d) (get3 dir d) in
           let ilo := gen3 (fun d => fst (box d)) in
           let ihi := gen3 (fun d => snd (box d)) in
           Some (Some (r, mkSR p q (dir2idx dir) (1 * (c0 ihi - c0 ilo) * (c1 ihi - c1 ilo) * (c2 ihi - c2 ilo)) ilo ihi))
       | _, _ => None
       end.

(** the loops over p and dir of setup_pattern2, mrc_ddc_multi.c:289-330: the entries for
    process r; for the sends this is ri[r].send_entry, for the receives ri[r].recv_entry_ *)
Definition sr_entries (side : bool) (dm : domain) (ibn : V3 Z) (rank r : Z) : option (list sr_entry) :=
  match nr_patches dm rank with
  | None => None
  | Some n =>
      option_map (flat_map (fun o => match o with Some (r', e) => if r' =? r then [e] else [] | None => [] end))
        (sequence (flat_map (fun p => map (fun dir => ddc_init side dm ibn rank p dir) dirs27) (zrange 0 n)))
  end.

(** find_recv_entry_, mrc_ddc_multi.c:219-227, with recv_entry_compare (201-217).  Simplified: the
    first entry with this key of the list as it is before qsort (332-335); there is only one
    (GhostProofs, [entries_key]), so sorting and bisection (library functions) do not matter. *)
Definition find_recv_entry (es : list sr_entry) (p dir1 : Z) : option sr_entry :=
  find (fun e => (sr_nei_patch e =? p) && (sr_dir1 e =? dir1)) es.

(** one round of the loop over p, mrc_ddc_multi.c:339-351 *)
Definition recv_round (es : list sr_entry) (p : Z) : list sr_entry :=
  flat_map (fun dir => match find_recv_entry es p (dir2idx (negdir dir)) with Some e => [e] | None => [] end) dirs27.

(** the loop over p, mrc_ddc_multi.c:338-352: it ends when cnt has reached n_recv_entries.  [fuel]
    bounds the number of rounds; that it suffices is part of C09. *)
Fixpoint reorganize (es : list sr_entry) (fuel : nat) (p cnt : Z) : option (list sr_entry) :=
  if alen es <=? cnt then Some []
  else match fuel with
       | O => None
       | S fuel =>
           let found := recv_round es p in
           if alen es <? cnt + alen found then None
           else match reorganize es fuel (p + 1) (cnt + alen found) with Some l => Some (found ++ l) | None => None end
       end.

(** ri[r].recv_entry, mrc_ddc_multi.c:312-354; as many rounds as process r has patches *)
Definition recv_list (side : bool) (dm : domain) (ibn : V3 Z) (rank r : Z) : option (list sr_entry) :=
  match sr_entries side dm ibn rank r, nr_patches dm r with
  | Some es, Some n => reorganize es (Z.to_nat n) 0 0
  | _, _ => None
  end.

(** ri[r].n_send and n_recv, mrc_ddc_multi.c:306 and 322 *)
Definition total_len (es : list sr_entry) : Z := zsum (map sr_len es).

(** local_buf_size, mrc_ddc_multi.c:357-363 *)
Definition local_buf_size (es : list sr_entry) : Z :=
  fold_left (fun s e => Z.max s ((c0 (sr_ihi e) - c0 (sr_ilo e)) * (c1 (sr_ihi e) - c1 (sr_ilo e)) * (c2 (sr_ihi e) - c2 (sr_ilo e)))) es 0.

(** the value last written to place k of a buffer, given the writes in sequence (memory; used for
    the buffers of mrc_ddc_multi.c:469-547) *)
Fixpoint buf_get {T} (ws : list (Z * T)) (k : Z) : option T :=
  match ws with
  | [] => None
  | (j, v) :: ws => match buf_get ws k with Some v' => Some v' | None => if j =? k then Some v else None end
  end.

(** ldims of the grid, domain.hxx:45-46 *)
Definition grid_ldims (dm : domain) : V3 Z := gen3 (fun d => get3 (dm_gdims dm) d / get3 (dm_np dm) d).

Section Run.
  Context {T : Type}.
  (** the fields of one process: mflds_gt(ix - ib[0], iy - ib[1], iz - ib[2], m, p), psc_bnd_impl.hxx:33 *)
  Definition flds := Z -> Z -> V3 Z -> T.

  (** ctx, psc_bnd_impl.hxx:112-117: shape ldims + 2 ibn, ib = - ibn, n_comps components, n patches *)
  Definition in_store (dm : domain) (ibn : V3 Z) (n_comps n p m : Z) (i : V3 Z) : bool :=
    (0 <=? p) && (p <? n) && (0 <=? m) && (m <? n_comps) &&
    forallb (fun d => (- get3 ibn d <=? get3 i d) && (get3 i d <? get3 (grid_ldims dm) d + get3 ibn d)) dims3.

  (** assignment to one element, psc_bnd_impl.hxx:51 and 70 *)
  Definition upd (F : flds) (p m : Z) (i : V3 Z) (v : T) : flds :=
    fun p' m' i' => if (p' =? p) && (m' =? m) && (c0 i' =? c0 i) && (c1 i' =? c1 i) && (c2 i' =? c2 i) then v else F p' m' i'.

  Variables (st : Z -> Z -> V3 Z -> bool) (mb me : Z).

  (** copy_to_buf, psc_bnd_impl.hxx:21-38: the writes to the buffer; [base] is the position of buf *)
  Definition copy_to_buf (F : flds) (e : sr_entry) (base : Z) : option (list (Z * T)) :=
    sequence (map (fun '(m, i) => if st (sr_patch e) m i then Some (base + buf3 (sr_ilo e) (sr_ihi e) (m - mb) i, F (sr_patch e) m i) else None)
                  (loop4 mb me (sr_ilo e) (sr_ihi e))).

  (** copy_from_buf and add_from_buf, psc_bnd_impl.hxx:40-76: op is assignment or addition; p is
      the patch *)
  Definition from_buf (op : T -> T -> T) (F : flds) (p : Z) (ilo ihi : V3 Z) (base : Z) (buf : Z -> option T) : option flds :=
    fold_left (fun acc '(m, i) =>
      match acc with
      | None => None
      | Some F => if st p m i then
                    match buf (base + buf3 ilo ihi (m - mb) i) with
                    | Some v => Some (upd F p m i (op (F p m i) v))
                    | None => None
                    end
                  else None
      end) (loop4 mb me ilo ihi) (Some F).

  (** packing the entries for one process, mrc_ddc_multi.c:484-489 *)
  Fixpoint pack (F : flds) (es : list sr_entry) (base : Z) : option (list (Z * T)) :=
    match es with
    | [] => Some []
    | e :: es => match copy_to_buf F e base, pack F es (base + sr_len e * (me - mb)) with
                 | Some a, Some b => Some (a ++ b)
                 | _, _ => None
                 end
    end.

  (** unpacking a message, mrc_ddc_multi.c:513-517 *)
  Fixpoint unpack_msg (op : T -> T -> T) (F : flds) (es : list sr_entry) (base : Z) (buf : Z -> option T) : option flds :=
    match es with
    | [] => Some F
    | e :: es => match from_buf op F (sr_patch e) (sr_ilo e) (sr_ihi e) base buf with
                 | Some F => unpack_msg op F es (base + sr_len e * (me - mb)) buf
                 | None => None
                 end
    end.

  (** ddc_run_local, mrc_ddc_multi.c:538-547: the entries side by side; lsize is the size of
      local_buf.  Simplified: the buffer is taken to be unwritten before each entry. *)
  Fixpoint run_local (op : T -> T -> T) (lsize : Z) (F : flds) (ses res : list sr_entry) : option flds :=
    match ses with
    | [] => Some F
    | se :: ses =>
        match res with
        | [] => None
        | re :: res =>
            if (c0 (sr_ilo se) =? c0 (sr_ihi se)) || (c1 (sr_ilo se) =? c1 (sr_ihi se)) || (c2 (sr_ilo se) =? c2 (sr_ihi se))
            then run_local op lsize F ses res
            else match copy_to_buf F se 0 with
                 | None => None
                 | Some ws =>
                     if forallb (fun w => (0 <=? fst w) && (fst w <? lsize)) ws then
                       match from_buf op F (sr_nei_patch se) (sr_ilo re) (sr_ihi re) 0 (buf_get ws) with
                       | Some F => run_local op lsize F ses res
                       | None => None
                       end
                     else None
                 end
        end
    end.
End Run.
Arguments flds : clear implicits.

Section Ddc.
  Context {T : Type}.
  (** dm: the domain; size: the number of processes; send: side of the entries sent (true:
      inside, for fill_ghosts, mrc_ddc_multi.c:427-428; false: outside, for add_ghosts, 429-430) *)
  Variables (dm : domain) (size : Z) (ibn : V3 Z) (n_comps : Z) (send : bool) (mb me : Z).

  (** the storage of process rank, psc_bnd_impl.hxx:112-117 *)
  Definition store_of (rank : Z) (p m : Z) (i : V3 Z) : bool :=
    match nr_patches dm rank with Some n => in_store dm ibn n_comps n p m i | None => false end.

  (** the sends of ddc_run_begin, mrc_ddc_multi.c:482-493, for one process: the number of values
      and the contents of the message *)
  Definition ddc_posts (F : flds T) (rank : Z) : option (list (chan * (Z * list (Z * T)))) :=
    concat_option (map (fun r =>
      match sr_entries send dm ibn rank r with
      | None => None
      | Some [] => Some []
      | Some es => if r =? rank then Some []
                   else option_map (fun ws => [((rank, r, 4660), (total_len es * (me - mb), ws))]) (pack (store_of rank) mb me F es 0)
      end) (zrange 0 size)).

  (** the receives of ddc_run_begin, mrc_ddc_multi.c:470-476 *)
  Definition ddc_recvs (rank : Z) : option (list chan) :=
    concat_option (map (fun r =>
      match recv_list (negb send) dm ibn rank r with
      | None => None
      | Some [] => Some []
      | Some _ => if r =? rank then Some [] else Some [(r, rank, 4660)]
      end) (zrange 0 size)).

  (** ddc_run_local, mrc_ddc_multi.c:527-548 *)
  Definition ddc_local (op : T -> T -> T) (F : flds T) (rank : Z) : option (flds T) :=
    match sr_entries send dm ibn rank rank, recv_list (negb send) dm ibn rank rank with
    | Some ses, Some res => run_local (store_of rank) mb me op (local_buf_size res * (me - mb)) F ses res
    | _, _ => None
    end.

  (** ddc_run_end, mrc_ddc_multi.c:510-519; the part of recv_buf that belongs to process r starts
      with the first of its entries, as in run_begin *)
  Definition ddc_end (op : T -> T -> T) (pool : list (chan * (Z * list (Z * T)))) (F : flds T) (rank : Z) : option (flds T) :=
    fold_left (fun acc r =>
      match acc with
      | None => None
      | Some F =>
          match recv_list (negb send) dm ibn rank r with
          | None => None
          | Some [] => Some F
          | Some es =>
              if r =? rank then Some F
              else match receive pool rank r 4660 with
                   | Some (n, ws) =>
                       if n =? total_len es * (me - mb)
                       then unpack_msg (store_of rank) mb me op F es 0 (fun k => if (0 <=? k) && (k <? n) then buf_get ws k else None)
                       else None
                   | None => None
                   end
          end
      end) (zrange 0 size) (Some F).

  (** ddc_run, mrc_ddc_multi.c:553-563, on one process; the messages were sent in run_begin *)
  Definition ddc_run (op : T -> T -> T) (pool : list (chan * (Z * list (Z * T)))) (F : flds T) (rank : Z) : option (flds T) :=
    match ddc_local op F rank with Some F => ddc_end op pool F rank | None => None end.

  (** the messages of all processes *)
  (** (mrc_ddc_multi.c:482-493) *)
  Definition all_ddc_posts (F : Z -> flds T) : option (list (chan * (Z * list (Z * T)))) :=
    concat_option (map (fun r => ddc_posts (F r) r) (zrange 0 size)).
  (** and all receives (mrc_ddc_multi.c:470-476) *)
  Definition all_ddc_recvs : option (list chan) := concat_option (map ddc_recvs (zrange 0 size)).
End Ddc.

(** mrc_ddc_multi_fill_ghosts, mrc_ddc_multi.c:582-591, with copy_from_buf *)
Definition fill_ghosts {T} dm size ibn n_comps mb me pool (F : flds T) rank := ddc_run dm size ibn n_comps true mb me (fun _ v => v) pool F rank.
(** mrc_ddc_multi_add_ghosts, mrc_ddc_multi.c:568-577, with add_from_buf; [plus] is the addition of
    the values *)
Definition add_ghosts {T} (plus : T -> T -> T) dm size ibn n_comps mb me pool (F : flds T) rank := ddc_run dm size ibn n_comps false mb me plus pool F rank.
