(** Model of the domain decomposition:
    src/libmrc/src/mrc_domain_lib.c (space-filling curves) and
    src/libmrc/src/mrc_domain_multi.c (patch ownership, patch boxes, neighbours).

    Integers are unbounded [Z] (C [int]; overflow not modelled except for the
    shift [1 << n_total_bits] of the Hilbert set-up, which must stay below 31).
    Failed [assert]s and out-of-range array reads are [None].
    Not modelled: "activepatches" (sparse domains, never used by psc; the search
    tree and the bit field behind it are modelled in BintreeModel/BitfieldModel). *)
From Verif Require Import Base HilbertModel.
Local Open Scope Z_scope.

(** ** Space-filling curves *)

(** enum in src/libmrc/include/mrc_domain_private.h:60-64 *)
Inductive curve := CURVE_BYDIM | CURVE_MORTON | CURVE_HILBERT.

(** src/libmrc/src/mrc_domain_lib.c:21-26 *)
Definition sfc_bydim_idx3_to_idx (np p : V3 Z) : Z :=
  (c2 p * c1 np + c1 p) * c0 np + c0 p.

(** src/libmrc/src/mrc_domain_lib.c:28-35 ([%] and [/] of non-negative ints) *)
Definition sfc_bydim_idx_to_idx3 (np : V3 Z) (idx : Z) : V3 Z :=
  let p0 := idx mod c0 np in
  let idx := idx / c0 np in
  let p1 := idx mod c1 np in
  let idx := idx / c1 np in
  v3 p0 p1 idx.

(** src/libmrc/src/mrc_domain_lib.c:45-50
    [while (n > 1) { n >>= 1; nbits[d]++; }]; [None] = fuel exhausted *)
Fixpoint morton_nbits_loop (fuel : nat) (n nbits : Z) : option Z :=
  match fuel with
  | O => None
  | S f => if 1 <? n then morton_nbits_loop f (Z.shiftr n 1) (nbits + 1) else Some nbits
  end.

(** src/libmrc/src/mrc_domain_lib.c:45-52, with the assert of line 52 *)
Definition morton_nbits (np : Z) : option Z :=
  match morton_nbits_loop (S (Z.to_nat np)) np 0 with
  | Some nb => if np =? Z.shiftl 1 nb then Some nb else None
  | None => None
  end.

(** src/libmrc/src/mrc_domain_lib.c:69-77, body of the [d] loop *)
Definition morton_enc_step (nbits p : V3 Z) (b : Z) (st : Z * Z) (d : dim3) : Z * Z :=
  let '(pos, idx) := st in
  if get3 nbits d <=? b then st
  else (pos + 1,
        if negb (Z.land (get3 p d) (Z.shiftl 1 b) =? 0)
        then Z.lor idx (Z.shiftl 1 pos) else idx).

(** src/libmrc/src/mrc_domain_lib.c:60-81 *)
Definition sfc_morton_idx3_to_idx (nbits : V3 Z) (nbits_max : Z) (p : V3 Z) : Z :=
  snd (fold_left (fun st b => fold_left (morton_enc_step nbits p b) dims3 st)
                 (zrange 0 nbits_max) (0, 0)).

(** src/libmrc/src/mrc_domain_lib.c:95-103, body of the [d] loop *)
Definition morton_dec_step (nbits : V3 Z) (idx b : Z) (st : Z * V3 Z) (d : dim3) : Z * V3 Z :=
  let '(pos, p) := st in
  if get3 nbits d <=? b then st
  else (pos + 1,
        if negb (Z.land idx (Z.shiftl 1 pos) =? 0)
        then set3 p d (Z.lor (get3 p d) (Z.shiftl 1 b)) else p).

(** src/libmrc/src/mrc_domain_lib.c:83-105 *)
Definition sfc_morton_idx_to_idx3 (nbits : V3 Z) (nbits_max idx : Z) : V3 Z :=
  snd (fold_left (fun st b => fold_left (morton_dec_step nbits idx b) dims3 st)
                 (zrange 0 nbits_max) (0, v3 0 0 0)).

(** src/libmrc/src/mrc_domain_lib.c:55-57 and 123-125 *)
Definition nbits_maximum (nbits : V3 Z) : Z :=
  let m := c0 nbits in
  let m := if m <? c1 nbits then c1 nbits else m in
  if m <? c2 nbits then c2 nbits else m.

(** src/libmrc/src/mrc_domain_lib.c:117-120
    [while (np[d] > (1 << nbits[d])) nbits[d]++;] *)
Fixpoint hilbert_nbits_loop (fuel : nat) (np nbits : Z) : option Z :=
  match fuel with
  | O => None
  | S f => if Z.shiftl 1 nbits <? np then hilbert_nbits_loop f np (nbits + 1) else Some nbits
  end.

(** src/libmrc/src/mrc_domain_lib.c:126-133: the directions with at least one bit *)
Definition hilbert_dims (nbits : V3 Z) : list dim3 :=
  filter (fun d => negb (get3 nbits d =? 0)) dims3.

(** src/libmrc/src/mrc_domain_lib.c:151-158: convert [h], test all curve
    directions against [np] *)
Definition hilbert_inside (np : V3 Z) (hdims : list dim3) (nbits_max h : Z) : bool :=
  let p_bm := hilbert_i2c (N.of_nat (length hdims)) (Z.to_N nbits_max) (Z.to_N h) in
  forallb (fun '(d, c) => negb (get3 np d <=? Z.of_N c)) (combine hdims p_bm).

(** src/libmrc/src/mrc_domain_lib.c:148-166: scan of all curve indices; returns
    the contents of hilbert_map_p_to_h (written in order p = 0,1,...) and of
    hilbert_map_h_to_p. *)
Fixpoint hilbert_scan (inside : Z -> bool) (hs : list Z) (p : Z) : list Z * list Z :=
  match hs with
  | [] => ([], [])
  | h :: r =>
      if inside h then
        let '(p_to_h, h_to_p) := hilbert_scan inside r (p + 1) in
        (h :: p_to_h, p :: h_to_p)
      else
        let '(p_to_h, h_to_p) := hilbert_scan inside r p in
        (p_to_h, (-1) :: h_to_p)
  end.

(** [struct mrc_sfc] (src/libmrc/include/mrc_domain_private.h:66-82) after [sfc_setup] *)
Inductive sfc :=
| SfcBydim (np : V3 Z)
| SfcMorton (nbits : V3 Z) (nbits_max : Z)
| SfcHilbert (nbits_max : Z) (hdims : list dim3) (p_to_h h_to_p : list Z).

(** src/libmrc/src/mrc_domain_lib.c:112-167.  [None]: shift overflow of
    [1 << n_total_bits] (undefined behaviour for an [int]), or a write beyond the
    [n_total_patches] entries allocated in line 144. *)
Definition sfc_hilbert_setup (np : V3 Z) : option sfc :=
  match hilbert_nbits_loop (S (Z.to_nat (c0 np))) (c0 np) 0,
        hilbert_nbits_loop (S (Z.to_nat (c1 np))) (c1 np) 0,
        hilbert_nbits_loop (S (Z.to_nat (c2 np))) (c2 np) 0 with
  | Some b0, Some b1, Some b2 =>
      let nbits := v3 b0 b1 b2 in
      let nbits_max := nbits_maximum nbits in
      let hdims := hilbert_dims nbits in
      let n_total_bits := nbits_max * Z.of_nat (length hdims) in
      let n_total_patches := fold_left (fun n d => n * get3 np d) hdims 1 in
      if 30 <? n_total_bits then None else
      let '(p_to_h, h_to_p) :=
        hilbert_scan (hilbert_inside np hdims nbits_max)
                     (zrange 0 (Z.shiftl 1 n_total_bits)) 0 in
      if n_total_patches <? Z.of_nat (length p_to_h) then None
      else Some (SfcHilbert nbits_max hdims p_to_h h_to_p)
  | _, _, _ => None
  end.

(** src/libmrc/src/mrc_domain_lib.c:213-222 (bydim 13-19, morton 40-58) *)
Definition sfc_setup (c : curve) (np : V3 Z) : option sfc :=
  match c with
  | CURVE_BYDIM => Some (SfcBydim np)
  | CURVE_MORTON =>
      match morton_nbits (c0 np), morton_nbits (c1 np), morton_nbits (c2 np) with
      | Some b0, Some b1, Some b2 =>
          let nbits := v3 b0 b1 b2 in Some (SfcMorton nbits (nbits_maximum nbits))
      | _, _, _ => None
      end
  | CURVE_HILBERT => sfc_hilbert_setup np
  end.

(** Array read, e.g. of hilbert_map_p_to_h (mrc_domain_lib.c:169-220) or of
    gpatch_off_all (mrc_domain_multi.c); [None] = out of bounds. *)
Definition zget (l : list Z) (i : Z) : option Z :=
  if i <? 0 then None else nth_error l (Z.to_nat i).

(** src/libmrc/src/mrc_domain_lib.c:169-184 *)
Definition sfc_hilbert_idx3_to_idx (nbits_max : Z) (hdims : list dim3) (h_to_p : list Z)
  (p : V3 Z) : option Z :=
  match hdims with
  | [] => Some 0
  | _ =>
      let p_bm := map (fun d => Z.to_N (get3 p d)) hdims in
      match hilbert_c2i (N.of_nat (length hdims)) (Z.to_N nbits_max) p_bm with
      | Some h => zget h_to_p (Z.of_N h)
      | None => None
      end
  end.

(** src/libmrc/src/mrc_domain_lib.c:186-201 *)
Definition sfc_hilbert_idx_to_idx3 (nbits_max : Z) (hdims : list dim3) (p_to_h : list Z)
  (idx : Z) : option (V3 Z) :=
  match zget p_to_h idx with
  | Some h =>
      let p_bm := hilbert_i2c (N.of_nat (length hdims)) (Z.to_N nbits_max) (Z.to_N h) in
      Some (fold_left (fun p '(d, c) => set3 p d (Z.of_N c)) (combine hdims p_bm) (v3 0 0 0))
  | None => None
  end.

(** src/libmrc/src/mrc_domain_lib.c:235-244 *)
Definition sfc_idx3_to_idx (s : sfc) (p : V3 Z) : option Z :=
  match s with
  | SfcBydim np => Some (sfc_bydim_idx3_to_idx np p)
  | SfcMorton nbits nbits_max => Some (sfc_morton_idx3_to_idx nbits nbits_max p)
  | SfcHilbert nbits_max hdims _ h_to_p => sfc_hilbert_idx3_to_idx nbits_max hdims h_to_p p
  end.

(** src/libmrc/src/mrc_domain_lib.c:246-255 *)
Definition sfc_idx_to_idx3 (s : sfc) (idx : Z) : option (V3 Z) :=
  match s with
  | SfcBydim np => Some (sfc_bydim_idx_to_idx3 np idx)
  | SfcMorton nbits nbits_max => Some (sfc_morton_idx_to_idx3 nbits nbits_max idx)
  | SfcHilbert nbits_max hdims p_to_h _ => sfc_hilbert_idx_to_idx3 nbits_max hdims p_to_h idx
  end.

(** ** Patch ownership *)

(** src/libmrc/src/mrc_domain_multi.c:178-181 and 187-190: offsets as running
    sums, [gpatch_off_all] has one more entry than there are processes. *)
Fixpoint gpatch_off_all_from (acc : Z) (counts : list Z) : list Z :=
  acc :: match counts with [] => [] | c :: cs => gpatch_off_all_from (acc + c) cs end.

(** src/libmrc/src/mrc_domain_multi.c:185-188: the default number of patches of
    process [i-1] *)
Definition default_counts (nr_global_patches size : Z) : list Z :=
  map (fun i => nr_global_patches / size
                + (if i <? nr_global_patches mod size then 1 else 0))
      (zrange 0 size).

(** src/libmrc/src/mrc_domain_multi.c:162-192.  [prescribed] is the vector of
    the [nr_patches] gathered from all processes (line 174), if prescribed. *)
Definition setup_gpatch_off_all (prescribed : option (list Z)) (nr_global_patches size : Z)
  : list Z :=
  match prescribed with
  | Some nr_patches_all => gpatch_off_all_from 0 nr_patches_all
  | None => gpatch_off_all_from 0 (default_counts nr_global_patches size)
  end.

(** src/libmrc/src/mrc_domain_multi.c:97-104: linear search;
    [None] = assert(0) in line 104. *)
Fixpoint gpatch_to_rank_patch_from (i : Z) (offs : list Z) (gpatch : Z) : option (Z * Z) :=
  match offs with
  | o :: ((o' :: _) as r) =>
      if gpatch <? o' then Some (i, gpatch - o)
      else gpatch_to_rank_patch_from (i + 1) r gpatch
  | _ => None
  end.

(** src/libmrc/src/mrc_domain_multi.c:90-105 *)
Definition gpatch_to_rank_patch (gpatch_off_all : list Z) (gpatch : Z) : option (Z * Z) :=
  gpatch_to_rank_patch_from 0 gpatch_off_all gpatch.

(** ** The domain *)

(** [struct mrc_domain_multi] (src/libmrc/include/mrc_domain_private.h:93-112) after set-up (fields used), plus [domain->bc] *)
Record domain := mkDomain {
  dm_np : V3 Z;                       (* np *)
  dm_gdims : V3 Z;                    (* gdims *)
  dm_periodic : V3 bool;              (* bc[d] == BC_PERIODIC *)
  dm_sfc : sfc;                       (* sfc *)
  dm_ldims : V3 (list Z);             (* ldims[d][] *)
  dm_off : V3 (list Z);               (* off[d][] *)
  dm_nr_global_patches : Z;           (* nr_global_patches *)
  dm_gpatch_off_all : list Z          (* gpatch_off_all[] *)
}.

(** src/libmrc/src/mrc_domain_multi.c:248-253: off[d][0] = 0 (calloc),
    off[d][i] = off[d][i-1] + ldims[d][i-1] *)
Fixpoint dim_offsets (acc : Z) (ldims : list Z) : list Z :=
  match ldims with [] => [] | l :: r => acc :: dim_offsets (acc + l) r end.

(** src/libmrc/src/mrc_domain_multi.c:240-254 for one direction;
    [None] = assert of line 244.  np[d] > 0 is required by the division. *)
Definition dim_ldims (gdims np : Z) : option (list Z) :=
  if negb (gdims mod np =? 0) then None
  else Some (map (fun i => gdims / np + (if i <? gdims mod np then 1 else 0)) (zrange 0 np)).

(** src/libmrc/src/mrc_domain_multi.c:221-273 (without activepatches; the
    per-process [patches] array is [get_local_patch_info] below) *)
Definition domain_setup (c : curve) (np gdims : V3 Z) (periodic : V3 bool)
  (prescribed : option (list Z)) (size : Z) : option domain :=
  match dim_ldims (c0 gdims) (c0 np), dim_ldims (c1 gdims) (c1 np),
        dim_ldims (c2 gdims) (c2 np), sfc_setup c np with
  | Some l0, Some l1, Some l2, Some s =>
      let n := c0 np * c1 np * c2 np in
      Some {| dm_np := np; dm_gdims := gdims; dm_periodic := periodic; dm_sfc := s;
              dm_ldims := v3 l0 l1 l2;
              dm_off := v3 (dim_offsets 0 l0) (dim_offsets 0 l1) (dim_offsets 0 l2);
              dm_nr_global_patches := n;
              dm_gpatch_off_all := setup_gpatch_off_all prescribed n size |}
  | _, _, _, _ => None
  end.

(** [struct mrc_patch_info] (fields set), src/libmrc/include/mrc_domain.h:56-63 *)
Record patch_info := mkPatchInfo {
  pi_global_patch : Z; pi_rank : Z; pi_patch : Z;
  pi_ldims : V3 Z; pi_off : V3 Z; pi_idx3 : V3 Z
}.

(** three array reads, one per direction (mrc_domain_multi.c:344-368) *)
Definition zget3 (v : V3 (list Z)) (p : V3 Z) : option (V3 Z) :=
  match zget (c0 v) (c0 p), zget (c1 v) (c1 p), zget (c2 v) (c2 p) with
  | Some a, Some b, Some c => Some (v3 a b c)
  | _, _, _ => None
  end.

(** src/libmrc/src/mrc_domain_multi.c:129-150 (map_gpatch_to_sfc_idx, lines
    77-86, is the identity without activepatches) *)
Definition get_global_patch_info (dm : domain) (gpatch : Z) : option patch_info :=
  if dm_nr_global_patches dm <=? gpatch then None else
  match gpatch_to_rank_patch (dm_gpatch_off_all dm) gpatch with
  | Some (rank, patch) =>
      match sfc_idx_to_idx3 (dm_sfc dm) gpatch with
      | Some p3 =>
          match zget3 (dm_ldims dm) p3, zget3 (dm_off dm) p3 with
          | Some ld, Some of =>
              Some {| pi_global_patch := gpatch; pi_rank := rank; pi_patch := patch;
                      pi_ldims := ld; pi_off := of; pi_idx3 := p3 |}
          | _, _ => None
          end
      | None => None
      end
  | None => None
  end.

(** src/libmrc/src/mrc_domain_multi.c:152-160 on process [rank] (gpatch_off is
    gpatch_off_all[rank], line 261) *)
Definition get_local_patch_info (dm : domain) (rank patch : Z) : option patch_info :=
  match zget (dm_gpatch_off_all dm) rank with
  | Some off => get_global_patch_info dm (off + patch)
  | None => None
  end.

(** src/libmrc/src/mrc_domain_multi.c:261-262: number of patches of a process *)
Definition nr_patches (dm : domain) (rank : Z) : option Z :=
  match zget (dm_gpatch_off_all dm) rank, zget (dm_gpatch_off_all dm) (rank + 1) with
  | Some a, Some b => Some (b - a)
  | _, _ => None
  end.

(** src/libmrc/src/mrc_domain_multi.c:344-368 (no activepatches, so
    map_sfc_idx_to_gpatch, lines 61-75, is the identity) *)
Definition get_level_idx3_patch_info (dm : domain) (idx : V3 Z) : option patch_info :=
  match sfc_idx3_to_idx (dm_sfc dm) idx with
  | Some i => get_global_patch_info dm i
  | None => None
  end.

(** src/libmrc/src/mrc_domain_multi.c:527-540 for one direction; [None] means
    the early return with rank -1 *)
Definition neighbor_coord (np : Z) (periodic : bool) (i dir : Z) : option Z :=
  let n := i + dir in
  let n := if periodic then
             let n := if n <? 0 then n + np else n in
             if np <=? n then n - np else n
           else n in
  if (n <? 0) || (np <=? n) then None else Some n.

(** src/libmrc/src/mrc_domain_multi.c:517-545.  Outer [None]: an assert fails;
    [Some None]: nei_rank = nei_patch = -1; [Some (Some (rank, patch))]. *)
Definition get_neighbor_rank_patch (dm : domain) (rank p : Z) (dir : V3 Z)
  : option (option (Z * Z)) :=
  match get_local_patch_info dm rank p with
  | None => None
  | Some info =>
      let nc d := neighbor_coord (get3 (dm_np dm) d) (get3 (dm_periodic dm) d)
                                 (get3 (pi_idx3 info) d) (get3 dir d) in
      match nc D0, nc D1, nc D2 with
      | Some a, Some b, Some c =>
          match get_level_idx3_patch_info dm (v3 a b c) with
          | Some info' => Some (Some (pi_rank info', pi_patch info'))
          | None => None
          end
      | _, _, _ => Some None
      end
  end.
