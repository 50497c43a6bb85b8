(** Output of particles to an HDF5 file:
    src/libpsc/psc_output_particles/output_particles_hdf5_impl.hxx.

    [P] is a particle in memory and [T] a record of the file; [written] is the conversion of the one to the
    other (lines 22-36, the constructor of hdf5_prt, which adds the position of the patch), [cellpos] is
    Mparticles::cellPosition and [kindof] the member kind.  Integers are unbounded (the code mixes int and
    size_t).  What is outside of an array, and a failed assert, is None; an element not yet written is None
    within its array.  HDF5 itself is taken to store what it is given at the place it is given. *)
From Verif Require Import Base Arr DomainModel MpiModel BalanceModel SortModel.
Local Open Scope Z_scope.

Section Out.
  Context {P T S : Type}.
  Variables (cellpos : P -> V3 Z) (kindof : P -> Z) (written : patch_info -> P -> T).
  (** ParticleSelector: output_particles_hdf5_impl.hxx:411-434, a function object with a state *)
  Variables (selector : S -> P -> bool * S) (selector0 : S).
  (** lo_, hi_ and kinds_.size(), output_particles_hdf5_impl.hxx:448-453 and 765-767 *)
  Variables (lo hi : V3 Z) (nr_kinds : Z).

  (** output_particles_hdf5_impl.hxx:460-465 *)
  Definition sort_index (ldims idx3 : V3 Z) (kind : Z) : Z :=
    ((c2 idx3 * c1 ldims + c1 idx3) * c0 ldims + c0 idx3) * nr_kinds + kind.

  (** output_particles_hdf5_impl.hxx:467-485; a negative kind is a large number when compared with size() *)
  Definition get_sort_index (ldims : V3 Z) (prt : P) : option Z :=
    let pos := gen3 (fun d => let x := get3 (cellpos prt) d in if x =? get3 ldims d then x - 1 else x) in
    if forallb (fun d => (0 <=? get3 pos d) && (get3 pos d <? get3 ldims d)) dims3 && (0 <=? kindof prt) && (kindof prt <? nr_kinds)
    then Some (sort_index ldims pos (kindof prt)) else None.

  (** particle_indices: output_particles_hdf5_impl.hxx:503-511, the selector being asked about every
      particle in turn *)
  Fixpoint particle_indices (s : S) (n : Z) (prts : list P) : list Z * S :=
    match prts with
    | [] => ([], s)
    | prt :: r =>
        let '(b, s) := selector s prt in
        let '(l, s) := particle_indices s (n + 1) r in
        (if b then n :: l else l, s)
    end.

  (** One patch: output_particles_hdf5_impl.hxx:499-528.  The result is off[p], map[p] and the state of
      the selector.  Simplified: the code selects and counts in one loop, here it is one after the other;
      a vector resized is filled with zeros. *)
  Definition count_sort_patch (ldims : V3 Z) (prts : list P) (s : S) : option (list Z * list Z * S) :=
    let nr_indices := c0 ldims * c1 ldims * c2 ldims * nr_kinds in
    let '(is, s) := particle_indices s 0 prts in
    let si n := match aget prts n with Some prt => get_sort_index ldims prt | None => None end in
    match count si is (repeat 0 (Z.to_nat (nr_indices + 1))) with
    | None => None
    | Some cnts =>
        let '(off, _) := offsets cnts 0 in
        match move si is (repeat (Some 0) (length prts), off) with
        | Some (m, _) => match all_some m with Some m => Some (off, m, s) | None => None end
        | None => None
        end
    end.

  (** output_particles_hdf5_impl.hxx:490-530: all patches of a process, one selector *)
  Fixpoint count_sort (ldims : V3 Z) (mprts : list (list P)) (s : S) : option (list (list Z * list Z)) :=
    match mprts with
    | [] => Some []
    | prts :: r =>
        match count_sort_patch ldims prts s with
        | Some (off, m, s) => match count_sort ldims r s with Some l => Some ((off, m) :: l) | None => None end
        | None => None
        end
    end.

  (** output_particles_hdf5_impl.hxx:535-546 *)
  Definition patch_ilo (ldims off : V3 Z) : V3 Z := gen3 (fun d => Z.min (get3 ldims d) (Z.max (get3 lo d) (get3 off d) - get3 off d)).
  (** output_particles_hdf5_impl.hxx:540-541 *)
  Definition patch_ihi (ldims off : V3 Z) : V3 Z := gen3 (fun d => Z.max 0 (Z.min (get3 hi d) (get3 off d + get3 ldims d) - get3 off d)).
  (** output_particles_hdf5_impl.hxx:542 *)
  Definition patch_ld (ldims off : V3 Z) : V3 Z := gen3 (fun d => get3 (patch_ihi ldims off) d - get3 (patch_ilo ldims off) d).
  (** output_particles_hdf5_impl.hxx:544 *)
  Definition patch_sz (ldims off : V3 Z) : Z := let ld := patch_ld ldims off in nr_kinds * c0 ld * c1 ld * c2 ld.

  (** the loops over jz, jy, jx and kind: output_particles_hdf5_impl.hxx:568-571, 595-598, 682-685 and 718-721 *)
  Definition cells (ldims off : V3 Z) : list (V3 Z * Z) :=
    flat_map (fun jz => flat_map (fun jy => flat_map (fun jx => map (fun kind => (v3 jx jy jz, kind)) (zrange 0 nr_kinds))
      (zrange (c0 (patch_ilo ldims off)) (c0 (patch_ihi ldims off))))
      (zrange (c1 (patch_ilo ldims off)) (c1 (patch_ihi ldims off))))
      (zrange (c2 (patch_ilo ldims off)) (c2 (patch_ihi ldims off))).

  (** idx[p](x, y, z, kind, c), of extents ld[0], ld[1], ld[2], nr_kinds and 2, the first index being the
      fastest: output_particles_hdf5_impl.hxx:593.  gtensor does not check the indices. *)
  Definition idx_at (ld x : V3 Z) (kind c : Z) : Z :=
    (((c * nr_kinds + kind) * c2 ld + c2 x) * c1 ld + c1 x) * c0 ld + c0 x.

  (** a patch as make_local_particle_array (output_particles_hdf5_impl.hxx:548-616) sees it: where it is, its particles, off[p] and map[p] *)
  Definition patch_in := (patch_info * list P * (list Z * list Z))%type.

  (** off[p][si + 1] - off[p][si], output_particles_hdf5_impl.hxx:573 and 604 *)
  Definition n_in_cell (ldims : V3 Z) (off : list Z) (c : V3 Z * Z) : option Z :=
    let si := sort_index ldims (fst c) (snd c) in
    match aget off si, aget off (si + 1) with Some b, Some e => Some (e - b) | _, _ => None end.

  (** n_write: output_particles_hdf5_impl.hxx:562-578 *)
  Definition n_write (ldims : V3 Z) (ps : list patch_in) : option Z :=
    match concat_option (map (fun '(info, _, (off, _)) => sequence (map (n_in_cell ldims off) (cells ldims (pi_off info)))) ps) with
    | Some l => Some (zsum l)
    | None => None
    end.

  (** the records of one cell and kind: output_particles_hdf5_impl.hxx:605-607 *)
  Definition records (info : patch_info) (prts : list P) (off m : list Z) (si : Z) : option (list T) :=
    match aget off si, aget off (si + 1) with
    | Some b, Some e =>
        sequence (map (fun n => match aget m n with
                                | Some i => match aget prts i with Some prt => Some (written info prt) | None => None end
                                | None => None
                                end) (zrange b e))
    | _, _ => None
    end.

  (** one turn of the loop: output_particles_hdf5_impl.hxx:599-607.  The state is the part of arr written
      so far, of length nn, and idx[p]. *)
  Definition local_cell (ldims : V3 Z) (n_off : Z) (info : patch_info) (prts : list P) (off m : list Z)
      (st : option (list T * list (option Z))) (c : V3 Z * Z) : option (list T * list (option Z)) :=
    match st with
    | None => None
    | Some (arr, idx) =>
        let '(j, kind) := c in
        let ld := patch_ld ldims (pi_off info) in
        let ilo := patch_ilo ldims (pi_off info) in
        let x := gen3 (fun d => get3 j d - get3 ilo d) in
        match n_in_cell ldims off c, records info prts off m (sort_index ldims j kind) with
        | Some n, Some l =>
            match aset idx (idx_at ld x kind 0) (Some (alen arr + n_off)) with
            | Some idx => match aset idx (idx_at ld x kind 1) (Some (alen arr + n_off + n)) with
                          | Some idx => Some (arr ++ l, idx)
                          | None => None
                          end
            | None => None
            end
        | _, _ => None
        end
    end.

  (** one patch: output_particles_hdf5_impl.hxx:588-611 *)
  Definition local_patch (ldims : V3 Z) (n_off : Z) (p : patch_in) (arr : list T) : option (list T * list (option Z)) :=
    let '(info, prts, (off, m)) := p in
    fold_left (local_cell ldims n_off info prts off m) (cells ldims (pi_off info))
      (Some (arr, repeat None (Z.to_nat (patch_sz ldims (pi_off info) * 2)))).

  (** all patches: output_particles_hdf5_impl.hxx:586-613 *)
  Fixpoint local_patches (ldims : V3 Z) (n_off : Z) (ps : list patch_in) (arr : list T) : option (list T * list (list (option Z))) :=
    match ps with
    | [] => Some (arr, [])
    | p :: ps =>
        match local_patch ldims n_off p arr with
        | Some (arr, idx) => match local_patches ldims n_off ps arr with Some (arr, l) => Some (arr, idx :: l) | None => None end
        | None => None
        end
    end.

  (** make_local_particle_array, output_particles_hdf5_impl.hxx:583-616: arr has n_write elements.
      Simplified: the elements are appended, and it is checked at the end that there are n_write. *)
  Definition local_array (ldims : V3 Z) (n_off n_write : Z) (ps : list patch_in) : option (list T * list (list (option Z))) :=
    match local_patches ldims n_off ps [] with
    | Some (arr, idx) => if alen arr =? n_write then Some (arr, idx) else None
    | None => None
    end.

  (** ** all processes *)
  Variables (dm : domain) (size : Z) (ldims : V3 Z).
  Variable mprts : Z -> list (list P).

  (** the patches of process r with their particles, sorted: output_particles_hdf5_impl.hxx:642-646;
      grid.patches and localPatchInfo are those of the domain *)
  Definition patches_in (r : Z) : option (list patch_in) :=
    match count_sort ldims (mprts r) selector0, sequence (map (get_local_patch_info dm r) (zrange 0 (alen (mprts r)))) with
    | Some sorted, Some infos => Some (combine (combine infos (mprts r)) sorted)
    | _, _ => None
    end.

  (** n_write on process r, output_particles_hdf5_impl.hxx:562-578 *)
  Definition n_write_of (r : Z) : option Z := match patches_in r with Some ps => n_write ldims ps | None => None end.

  (** MPI_Exscan (n_off is 0 on process 0) and MPI_Allreduce: output_particles_hdf5_impl.hxx:581-583 *)
  Definition n_before (r : Z) : option Z := match sequence (map n_write_of (zrange 0 r)) with Some l => Some (zsum l) | None => None end.

  (** what process r has after make_local_particle_array: output_particles_hdf5_impl.hxx:655-659 *)
  Definition local_of (r : Z) : option (list T * list (list (option Z))) :=
    match patches_in r, n_write_of r, n_before r with
    | Some ps, Some n, Some n_off => local_array ldims n_off n ps
    | _, _, _ => None
    end.

  (** output_particles_hdf5_impl.hxx:737-757: what process r other than 0 sends.  Every idx[p] has 2 * sz
      elements. *)
  Definition message (r : Z) : option (list (chan * list (option Z))) :=
    match local_of r with Some (_, idx) => Some [((r, 0, 16384), concat idx)] | None => None end.

  (** output_particles_hdf5_impl.hxx:737-757, all processes but 0 *)
  Definition messages : option (list (chan * list (option Z))) := concat_option (map message (zrange 1 size)).

  (** gidx_begin and gidx_end, output_particles_hdf5_impl.hxx:649-653 *)
  Definition tables := (list (option Z) * list (option Z))%type.

  (** gidx(ix, iy, iz, kind), of extents wdims_[0], wdims_[1], wdims_[2] and nr_kinds *)
  Definition gidx_at (off j : V3 Z) (kind : Z) : Z :=
    let w := gen3 (fun d => get3 hi d - get3 lo d) in
    let i := gen3 (fun d => get3 j d + get3 off d - get3 lo d) in
    ((kind * c2 w + c2 i) * c1 w + c1 i) * c0 w + c0 i.

  (** gidx_begin(...) = b; gidx_end(...) = e: output_particles_hdf5_impl.hxx:686-690 and 724-729 *)
  Definition put_tables (off : V3 Z) (st : option tables) (c : V3 Z * Z) (be : option (option Z * option Z)) : option tables :=
    match st, be with
    | Some (tb, te), Some (b, e) =>
        match aset tb (gidx_at off (fst c) (snd c)) b, aset te (gidx_at off (fst c) (snd c)) e with
        | Some tb, Some te => Some (tb, te)
        | _, _ => None
        end
    | _, _ => None
    end.

  (** local part, one patch: output_particles_hdf5_impl.hxx:678-694.  The indices are not relative to ilo. *)
  Definition root_local (st : option tables) (pi : patch_info * list (option Z)) : option tables :=
    let '(info, idx) := pi in
    let ld := patch_ld (pi_ldims info) (pi_off info) in
    fold_left (fun st '(j, kind) =>
      put_tables (pi_off info) st (j, kind)
        match aget idx (idx_at ld j kind 0), aget idx (idx_at ld j kind 1) with Some b, Some e => Some (b, e) | _, _ => None end)
      (cells (pi_ldims info) (pi_off info)) st.

  (** remote_sz: output_particles_hdf5_impl.hxx:665-675 *)
  Definition remote_sz (infos : list patch_info) (r : Z) : Z :=
    zsum (map (fun info => if pi_rank info =? r then patch_sz (pi_ldims info) (pi_off info) else 0) infos).

  (** recv_buf[r]: output_particles_hdf5_impl.hxx:697-709: a message longer than the buffer is an error; what is
      not received remains zero *)
  Definition recv_buf (pool : list (chan * list (option Z))) (infos : list patch_info) (r : Z) : option (list (option Z)) :=
    match receive pool 0 r 16384 with
    | Some m => let n := 2 * remote_sz infos r in
                if alen m <=? n then Some (m ++ repeat (Some 0) (Z.to_nat (n - alen m))) else None
    | None => None
    end.

  (** remote part, one patch: output_particles_hdf5_impl.hxx:711-736; recv_buf_p[r] is bufs r from ptr r on *)
  Definition root_remote (bufs : Z -> list (option Z)) (st : option tables * (Z -> Z)) (info : patch_info) : option tables * (Z -> Z) :=
    let '(tab, ptr) := st in
    let r := pi_rank info in
    if r =? 0 then st else
    let ld := patch_ld (pi_ldims info) (pi_off info) in
    let ilo := patch_ilo (pi_ldims info) (pi_off info) in
    let sz := patch_sz (pi_ldims info) (pi_off info) in
    (fold_left (fun tab '(j, kind) =>
       let jj := ((kind * c2 ld + c2 j - c2 ilo) * c1 ld + c1 j - c1 ilo) * c0 ld + c0 j - c0 ilo in
       put_tables (pi_off info) tab (j, kind)
         match aget (bufs r) (ptr r + jj), aget (bufs r) (ptr r + jj + sz) with Some b, Some e => Some (b, e) | _, _ => None end)
       (cells (pi_ldims info) (pi_off info)) tab,
     fun r' => if r' =? r then ptr r' + 2 * sz else ptr r').

  (** process 0: output_particles_hdf5_impl.hxx:649-736 *)
  Definition root (pool : list (chan * list (option Z))) : option tables :=
    let w := gen3 (fun d => get3 hi d - get3 lo d) in
    let empty := repeat None (Z.to_nat (c0 w * c1 w * c2 w * nr_kinds)) in
    match local_of 0, sequence (map (get_local_patch_info dm 0) (zrange 0 (alen (mprts 0)))),
          sequence (map (get_global_patch_info dm) (zrange 0 (dm_nr_global_patches dm))) with
    | Some (_, idx), Some linfos, Some ginfos =>
        let st := fold_left root_local (combine linfos idx) (Some (empty, empty)) in
        match sequence (map (recv_buf pool ginfos) (zrange 1 size)) with
        | Some bufs => fst (fold_left (root_remote (fun r => match aget bufs (r - 1) with Some b => b | None => [] end)) ginfos (st, fun _ => 0))
        | None => None
        end
    | _, _, _ => None
    end.

  (** the data set "1d" of n_total elements, into which process r writes from n_off on:
      output_particles_hdf5_impl.hxx:373-401 *)
  Definition particle_data : option (list T) :=
    match n_before size with
    | None => None
    | Some n_total =>
        match fold_left (fun f r => match f, local_of r, n_before r with
                                    | Some f, Some (arr, _), Some n_off => copy_run f n_off arr
                                    | _, _, _ => None
                                    end) (zrange 0 size) (Some (repeat None (Z.to_nat n_total))) with
        | Some f => all_some f
        | None => None
        end
    end.

  (** the file: the particles and the two tables idx_begin and idx_end, which are written as they are
      (output_particles_hdf5_impl.hxx:318-401 and 759) *)
  Definition output (pool : list (chan * list (option Z))) : option (list T * tables) :=
    match particle_data, root pool with Some f, Some t => Some (f, t) | _, _ => None end.
End Out.

(** output_particles_hdf5_impl.hxx:411-424; int cnt_ does not overflow *)
Definition select_every_nth {P} (EVERY : Z) (cnt : Z) (prt : P) : bool * Z := (Z.rem cnt EVERY =? 0, cnt + 1).

(** output_particles_hdf5_impl.hxx:426-434 *)
Definition select_all {P} (_ : unit) (prt : P) : bool * unit := (true, tt).

(** adjust_params: output_particles_hdf5_impl.hxx:776-788, for one direction: hi, if the asserts hold *)
Definition adjust_hi (gdims lo hi : Z) : option Z :=
  let hi := if hi =? 0 then gdims else hi in
  if (0 <=? lo) && (hi <=? gdims) then Some hi else None.

(** output_particles_hdf5_impl.hxx:776-788 *)
Definition adjust_params (gdims lo hi : V3 Z) : option (V3 Z) :=
  match adjust_hi (c0 gdims) (c0 lo) (c0 hi), adjust_hi (c1 gdims) (c1 lo) (c1 hi), adjust_hi (c2 gdims) (c2 lo) (c2 hi) with
  | Some a, Some b, Some c => Some (v3 a b c)
  | _, _, _ => None
  end.
