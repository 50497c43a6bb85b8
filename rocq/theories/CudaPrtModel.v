(** Model of the particle store of the CUDA implementation and of the way
    particles pass through the boundary exchange there.

    Files modelled: src/libpsc/cuda/cuda_mparticles_indexer.h,
    cuda_mparticles_sort.hxx (sorting by block), cuda_mparticles.cxx,
    cuda_mparticles_base.cxx, cuda_mparticles.hxx, cuda_bndp.h and cuda_bndp.cxx
    (the code that is compiled: CUDA_BNDP_DIM_YZ_SPECIAL is nowhere defined), and
    of cuda_push_mprts_yz.cxx which particle is read, where it is written and
    which block index it is given.  What the push does to a particle is a
    parameter.

    A kernel is modelled by the list of its stores; every store reads only
    arrays the kernel does not write (or, in the push without reordering, the
    slot the same thread writes).  [None]: an assert fails or an array is
    accessed outside.  Integers are unbounded, except where the code turns a
    negative int to unsigned. *)
From Coq Require Import Permutation.
From Verif Require Import Base Arr.
Local Open Scope Z_scope.

(** ** Lists used as thrust vectors *)

(** thrust::device_vector::resize (thrust's own): keep the first elements, fill up
    with default ones.  Used e.g. by cuda_mparticles.cxx:45-55 and
    cuda_mparticles.hxx:149-170. *)
Definition vresize {A} (d : A) (n : Z) (l : list A) : list A :=
  firstn (Z.to_nat n) l ++ repeat d (Z.to_nat n - length l).

(** The stores of a kernel done one after the other, e.g. those of k_reorder
    (cuda_mparticles.cxx:191-201). *)
Fixpoint run_writes {A} (ws : list (Z * A)) (l : list A) : option (list A) :=
  match ws with
  | [] => Some l
  | (i, x) :: r => match aset l i x with Some l' => run_writes r l' | None => None end
  end.

(** thrust::stable_sort_by_key (thrust's own) as called by
    cuda_mparticles_sort.hxx:342-350 and cuda_bndp.cxx:343-350: one pair put into a
    sorted list, before those with the same key. *)
Fixpoint insert_by_key {A} (x : Z * A) (l : list (Z * A)) : list (Z * A) :=
  match l with
  | [] => [x]
  | y :: r => if fst x <=? fst y then x :: y :: r else y :: insert_by_key x r
  end.

(** thrust::stable_sort_by_key (thrust's own) as called by
    cuda_mparticles_sort.hxx:342-350 and cuda_bndp.cxx:343-350. *)
Definition sort_by_key {A} (l : list (Z * A)) : list (Z * A) :=
  fold_right insert_by_key [] l.

(** thrust::upper_bound (thrust's own) for one value in a sorted vector, as called
    by cuda_bndp.cxx:363-365: how many elements come before the first greater
    one. *)
Fixpoint upper_bound (l : list Z) (b : Z) : Z :=
  match l with
  | [] => 0
  | k :: r => if k <=? b then 1 + upper_bound r b else 0
  end.

(** ** Blocks *)

(** What cuda_mparticles_indexer knows of the grid (cuda_mparticles_indexer.h:35-47
    and 96-100): block size, cells per patch, number of patches on the process,
    and whether this is the 2-d version (dim_yz, with one cell along x). *)
Record geom := mkgeom { g_bs : V3 Z; g_ldims : V3 Z; g_np : Z; g_yz : bool }.

(** cuda_mparticles_indexer.h:37-43: b_mx_, the number of blocks along each
    direction. *)
Definition b_mx (g : geom) : V3 Z :=
  v3 (if g_yz g then 1 else c0 (g_ldims g) / c0 (g_bs g))
     (c1 (g_ldims g) / c1 (g_bs g)) (c2 (g_ldims g) / c2 (g_bs g)).

(** cuda_mparticles_indexer.h:45. *)
Definition n_blocks_per_patch (g : geom) : Z := c0 (b_mx g) * c1 (b_mx g) * c2 (b_mx g).

(** cuda_mparticles_indexer.h:46. *)
Definition n_blocks (g : geom) : Z := g_np g * n_blocks_per_patch g.

(** C's conversion of an int to unsigned int, used in
    cuda_mparticles_indexer.h:53-60, 74-75, 159-160 and 169-181. *)
Definition u32 (z : Z) : Z := z mod 2 ^ 32.

(** cuda_mparticles_indexer.h:79: the index of a block. *)
Definition block_number (g : geom) (b : V3 Z) (p : Z) : Z :=
  ((p * c2 (b_mx g) + c2 b) * c1 (b_mx g) + c1 b) * c0 (b_mx g) + c0 b.

(** cuda_mparticles_indexer.h:53-80 (blockPosition and blockIndex on the host) of
    the cell position [c].  pos[d] /= BS::d::value divides unsigned. *)
Definition block_index (g : geom) (c : V3 Z) (p : Z) : Z :=
  let b := gen3 (fun d => u32 (get3 c d) / get3 (g_bs g) d) in
  if (c0 (b_mx g) <=? c0 b) || (c1 (b_mx g) <=? c1 b) || (c2 (b_mx g) <=? c2 b) then -1
  else block_number g b p.

(** cuda_mparticles_indexer.h:146-155: validBlockIndex on the device, with its
    asserts. *)
Definition valid_block_index (g : geom) (b : V3 Z) (p : Z) : option Z :=
  if ((0 <=? c0 b) && (c0 b <? c0 (b_mx g))) && ((0 <=? c1 b) && (c1 b <? c1 (b_mx g)))
     && ((0 <=? c2 b) && (c2 b <? c2 (b_mx g)))
  then Some (block_number g b p) else None.

(** cuda_mparticles_indexer.h:137-144: blockIndex on the device.  The unsigned
    quotient of a negative position is beyond every number of blocks and stays so
    when made an int (a cell of -1 along a direction with blocks of one cell gives
    -1; the assert fails as well). *)
Definition dev_block_index (g : geom) (c : V3 Z) (p : Z) : option Z :=
  valid_block_index g (gen3 (fun d => u32 (get3 c d) / get3 (g_bs g) d)) p.

(** cuda_mparticles_indexer.h:157-167: blockIndexFromCellPosition. *)
Definition block_from_cell (g : geom) (c : V3 Z) (p : Z) : option Z :=
  if (c0 (g_ldims g) <=? u32 (c0 c)) || (c1 (g_ldims g) <=? u32 (c1 c))
     || (c2 (g_ldims g) <=? u32 (c2 c))
  then Some (n_blocks g + p)
  else valid_block_index g (gen3 (fun d => get3 c d / get3 (g_bs g) d)) p.

(** cuda_mparticles_indexer.h:169-181: blockNoShift (the 2-d version). *)
Definition block_no_shift (g : geom) (c : V3 Z) (p : Z) : Z :=
  let by_ := u32 (c1 c) / c1 (g_bs g) in
  let bz := u32 (c2 c) / c2 (g_bs g) in
  if (c1 (b_mx g) <=? by_) || (c2 (b_mx g) <=? bz) then n_blocks g + p
  else (p * c2 (b_mx g) + bz) * c1 (b_mx g) + by_.

(** The block index a pushed particle is given: cuda_push_mprts_yz.cxx:290 in 2-d,
    :447 in 3-d. *)
Definition pushed_index (g : geom) (c : V3 Z) (p : Z) : option Z :=
  if g_yz g then Some (block_no_shift g c p) else block_from_cell g c p.

(** ** The store *)

Section Store.

(** [P]: what is stored of a particle (two float4, cuda_mparticles.hxx:172-194);
    [cpos] its cell position, the floor of x * dxi (particle_indexer.hxx:74-83,
    __float2int_rd on the device); [dP] the particle of zeros new elements of a
    vector are; [moved] what checkInPatchMod does to the position of a particle
    outside its patch (particle_indexer.hxx:132-149). *)
Context {P : Type} (cpos : P -> V3 Z) (dP : P) (moved : P -> P) (g : geom).

(** cuda_mparticles.hxx:239-246 and 310-317, cuda_mparticles_sort.hxx:375-380: the
    data of cuda_mparticles. *)
Record cm := mkcm {
  c_st : list P;      (* storage *)
  c_alt : list P;     (* alt_storage *)
  c_idx : list Z;     (* by_block_.d_idx *)
  c_id : list Z;      (* by_block_.d_id *)
  c_off : list Z;     (* by_block_.d_off *)
  c_n : Z;            (* n_prts *)
  c_re : bool         (* need_reorder *)
}.

(** cuda_mparticles.cxx:21-30 with cuda_mparticles_sort.hxx:318-321: a new store. *)
Definition fresh : cm :=
  mkcm [] [] [] [] (repeat 0 (Z.to_nat (n_blocks g + 1))) 0 false.

(** cuda_mparticles.hxx:232-237 and cuda_mparticles_sort.hxx:373: clear. *)
Definition clear (c : cm) : cm :=
  mkcm [] (c_alt c) (c_idx c) (c_id c) (repeat 0 (length (c_off c))) 0 (c_re c).

(** cuda_mparticles.cxx:45-55: resize. *)
Definition resize (c : cm) (n : Z) : cm :=
  mkcm (vresize dP n (c_st c)) (c_alt c) (vresize 0 n (c_idx c)) (vresize 0 n (c_id c))
       (c_off c) (c_n c) (c_re c).

(** cuda_mparticles.cxx:116-121: swap_alt. *)
Definition swap_alt (c : cm) : cm :=
  mkcm (c_alt c) (c_st c) (c_idx c) (c_id c) (c_off c) (c_n c) (c_re c).

(** cuda_mparticles.cxx:191-201: the stores of k_reorder. *)
Definition reorder_writes (alt : list P) (id : list Z) (n : Z) : option (list (Z * P)) :=
  all_some (map (fun i => match aget id i with
                          | Some j => option_map (fun x => (i, x)) (aget alt j)
                          | None => None end) (zrange 0 n)).

(** cuda_mparticles.cxx:220-235: reorder(d_id), with d_id the store's own (the only
    use on this path: 213). *)
Definition reorder_by_id (c : cm) : option cm :=
  if c_n c =? 0 then Some c
  else
    let c := resize (swap_alt c) (c_n c) in
    match reorder_writes (c_alt c) (c_id c) (c_n c) with
    | Some ws =>
        match run_writes ws (c_st c) with
        | Some st => Some (mkcm st (c_alt c) (c_idx c) (c_id c) (c_off c) (c_n c) (c_re c))
        | None => None
        end
    | None => None
    end.

(** cuda_mparticles.cxx:206-215: reorder. *)
Definition reorder (c : cm) : option cm :=
  if c_re c then
    option_map (fun c => mkcm (c_st c) (c_alt c) (c_idx c) (c_id c) (c_off c) (c_n c) false)
      (reorder_by_id c)
  else Some c.

(** cuda_mparticles_sort.hxx:129-146: the stores of k_find_block_indices_ids into
    d_bidx, all patches. *)
Definition find_idx_writes (st : list P) (off : list Z) : option (list (Z * Z)) :=
  all_some (flat_map (fun p =>
    match aget off (p * n_blocks_per_patch g), aget off ((p + 1) * n_blocks_per_patch g) with
    | Some lo, Some hi =>
        map (fun n => match aget st (n + lo) with
                      | Some x => option_map (fun b => (n + lo, b)) (dev_block_index g (cpos x) p)
                      | None => None end) (zrange 0 (hi - lo))
    | _, _ => [None]
    end) (zrange 0 (g_np g))).

(** cuda_mparticles_sort.hxx:328-340 with 148-182: find_indices_ids.  d_id[n] = n is
    stored by the same kernel at the same places. *)
Definition find_indices_ids (c : cm) : option cm :=
  match find_idx_writes (c_st c) (c_off c) with
  | Some ws =>
      match run_writes ws (vresize 0 (c_n c) (c_idx c)),
            run_writes (map (fun w => (fst w, fst w)) ws) (vresize 0 (c_n c) (c_id c)) with
      | Some idx, Some id => Some (mkcm (c_st c) (c_alt c) idx id (c_off c) (c_n c) (c_re c))
      | _, _ => None
      end
  | None => None
  end.

(** cuda_mparticles_sort.hxx:342-350: stable_sort. *)
Definition stable_sort (c : cm) : cm :=
  let l := sort_by_key (combine (c_idx c) (c_id c)) in
  mkcm (c_st c) (c_alt c) (map fst l) (map snd l) (c_off c) (c_n c) (c_re c).

(** cuda_mparticles.cxx:128-157: the stores of k_reorder_and_offsets into d_off. *)
Definition offset_writes (idx : list Z) (n : Z) : option (list (Z * Z)) :=
  option_map (@concat (Z * Z)) (all_some (map (fun i =>
    match (if i <? n then aget idx i else Some (n_blocks g)),
          (if 0 <? i then aget idx (i - 1) else Some (-1)) with
    | Some block, Some prev => Some (map (fun b => (b, i)) (zrange (prev + 1) (block + 1)))
    | _, _ => None
    end) (zrange 0 (n + 1)))).

(** cuda_mparticles.cxx:162-186: reorder_and_offsets with the store's own d_idx,
    d_id, d_off (cuda_mparticles_sort.hxx:367-371). *)
Definition reorder_and_offsets (c : cm) : option cm :=
  if g_np g =? 0 then Some c
  else
    let c := resize (swap_alt c) (c_n c) in
    match reorder_writes (c_alt c) (c_id c) (c_n c), offset_writes (c_idx c) (c_n c) with
    | Some ws, Some wo =>
        match run_writes ws (c_st c), run_writes wo (c_off c) with
        | Some st, Some off => Some (mkcm st (c_alt c) (c_idx c) (c_id c) off (c_n c) false)
        | _, _ => None
        end
    | _, _ => None
    end.

(** particle_indexer.hxx:101-112 and 131-150: is the cell position in the patch. *)
Definition in_patch (x : P) : bool :=
  forallb (fun d => (0 <=? get3 (cpos x) d) && (get3 (cpos x) d <? get3 (g_ldims g) d)) dims3.

(** particle_indexer.hxx:132-149: checkInPatchMod; the particle as it is left.
    Simplified: the code goes direction by direction. *)
Definition check_in_patch_mod (x : P) : option P :=
  if in_patch x then Some x else if in_patch (moved x) then Some (moved x) else None.

(** cuda_mparticles.cxx:280-319: inject_initial. *)
Definition inject_initial (c : cm) (bufs : list (list P)) : option cm :=
  if negb (alen (c_st c) =? 0) || negb (c_n c =? 0) then None
  else if negb (forallb (fun p =>
      match aget (c_off c) (p * n_blocks_per_patch g),
            aget (c_off c) ((p + 1) * n_blocks_per_patch g) with
      | Some a, Some b => (a =? 0) && (b =? 0) | _, _ => false end) (zrange 0 (g_np g))) then None
  else
    match all_some (map check_in_patch_mod (concat bufs)) with
    | Some st =>
        let off p := alen (concat (firstn (Z.to_nat p) bufs)) in
        let ws := flat_map (fun p => [(p * n_blocks_per_patch g, off p);
                                      ((p + 1) * n_blocks_per_patch g, off (p + 1))])
                           (zrange 0 (g_np g)) in
        match run_writes ws (c_off c) with
        | Some o =>
            let c := resize c (alen st) in
            Some (mkcm st (c_alt c) (c_idx c) (c_id c) o (alen st) (c_re c))
        | None => None
        end
    | None => None
    end.

(** cuda_mparticles.cxx:240-262: setup_internals. *)
Definition setup_internals (c : cm) : option cm :=
  match find_indices_ids c with
  | Some c => reorder_and_offsets (stable_sort c)
  | None => None
  end.

(** cuda_mparticles.cxx:349-361: the host's loop of inject: each new particle with
    its block index, asserted to be one. *)
Definition host_indices (bufs : list (list P)) : option (list (Z * P)) :=
  all_some (flat_map (fun p =>
    match aget bufs p with
    | Some l => map (fun x => let b := block_index g (cpos x) p in
                       if (0 <=? b) && (b <? n_blocks g) then Some (b, x) else None) l
    | None => [None]
    end) (zrange 0 (g_np g))).

(** cuda_mparticles.cxx:324-393: inject.  [bufs]: the buffer cut by
    buf_n_by_patch. *)
Definition inject (c : cm) (bufs : list (list P)) : option cm :=
  if c_n c =? 0 then
    match inject_initial c bufs with Some c => setup_internals c | None => None end
  else
    match host_indices bufs with
    | Some new =>
        match (if c_re c then reorder c else Some c) with
        | Some c =>
            match find_indices_ids c with
            | Some c =>
                let n := c_n c in
                let m := n + alen new in
                let c := resize c m in
                let st := firstn (Z.to_nat n) (c_st c) ++ map snd new in
                let idx := firstn (Z.to_nat n) (c_idx c) ++ map fst new in
                reorder_and_offsets (stable_sort
                  (mkcm st (c_alt c) idx (zrange 0 m) (c_off c) m (c_re c)))
            | None => None
            end
        | None => None
        end
    | None => None
    end.

(** cuda_mparticles.cxx:419-437: get_particles; the store as it is left and the
    particles. *)
Definition get_particles (c : cm) : option (cm * list P) :=
  match reorder c with
  | Some c => if alen (c_st c) =? c_n c then Some (c, c_st c) else None
  | None => None
  end.

(** cuda_mparticles.cxx:398-407: get_offsets. *)
Definition get_offsets (c : cm) : option (list Z) :=
  all_some (map (fun p => aget (c_off c) (p * n_blocks_per_patch g)) (zrange 0 (g_np g + 1))).

(** cuda_push_mprts_yz.cxx:472-488 over all blocks (which thread does which
    particle is the matter of CudaLaunchModel): for each block [bid] and each [n]
    in it, the slot and the pushed particle with the patch of the block.  [f]: what
    push_part_one and calc_j do to the particle. *)
Definition push_reads (f : Z -> P -> P) (c : cm) : option (list (Z * (P * Z))) :=
  all_some (flat_map (fun bid =>
    match aget (c_off c) bid, aget (c_off c) (bid + 1) with
    | Some lo, Some hi =>
        map (fun n =>
          match (if c_re c then aget (c_id c) n else Some n) with
          | Some i =>
              match aget (c_st c) i with
              | Some x =>
                  let p := bid / n_blocks_per_patch g in
                  let y := f p x in
                  option_map (fun b => (n, (y, b))) (pushed_index g (cpos y) p)
              | None => None
              end
          | None => None
          end) (zrange lo hi)
    | _, _ => [None]
    end) (zrange 0 (n_blocks g))).

(** cuda_push_mprts_yz.cxx:518-565: push_mprts. *)
Definition push_mprts (f : Z -> P -> P) (c : cm) : option cm :=
  if c_n c =? 0 then Some c
  else
    match push_reads f c with
    | Some ws =>
        let wp := map (fun w => (fst w, fst (snd w))) ws in
        let wi := map (fun w => (fst w, snd (snd w))) ws in
        if c_re c then
          match run_writes wp (vresize dP (c_n c) (c_alt c)),
                run_writes wi (vresize 0 (c_n c) (c_idx c)) with
          | Some a, Some idx => Some (mkcm a (c_st c) idx (c_id c) (c_off c) (c_n c) false)
          | _, _ => None
          end
        else
          match run_writes wp (c_st c), run_writes wi (c_idx c) with
          | Some st, Some idx => Some (mkcm st (c_alt c) idx (c_id c) (c_off c) (c_n c) false)
          | _, _ => None
          end
    | None => None
    end.

(** cuda_bndp.h:41-79 and 89-117: prep.  The particles marked as outside are
    appended to the vectors (thrust::copy_if keeps their order), then put into the
    buffers of their patches. *)
Definition prep (c : cm) : option (list (list P) * cm) :=
  let sz := alen (c_idx c) in
  if negb (alen (c_st c) =? sz) || negb (c_n c =? sz) then None
  else
    let oob := filter (fun w => n_blocks g <=? fst w) (combine (c_idx c) (c_st c)) in
    let c' := mkcm (c_st c ++ map snd oob) (c_alt c) (c_idx c ++ map fst oob)
                   (c_id c) (c_off c) (c_n c) (c_re c) in
    if forallb (fun w => (0 <=? fst w - n_blocks g) && (fst w - n_blocks g <? g_np g)) oob then
      Some (map (fun p => map snd (filter (fun w => fst w - n_blocks g =? p) oob))
                (zrange 0 (g_np g)), c')
    else None.

(** cuda_bndp.cxx:279-331: convert_and_copy_to_dev: the received particles with
    their block indices.  [h_bnd[n + off]] is a copy, so what checkInPatchMod does
    to it is lost; only its assert matters. *)
Definition received (bufs : list (list P)) : option (list (Z * P)) :=
  all_some (flat_map (fun p =>
    match aget bufs p with
    | Some l => map (fun x =>
        match check_in_patch_mod x with
        | Some _ =>
            let b := u32 (block_index g (cpos x) p) in
            if b <? n_blocks g then Some (b, x) else None
        | None => None
        end) l
    | None => [None]
    end) (zrange 0 (g_np g))).

(** cuda_bndp.cxx:333-369: post. *)
Definition post (c : cm) (bufs : list (list P)) : option cm :=
  let n_send := alen (c_idx c) - c_n c in
  match received bufs with
  | Some new =>
      let n := c_n c in
      let m := n + alen new in
      let c := resize c m in
      let st := firstn (Z.to_nat n) (c_st c) ++ map snd new in
      let idx := firstn (Z.to_nat n) (c_idx c) ++ map fst new in
      let c := stable_sort (mkcm st (c_alt c) idx (zrange 0 m) (c_off c) m (c_re c)) in
      let off := map (fun b => (b + 1, upper_bound (c_idx c) b)) (zrange 0 (n_blocks g)) in
      match run_writes off (c_off c) with
      | Some o => Some (mkcm (c_st c) (c_alt c) (c_idx c) (c_id c) o (m - n_send) true)
      | None => None
      end
  | None => None
  end.

End Store.

Arguments cm : clear implicits.
Arguments mkcm {P}.

(** ** Currents *)

(** cuda_push_mprts_yz.cxx:506-546 and 551-565: what a push makes of one value of
    the current that was [old]; [n]: the number of particles of the process, [dep]:
    what they add to that value.  Integers stand for the values. *)
Definition push_current (n old : Z) (dep : list Z) : Z :=
  if n =? 0 then old else fold_left Z.add dep 0.

(** psc.hxx:389 and 417-418: the value after push and add_ghosts, [nb]: what the
    ghost points of other patches bring. *)
Definition step_current (old : Z) (s : Z * list Z * Z) : Z :=
  let '(n, dep, nb) := s in push_current n old dep + nb.
