(** How the CUDA kernels divide the work among blocks and threads, and how the currents of the
    particles get from the threads of a block, by way of shared memory, into the field. *)
From Coq Require Import Reals Permutation.
From Verif Require Import Base Arr RSum FieldModel CurrentModel CudaPrtModel.
Local Open Scope Z_scope.

(** ** Blocks *)

(** THREADS_PER_BLOCK, cuda/cuda_push_mprts_yz.cxx:20, of the push; the other kernels have their own (cuda/cuda_heating.cxx:17,
    cuda/cuda_mparticles_sort.hxx:26, cuda/cuda_moments_1st_nc.cxx:8) *)
Definition tpb : Z := 512.

(** BlockBase, cuda/cuda_mparticles_indexer.h:258-263 *)
Record blk := mkblk { k_bid : Z; k_p : Z; k_ci0 : V3 Z }.

(** the values of blockIdx for a grid, in some order; dimensions not given are 1 (CUDA's dim3 as
    used in cuda/cuda_mparticles_indexer.h:279, 316, 357, 394 and 470) *)
Definition grid_of (d : V3 Z) : list (V3 Z) :=
  flat_map (fun z => flat_map (fun y => map (fun x => v3 x y z) (zrange 0 (c0 d))) (zrange 0 (c1 d))) (zrange 0 (c2 d)).

(** ci0 of a block, cuda/cuda_mparticles_indexer.h:290-292, 331-333 *)
Definition ci0_of (g : geom) (b : V3 Z) : V3 Z := gen3 (fun d => get3 b d * get3 (g_bs g) d).

(** BlockSimple::dimGrid, cuda/cuda_mparticles_indexer.h:273-280 *)
Definition simple_grid (g : geom) : V3 Z := v3 (c0 (b_mx g)) (c1 (b_mx g)) (c2 (b_mx g) * g_np g).

(** BlockSimple::init, cuda/cuda_mparticles_indexer.h:282-296 *)
Definition simple_init (g : geom) (bi : V3 Z) : blk :=
  mkblk ((c2 bi * c1 (b_mx g) + c1 bi) * c0 (b_mx g) + c0 bi) (c2 bi / c2 (b_mx g))
        (ci0_of g (v3 (c0 bi) (c1 bi) (c2 bi mod c2 (b_mx g)))).

(** the blocks of a launch with BlockSimple, cuda/cuda_currmem.hxx:177 *)
Definition simple_blocks (g : geom) : list blk := map (simple_init g) (grid_of (simple_grid g)).

(** BlockSimple<BS, dim_yz>::dimGrid, cuda/cuda_mparticles_indexer.h:389-395 *)
Definition simple_yz_grid (g : geom) : V3 Z := v3 (c1 (b_mx g)) (c2 (b_mx g) * g_np g) 1.

(** BlockSimple<BS, dim_yz>::init, cuda/cuda_mparticles_indexer.h:397-410, with b_mx_[2] as it
    stands in 408 *)
Definition simple_yz_init (g : geom) (bi : V3 Z) : blk :=
  mkblk (c1 bi * c2 (b_mx g) + c0 bi) (c1 bi / c2 (b_mx g))
        (v3 0 (c0 bi * c1 (g_bs g)) (c1 bi mod c2 (b_mx g) * c2 (g_bs g))).

(** the blocks of a launch with BlockSimple<BS, dim_yz>, cuda/cuda_moments_1st_nc.cxx:67, 104, 141
    and 203, 238, 274 *)
Definition simple_yz_blocks (g : geom) : list blk := map (simple_yz_init g) (grid_of (simple_yz_grid g)).

(** a loop "for (i = begin; i < end; i += stride)", as in cuda/cuda_mparticles_sort.hxx:60,
    cuda/cuda_currmem.hxx:41-44 or with RangeStrided, include/range.hxx:50-94; at most [fuel]
    iterations *)
Fixpoint stride_loop (fuel : nat) (i hi st : Z) : list Z :=
  match fuel with
  | O => []
  | Datatypes.S fuel => if i <? hi then i :: stride_loop fuel (i + st) hi st else []
  end.

(** the same with enough fuel, include/range.hxx:50-94.  Simplified: no wrapping of unsigned ints *)
Definition strided (lo hi st : Z) : list Z := stride_loop (Z.to_nat (hi - lo)) lo hi st.

(** BlockSimple2::dimGrid, cuda/cuda_mparticles_indexer.h:309-317 *)
Definition simple2_grid (g : geom) : Z := Z.min (c0 (b_mx g) * c1 (b_mx g) * c2 (b_mx g) * g_np g) 1024.

(** BlockSimple2::init, cuda/cuda_mparticles_indexer.h:319-334 *)
Definition simple2_init (g : geom) (r : Z) : blk :=
  let bid := r in
  let pos0 := r mod c0 (b_mx g) in
  let r := r / c0 (b_mx g) in
  let pos1 := r mod c1 (b_mx g) in
  let r := r / c1 (b_mx g) in
  let pos2 := r mod c2 (b_mx g) in
  let r := r / c2 (b_mx g) in
  mkblk bid r (ci0_of g (v3 pos0 pos1 pos2)).

(** the blocks processed by all of a launch with BlockSimple2: "for (; bid < n_blocks; bid +=
    gridDim.x)", cuda/cuda_mparticles_sort.hxx:57-61 and 103-108, cuda/cuda_heating.cxx:68-74 *)
Definition simple2_blocks (g : geom) : list blk :=
  flat_map (fun b => map (simple2_init g) (strided b (n_blocks g) (simple2_grid g))) (zrange 0 (simple2_grid g)).

(** BlockSimple2<BS, dim_yz>::dimGrid, cuda/cuda_mparticles_indexer.h:351-358 *)
Definition simple2_yz_grid (g : geom) : Z := Z.min (c1 (b_mx g) * c2 (b_mx g) * g_np g) 1024.

(** BlockSimple2<BS, dim_yz>::init, cuda/cuda_mparticles_indexer.h:360-374 *)
Definition simple2_yz_init (g : geom) (r : Z) : blk :=
  let bid := r in
  let pos1 := r mod c1 (b_mx g) in
  let r := r / c1 (b_mx g) in
  let pos2 := r mod c2 (b_mx g) in
  let r := r / c2 (b_mx g) in
  mkblk bid r (v3 0 (pos1 * c1 (g_bs g)) (pos2 * c2 (g_bs g))).

(** the blocks processed by all of a launch with BlockSimple2<BS, dim_yz>, the same kernels *)
Definition simple2_yz_blocks (g : geom) : list blk :=
  flat_map (fun b => map (simple2_yz_init g) (strided b (n_blocks g) (simple2_yz_grid g))) (zrange 0 (simple2_yz_grid g)).

(** BlockQ<BS, dim_yz>::dimGrid, cuda/cuda_mparticles_indexer.h:465-471 *)
Definition q_grid (g : geom) : V3 Z := v3 ((c1 (b_mx g) + 1) / 2) ((c2 (b_mx g) + 1) / 2 * g_np g) 1.

(** BlockQ<BS, dim_yz>::init, cuda/cuda_mparticles_indexer.h:473-493; None where it returns false *)
Definition q_init (g : geom) (start : Z) (bi : V3 Z) : option blk :=
  let grid_dim_y := (c2 (b_mx g) + 1) / 2 in
  let pos1 := c0 bi * 2 + Z.land start 1 in
  let pos2 := c1 bi mod grid_dim_y * 2 + Z.shiftr start 1 in
  if ((pos1 >=? c1 (b_mx g)) || (pos2 >=? c2 (b_mx g)))%bool then None
  else
    let p := c1 bi / grid_dim_y in
    Some (mkblk ((p * c2 (b_mx g) + pos2) * c1 (b_mx g) + pos1) p (v3 0 (pos1 * c1 (g_bs g)) (pos2 * c2 (g_bs g)))).

(** the blocks that do something in the launch with [start], cuda/cuda_push_mprts_yz.cxx:459-462 *)
Definition q_blocks (g : geom) (start : Z) : list blk :=
  flat_map (fun bi => match q_init g start bi with Some b => [b] | None => [] end) (grid_of (q_grid g)).

(** BlockQ<BS, dim_yz>::block_starts, cuda/cuda_mparticles_indexer.h:463 *)
Definition q_starts : list Z := zrange 0 4.

(** ** The particles of a block *)

(** in_block_loop, cuda/cuda_mparticles_indexer.h:496-501, with the "if (n < block_begin) continue"
    of all its users, as cuda/cuda_push_mprts_yz.cxx:474-477; [nt] is blockDim.x *)
Definition in_block_loop (nt lo hi tid : Z) : list Z :=
  filter (fun n => negb (n <? lo)) (strided (Z.ldiff lo 31 + tid) hi nt).

(** the read of a particle, cuda/cuda_push_mprts_yz.cxx:478 (REORDER is need_reorder, 559-564) *)
Definition read_slot {P} (c : cm P) (n : Z) : option P :=
  if c_re c then match aget (c_id c) n with Some j => aget (c_st c) j | None => None end
  else aget (c_st c) n.

(** the slots a thread of a block goes through, cuda/cuda_push_mprts_yz.cxx:472-474 *)
Definition thread_slots {P} (c : cm P) (b : blk) (tid : Z) : option (list Z) :=
  match aget (c_off c) (k_bid b), aget (c_off c) (k_bid b + 1) with
  | Some lo, Some hi => Some (in_block_loop tpb lo hi tid)
  | _, _ => None
  end.

Section Deposit.
(** calc_j of a particle in a block: given the patch and ci0 *)
Context {P : Type} (calc : Z -> V3 Z -> P -> option (list entry)).

(** the adds of a thread, each with the thread's number, cuda/cuda_push_mprts_yz.cxx:474-488 *)
Definition thread_adds (c : cm P) (b : blk) (tid : Z) : option (list (Z * entry)) :=
  match thread_slots c b tid with
  | None => None
  | Some ns =>
      option_map (@concat _)
        (all_some (map (fun n => match read_slot c n with
                                 | None => None
                                 | Some x => option_map (map (fun e => (tid, e))) (calc (k_p b) (k_ci0 b) x)
                                 end) ns))
  end.

(** those of all threads of a block, cuda/cuda_push_mprts_yz.cxx:537 *)
Definition block_adds (c : cm P) (b : blk) : option (list (Z * entry)) :=
  option_map (@concat _) (all_some (map (thread_adds c b) (zrange 0 tpb))).
End Deposit.

(** ** The field *)

(** where a value of the current is: patch, component, grid point; JXI + m of the field,
    cuda/cuda_currmem.hxx:68 *)
Definition addr : Type := (Z * dim3 * V3 Z)%type.

(** the currents of all patches, cuda/cuda_currmem.hxx:53 *)
Definition jfield : Type := Z -> dim3 -> V3 Z -> R.

(** the points there are: [ibn] ghost points beyond the patch, cuda/cuda_push_mprts_yz.cxx:538 *)
Definition in_field (g : geom) (ibn : V3 Z) (a : addr) : bool :=
  let '(p, _, n) := a in
  ((0 <=? p) && (p <? g_np g) &&
   forallb (fun d => (- get3 ibn d <=? get3 n d) && (get3 n d <? get3 (g_ldims g) d + get3 ibn d)) dims3)%bool.

(** same place in the field, cuda/cuda_currmem.hxx:68 *)
Definition addr_eqb (a b : addr) : bool :=
  let '(p, m, n) := a in let '(p', m', n') := b in ((p =? p') && dim3_eqb m m' && v3_eqb n n')%bool.

(** the value at a place (operator() of Fields3d, cuda/cuda_currmem.hxx:68) *)
Definition jget (F : jfield) (a : addr) : R := let '(p, m, n) := a in F p m n.

(** a store, cuda/cuda_currmem.hxx:68 *)
Definition jset (F : jfield) (a : addr) (v : R) : jfield :=
  fun p m n => if addr_eqb a (p, m, n) then v else F p m n.

(** ** SCurr *)

(** m of JXI + m, cuda/cuda_currmem.hxx:61 *)
Definition m_no (m : dim3) : Z := match m with D0 => 0 | D1 => 1 | D2 => 2 end.

(** STRIDE_Y, cuda/cuda_currmem.hxx:22 *)
Definition stride_y (g : geom) : Z := c1 (g_bs g) + 1 + 2.

(** STRIDE_Z, cuda/cuda_currmem.hxx:23 *)
Definition stride_z (g : geom) : Z := c2 (g_bs g) + 1 + 2.

(** shared_size, cuda/cuda_currmem.hxx:25-28 *)
Definition sh_size (g : geom) : Z := 3 * stride_y g * stride_z g * 16.

(** SCurr::index, cuda/cuda_currmem.hxx:94-114 *)
Definition sh_index (g : geom) (jy jz m wid : Z) : Z := ((m * stride_z g + (jz + 1)) * stride_y g + (jy + 1)) * 16 + wid.

(** a store scurr[i] = v, cuda/cuda_currmem.hxx:44 *)
Definition sh_set (sh : Z -> R) (i : Z) (v : R) : Z -> R := fun j => if j =? i then v else sh j.

(** SCurr's constructor by all threads, cuda/cuda_currmem.hxx:38-46 *)
Definition sh_zero (g : geom) (sh : Z -> R) : Z -> R :=
  fold_left (fun sh i => sh_set sh i 0%R) (flat_map (fun tid => strided tid (sh_size g) tpb) (zrange 0 tpb)) sh.

(** SCurr::add by thread [tid], cuda/cuda_currmem.hxx:86-91 (atomicAdd); None if not within scurr.
    The place is relative to ci0 *)
Definition sh_add (g : geom) (ci0 : V3 Z) (sh : Z -> R) (te : Z * entry) : option (Z -> R) :=
  let '(tid, (m, n, v)) := te in
  let i := sh_index g (c1 n - c1 ci0) (c2 n - c2 ci0) (m_no m) (Z.land tid 15) in
  if (0 <=? i) && (i <? sh_size g) then Some (sh_set sh i (sh i + v)%R) else None.

(** adds, one after the other, cuda/cuda_currmem.hxx:90 *)
Fixpoint sh_adds (g : geom) (ci0 : V3 Z) (sh : Z -> R) (l : list (Z * entry)) : option (Z -> R) :=
  match l with
  | [] => Some sh
  | te :: l => match sh_add g ci0 sh te with Some sh => sh_adds g ci0 sh l | None => None end
  end.

(** val in SCurr::add_to_fld, cuda/cuda_currmem.hxx:63-67 *)
Definition sh_sum (g : geom) (sh : Z -> R) (jy jz m : Z) : R :=
  rsum (map (fun wid => sh (sh_index g jy jz m wid)) (zrange 0 16)).

(** what a thread is to add to the field, cuda/cuda_currmem.hxx:51-72; i is advanced in the loop
    over m (69), three times *)
Definition thread_tasks (g : geom) (b : blk) (sh : Z -> R) (tid : Z) : list (addr * R) :=
  flat_map (fun i =>
    let jz := i / stride_y g in
    let jy := i - jz * stride_y g in
    let jz := jz - 1 in
    let jy := jy - 1 in
    map (fun m => ((k_p b, m, v3 0 (jy + c1 (k_ci0 b)) (jz + c2 (k_ci0 b))), sh_sum g sh jy jz (m_no m))) dims3)
  (strided tid (stride_y g * stride_z g) (3 * tpb)).

(** the same for all threads, cuda/cuda_currmem.hxx:48-72 *)
Definition block_tasks (g : geom) (b : blk) (sh : Z -> R) : list (addr * R) :=
  flat_map (thread_tasks g b sh) (zrange 0 tpb).

(** ** Non-atomic updates of the field *)

(** the two halves of "_d_flds(...) += val" (cuda/cuda_currmem.hxx:68) of the [k]-th task *)
Inductive event := Rd (k : nat) | Wr (k : nat).

(** an event (cuda/cuda_currmem.hxx:68); beside the field, the values read so far.  None if not within the field *)
Definition exec_ev (g : geom) (ibn : V3 Z) (ts : list (addr * R)) (s : jfield * (nat -> R)) (e : event) : option (jfield * (nat -> R)) :=
  let '(F, reg) := s in
  match e with
  | Rd k => match nth_error ts k with
            | Some (a, _) => if in_field g ibn a then Some (F, fun j => if Nat.eqb j k then jget F a else reg j) else None
            | None => None
            end
  | Wr k => match nth_error ts k with
            | Some (a, v) => if in_field g ibn a then Some (jset F a (reg k + v)%R, reg) else None
            | None => None
            end
  end.

(** events one after the other, cuda/cuda_currmem.hxx:68 *)
Fixpoint exec_evs (g : geom) (ibn : V3 Z) (ts : list (addr * R)) (s : jfield * (nat -> R)) (l : list event) : option (jfield * (nat -> R)) :=
  match l with
  | [] => Some s
  | e :: l => match exec_ev g ibn ts s e with Some s => exec_evs g ibn ts s l | None => None end
  end.

(** a schedule of the updates of cuda/cuda_currmem.hxx:68: every task reads once and then writes once, otherwise any order at all *)
Definition schedule (n : nat) (l : list event) : Prop :=
  Permutation l (map Rd (seq 0 n) ++ map Wr (seq 0 n)) /\
  forall k l1 l2, l = l1 ++ Wr k :: l2 -> In (Rd k) l1.

(** ** The push *)

Section Push.
Context {P : Type} (calc : Z -> V3 Z -> P -> option (list entry)) (g : geom) (ibn : V3 Z) (c : cm P).

(** what the threads of a block may come to want to add to the field: the shared memory starts
    with anything in it, and the atomic adds come in any order, cuda/cuda_push_mprts_yz.cxx:468-490 *)
Definition block_runs (b : blk) (r : option (list (addr * R))) : Prop :=
  match block_adds calc c b with
  | None => r = None
  | Some adds => exists sh l, Permutation l adds /\
      r = option_map (block_tasks g b) (sh_adds g (k_ci0 b) (sh_zero g sh) l)
  end.

(** a launch of the kernel: what comes of the field, None if a wrong place is accessed;
    cuda/cuda_push_mprts_yz.cxx:537-539.  Updates of all blocks in any order *)
Definition launch_runs (start : Z) (F : jfield) (r : option jfield) : Prop :=
  exists rs, Forall2 block_runs (q_blocks g start) rs /\
    match all_some rs with
    | None => r = None
    | Some tss => exists reg l, schedule (length (concat tss)) l /\
        r = option_map fst (exec_evs g ibn (concat tss) (F, reg) l)
    end.

(** launches one after the other, cuda/cuda_push_mprts_yz.cxx:536-540 *)
Fixpoint launches_run (starts : list Z) (F : jfield) (r : option jfield) : Prop :=
  match starts with
  | [] => r = Some F
  | s :: starts => exists r1, launch_runs s F r1 /\
      match r1 with None => r = None | Some F1 => launches_run starts F1 r end
  end.

(** zero_currents, cuda/cuda_push_mprts_yz.cxx:509-513.  Simplified: of all patches alike *)
Definition zero_currents (F : jfield) : jfield := fun _ _ _ => 0%R.

(** push_mprts and push_mprts_ab with CurrmemShared, cuda/cuda_push_mprts_yz.cxx:518-565: the
    current *)
Definition push_runs (F : jfield) (r : option jfield) : Prop :=
  if c_n c =? 0 then r = Some F else launches_run q_starts (zero_currents F) r.

(** GCurr::add, cuda/cuda_currmem.hxx:141-153 (atomicAdd) *)
Definition g_add (p : Z) (F : jfield) (e : entry) : option jfield :=
  let '(m, n, v) := e in
  if in_field g ibn (p, m, n) then Some (jset F (p, m, n) (F p m n + v)%R) else None.

(** adds of the blocks one after the other, cuda/cuda_currmem.hxx:145 and 152 *)
Fixpoint g_adds (F : jfield) (l : list (Z * entry)) : option jfield :=
  match l with
  | [] => Some F
  | pe :: l => match g_add (fst pe) F (snd pe) with Some F => g_adds F l | None => None end
  end.

(** the adds of all blocks of a launch with BlockSimple, each with the patch,
    cuda/cuda_push_mprts_yz.cxx:537 *)
Definition launch_adds : option (list (Z * entry)) :=
  option_map (@concat _) (all_some (map (fun b =>
    option_map (map (fun te => (k_p b, snd te))) (block_adds calc c b)) (simple_blocks g))).

(** push_mprts with CurrmemGlobal, cuda/cuda_push_mprts_yz.cxx:518-565: the current; atomic adds
    in any order *)
Definition push_global_runs (F : jfield) (r : option jfield) : Prop :=
  if c_n c =? 0 then r = Some F
  else match launch_adds with
       | None => r = None
       | Some adds => exists l, Permutation l adds /\ r = g_adds (zero_currents F) l
       end.
End Push.
