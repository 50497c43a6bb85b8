(** Binary collisions on the GPU: the random sort of the particles by cell and the kernel that
    collides them in pairs.

    Files modelled: src/libpsc/cuda/cuda_collision.hxx, src/libpsc/cuda/cuda_mparticles_sort.hxx
    (cuda_mparticles_randomize_sort), src/libpsc/cuda/cuda_mparticles_indexer.h (validCellIndex).
    The collision of two particles itself is [BinColModel.collide] (include/binary_collision.hxx,
    which CPU and GPU share).

    [None]: an assert fails, an array is accessed outside, or a collision gives inf or nan.
    Simplified: real arithmetic; integers are unbounded (cell numbers are ints, n_cells an unsigned
    int); what is drawn is any number of ]0, 1] (cuda/rng_state.hxx:55-61), and indices into the array
    of the generators are not modelled. *)
From Coq Require Import Reals Permutation Sorted.
From Verif Require Import Base Arr RSum CollisionModel BinColModel DepositModel CudaPrtModel CudaLaunchModel.
Local Open Scope Z_scope.

(** A particle, cuda/cuda_mparticles.hxx:172-178 (DParticleCuda): position divided by the cell size,
    weight, and mass and charge of its kind with the momentum. *)
Record cuprt := mkcu { cu_x : V3 R; cu_w : R; cu_c : cprt }.

(** Its cell, cuda/cuda_mparticles_indexer.h:128-130 (__float2int_rd). *)
Definition cu_pos (x : cuprt) : V3 Z := gen3 (fun d => fint (get3 (cu_x x) d)).

(** store_momentum, cuda/cuda_mparticles.hxx:191-194: the momentum is replaced (the weight is stored
    again as it was read). *)
Definition set_u (x : cuprt) (u : V3 R) : cuprt :=
  mkcu (cu_x x) (cu_w x) (mkC (cp_m (cu_c x)) (cp_q (cu_c x)) u).

(** The particle of zeros new elements of a vector are (as in cuda/cuda_mparticles.cxx:45-55). *)
Definition cu_zero : cuprt := mkcu (v3 0 0 0)%R 0%R (mkC 0 0 (v3 0 0 0))%R.

Section Coll.
Context (g : geom).

(** n_cells, cuda/cuda_mparticles_indexer.h:94 with include/particle_indexer.hxx:71. *)
Definition n_cells : Z := c0 (g_ldims g) * c1 (g_ldims g) * c2 (g_ldims g) * g_np g.

(** n_cells_per_patch, cuda/cuda_collision.hxx:88-89. *)
Definition n_cells_per_patch : Z := c0 (g_ldims g) * c1 (g_ldims g) * c2 (g_ldims g).

(** validCellIndex on the device, cuda/cuda_mparticles_indexer.h:126-135, with its assert. *)
Definition valid_cell_index (c : V3 Z) (p : Z) : option Z :=
  if (u32 (c0 c) <? c0 (g_ldims g)) && (u32 (c1 c) <? c1 (g_ldims g)) && (u32 (c2 c) <? c2 (g_ldims g))
  then Some (((p * c2 (g_ldims g) + u32 (c2 c)) * c1 (g_ldims g) + u32 (c1 c)) * c0 (g_ldims g) + u32 (c0 c))
  else None.

(** THREADS_PER_BLOCK, cuda/cuda_mparticles_sort.hxx:26 and cuda/cuda_collision.hxx:13. *)
Definition coll_tpb : Z := 128.

(** The blocks processed by the sorting kernel, cuda/cuda_mparticles_sort.hxx:268-283 and 103-108: the
    version of BlockSimple2 is chosen by the dimension. *)
Definition sort_blocks : list blk := if g_yz g then simple2_yz_blocks g else simple2_blocks g.

(** The stores of one thread for one block, cuda/cuda_mparticles_sort.hxx:110-121: slot, key, id (the
    slot again).  [u n] is what is drawn for slot [n]. *)
Definition thread_keys (u : Z -> R) (c : cm cuprt) (b : blk) (tid : Z) : option (list (Z * (R * Z))) :=
  match aget (c_off c) (k_bid b), aget (c_off c) (k_bid b + 1) with
  | Some lo, Some hi =>
      all_some (map (fun n =>
        match aget (c_st c) n with
        | None => None
        | Some x => option_map (fun ci => (n, ((IZR ci + / 2 * u n)%R, n))) (valid_cell_index (cu_pos x) (k_p b))
        end) (in_block_loop coll_tpb lo hi tid))
  | _, _ => None
  end.

(** Those of the whole kernel k_find_random_cell_indices_ids, cuda/cuda_mparticles_sort.hxx:97-125. *)
Definition key_writes (u : Z -> R) (c : cm cuprt) : option (list (Z * (R * Z))) :=
  option_map (@concat _) (all_some (map (fun b =>
    option_map (@concat _) (all_some (map (thread_keys u c b) (zrange 0 coll_tpb)))) sort_blocks)).

(** thrust::lower_bound (thrust's own) for one value in a sorted vector, as called by
    cuda/cuda_mparticles_sort.hxx:302-303: how many elements come before the first that is not
    less. *)
Fixpoint lower_bound (l : list R) (v : R) : Z :=
  match l with
  | [] => 0
  | k :: r => if Rlt_dec k v then 1 + lower_bound r v else 0
  end.

(** find_offsets, cuda/cuda_mparticles_sort.hxx:297-305. *)
Definition find_offsets (keys : list R) : list Z :=
  map (fun q => lower_bound keys (IZR q)) (zrange 0 n_cells) ++ [alen keys].

(** thrust::sort_by_key (thrust's own), as called by cuda/cuda_mparticles_sort.hxx:286-295: it gives
    the pairs in an order in which the keys ascend; which, if keys are equal, is not said. *)
Definition sorts_to (l l' : list (R * Z)) : Prop :=
  Permutation l l' /\ StronglySorted (fun a b => (fst a <= fst b)%R) l'.

(** cuda_mparticles_randomize_sort, cuda/cuda_mparticles_sort.hxx:235-305: d_off and d_id.  The stores
    of the kernel come in any order; the vectors are of n_prts zeros at first
    (cuda/cuda_collision.hxx:66, cuda/cuda_mparticles_sort.hxx:256).  Not modelled: the return
    without patches (249-251) -- there are no particles then, and operator() has returned. *)
Definition sort_runs (c : cm cuprt) (r : option (list Z * list Z)) : Prop :=
  exists u, (forall n, 0 < u n <= 1)%R /\
  match key_writes u c with
  | None => r = None
  | Some ws => exists ws', Permutation ws ws' /\
      match run_writes ws' (repeat (0%R, 0) (Z.to_nat (c_n c))) with
      | None => r = None
      | Some kis => exists kis', sorts_to kis kis' /\ r = Some (find_offsets (map fst kis'), map snd kis')
      end
  end.

(** One passage through the loop over pairs, cuda/cuda_collision.hxx:121-137: the two slots, the
    patch of the assert and nudt1. *)
Record ctask := mkct { t_a : Z; t_b : Z; t_p : Z; t_nu : R }.

(** nudt1, cuda/cuda_collision.hxx:118-120. *)
Definition nudt_of (nudt0 : R) (k : Z) : R := (nudt0 * IZR k * IZR k / IZR (Z.ldiff k 1))%R.

(** The pairs of thread [tid] in the cell [q], cuda/cuda_collision.hxx:116-137. *)
Definition cell_tasks (nudt0 : R) (off id : list Z) (tid q : Z) : option (list ctask) :=
  match aget off q, aget off (q + 1) with
  | Some beg, Some end_ =>
      all_some (map (fun n =>
        match aget id n, aget id (n + 1) with
        | Some a, Some b => Some (mkct a b (q / n_cells_per_patch) (nudt_of nudt0 (end_ - beg)))
        | _, _ => None
        end) (strided (beg + 2 * tid) (end_ - 1) (2 * coll_tpb)))
  | _, _ => None
  end.

(** The grid of k_collide, cuda/cuda_collision.hxx:74-79. *)
Definition coll_grid : Z := if n_cells >? 1024 then 1024 else n_cells.

(** The pairs of all threads of all blocks, cuda/cuda_collision.hxx:97-99 and 115. *)
Definition coll_tasks (nudt0 : R) (off id : list Z) : option (list ctask) :=
  option_map (@concat _) (all_some (flat_map (fun b =>
    flat_map (fun tid => map (cell_tasks nudt0 off id tid) (strided b n_cells coll_grid)) (zrange 0 coll_tpb))
    (zrange 0 coll_grid))).

(** An event: the two particles of the [k]-th pair are read (cuda/cuda_collision.hxx:125-131, with
    the assert), or collided and their momenta stored (133-136). *)
Definition coll_ev (rnd : nat -> R * R) (ts : list ctask) (s : list cuprt * (nat -> option (cuprt * cuprt))) (e : event) :
  option (list cuprt * (nat -> option (cuprt * cuprt))) :=
  let '(st, reg) := s in
  match e with
  | Rd k =>
      let! t := nth_error ts k in
      let! x := aget st (t_a t) in
      let! y := aget st (t_b t) in
      let! i := valid_cell_index (cu_pos x) (t_p t) in
      let! j := valid_cell_index (cu_pos y) (t_p t) in
      if i =? j then Some (st, fun m => if Nat.eqb m k then Some (x, y) else reg m) else None
  | Wr k =>
      let! t := nth_error ts k in
      let! (x, y) := reg k in
      let! (u, v, _) := collide (cp_m (cu_c x)) (cp_m (cu_c y)) (cp_q (cu_c x)) (cp_q (cu_c y))
                          (cp_u (cu_c x)) (cp_u (cu_c y)) (t_nu t) (fst (rnd k)) (snd (rnd k)) in
      let! st := aset st (t_a t) (set_u x u) in
      let! st := aset st (t_b t) (set_u y v) in
      Some (st, reg)
  end.

(** Events one after the other, cuda/cuda_collision.hxx:121-137. *)
Fixpoint coll_evs (rnd : nat -> R * R) (ts : list ctask) (s : list cuprt * (nat -> option (cuprt * cuprt))) (l : list event) :
  option (list cuprt * (nat -> option (cuprt * cuprt))) :=
  match l with
  | [] => Some s
  | e :: l => let! s := coll_ev rnd ts s e in coll_evs rnd ts s l
  end.

(** operator(), cuda/cuda_collision.hxx:53-102: what may come of the store.  The pairs of all threads
    in any order, and one's reads at any time before its stores. *)
Definition collide_runs (nudt0 : R) (c : cm cuprt) (r : option (cm cuprt)) : Prop :=
  if c_n c =? 0 then r = Some c
  else match reorder cu_zero c with
       | None => r = None
       | Some c1 => exists rs, sort_runs c1 rs /\
           match rs with
           | None => r = None
           | Some (off, id) =>
               match coll_tasks nudt0 off id with
               | None => r = None
               | Some ts => exists rnd reg l,
                   (forall k, 0 < fst (rnd k) <= 1 /\ 0 < snd (rnd k) <= 1)%R /\ schedule (length ts) l /\
                   r = option_map (fun s => mkcm (fst s) (c_alt c1) (c_idx c1) (c_id c1) (c_off c1) (c_n c1) (c_re c1))
                         (coll_evs rnd ts (c_st c1, reg) l)
               end
           end
       end.
End Coll.
