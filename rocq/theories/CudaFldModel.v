(** The push of the particles on the GPU: the fields are copied to a cache in shared memory, from which
    they are interpolated to the particles of a block.

    Files modelled: src/libpsc/cuda/cuda_fld_cache.hxx, and of src/libpsc/cuda/cuda_push_mprts_yz.cxx what
    happens to the particles (push_part_one, push_mprts, push_mprts_ab and, of calc_j, what moves the
    particle).  The current is the matter of CudaCurrModel and CudaLaunchModel.  Interpolation and push
    themselves are InterpModel and PushModel (include/interpolate.hxx, include/pushp.hxx: the GPU
    uses the same code).

    [None]: an assert fails, an array is accessed outside, or there is no such kind.  Simplified: real
    arithmetic, int is Z except where CudaPrtModel says otherwise; a particle's position and momentum are
    stored by one thread at two times, here at one. *)
From Coq Require Import Reals Permutation.
From Verif Require Import Base Arr FieldModel DepositModel InterpModel PushModel MomentModel CudaPrtModel CudaLaunchModel CudaMomModel.
Local Open Scope Z_scope.

(** A field of all patches of the process: patch, E or H, component, grid point (mflds_gt,
    cuda/cuda_push_mprts_yz.cxx:456). *)
Definition emfield : Type := Z -> qty -> dim3 -> V3 Z -> R.

(** The components from EX to HZ, include/psc.h:26-38, in their order. *)
Definition em_comps : list (qty * dim3) := [(QE, D0); (QE, D1); (QE, D2); (QH, D0); (QH, D1); (QH, D2)].

(** m - EX, cuda/cuda_fld_cache.hxx:82 and 167 (include/psc.h:26-38). *)
Definition comp_no (m : qty) (c : dim3) : Z :=
  match m with QH => 3 | _ => 0 end + match c with D0 => 0 | D1 => 1 | D2 => 2 end.

Section Push.
Context (g : geom) (ibn : V3 Z) (F : emfield).

(** _d_flds(m, i, j, k), cuda/cuda_fld_cache.hxx:35, 55 and 121, 141: the field has ibn points beyond the
    patch on either side. *)
Definition em_read (p : Z) (m : qty) (c : dim3) (n : V3 Z) : option R :=
  if (0 <=? p) && (p <? g_np g) && forallb (fun d => (- get3 ibn d <=? get3 n d) && (get3 n d <? get3 (g_ldims g) d + get3 ibn d)) dims3
  then Some (F p m c n) else None.

(** The size of data_, cuda/cuda_fld_cache.hxx:88 and 170. *)
Definition fc_size : Z :=
  if g_yz g then 6 * 1 * (c1 (g_bs g) + 4) * (c2 (g_bs g) + 4)
  else 6 * (c0 (g_bs g) + 4) * (c1 (g_bs g) + 4) * (c2 (g_bs g) + 4).

(** off_, cuda/cuda_fld_cache.hxx:25-27 and 115. *)
Definition fc_off (ci0 : V3 Z) : Z :=
  if g_yz g then - (c2 ci0 - 2) * (c1 (g_bs g) + 4) + - (c1 ci0 - 2)
  else (- (c2 ci0 - 2) * (c1 (g_bs g) + 4) + - (c1 ci0 - 2)) * (c0 (g_bs g) + 4) + - (c0 ci0 - 2).

(** index, cuda/cuda_fld_cache.hxx:72-86 and 159-168. *)
Definition fc_index (ci0 : V3 Z) (m : qty) (c : dim3) (n : V3 Z) : Z :=
  if g_yz g then ((comp_no m c * (c2 (g_bs g) + 4) + c2 n) * (c1 (g_bs g) + 4) + c1 n) + fc_off ci0
  else ((comp_no m c * (c2 (g_bs g) + 4) + c2 n) * (c1 (g_bs g) + 4) + c1 n) * (c0 (g_bs g) + 4) + c0 n + fc_off ci0.

(** n, cuda/cuda_fld_cache.hxx:36 and 123. *)
Definition fc_n : Z :=
  if g_yz g then c0 (g_bs g) * (c1 (g_bs g) + 4) * (c2 (g_bs g) + 4)
  else (c0 (g_bs g) + 4) * (c1 (g_bs g) + 4) * (c2 (g_bs g) + 4).

(** The grid point for ti, cuda/cuda_fld_cache.hxx:38-43, 54-55 and 125-128, 140-141. *)
Definition fc_point (ci0 : V3 Z) (ti : Z) : V3 Z :=
  if g_yz g then
    let jy := ti mod (c1 (g_bs g) + 4) - 2 in
    let jz := ti / (c1 (g_bs g) + 4) mod (c2 (g_bs g) + 4) - 2 in
    v3 0 (jy + c1 ci0) (jz + c2 ci0)
  else
    let jx := ti mod (c0 (g_bs g) + 4) - 2 in
    let tmp := ti / (c0 (g_bs g) + 4) in
    let jy := tmp mod (c1 (g_bs g) + 4) - 2 in
    let jz := tmp / (c1 (g_bs g) + 4) mod (c2 (g_bs g) + 4) - 2 in
    v3 (jx + c0 ci0) (jy + c1 ci0) (jz + c2 ci0).

(** The stores of thread [tid] to the cache, cuda/cuda_fld_cache.hxx:37-57 and 122-144. *)
Definition thread_loads (b : blk) (tid : Z) : option (list (Z * R)) :=
  all_some (flat_map (fun ti => let n := fc_point (k_ci0 b) ti in
    map (fun e => option_map (pair (fc_index (k_ci0 b) (fst e) (snd e) n)) (em_read (k_p b) (fst e) (snd e) n)) em_comps)
    (strided tid fc_n tpb)).

(** load, cuda/cuda_fld_cache.hxx:23-58 and 113-145, up to __syncthreads()
    (cuda/cuda_push_mprts_yz.cxx:465-470): what may be in the cache.  Shared memory holds anything at first; the
    stores of all threads come in any order. *)
Definition load_runs (b : blk) (r : option (list R)) : Prop :=
  match option_map (@concat _) (all_some (map (thread_loads b) (zrange 0 tpb))) with
  | None => r = None
  | Some ws => exists data ws', alen data = fc_size /\ Permutation ws ws' /\ r = run_writes ws' data
  end.

(** operator(), cuda/cuda_fld_cache.hxx:60-63 and 147-150. *)
Definition fc_read (data : list R) (ci0 : V3 Z) (m : qty) (c : dim3) (n : V3 Z) : option R := aget data (fc_index ci0 m c n).

(** The points read by ex, ey, ez, hx, hy, hz of the first order scheme that conserves energy, for
    dim_xyz (include/interpolate.hxx:145-191) and dim_yz (250-286); [l] is where the coefficients start. *)
Definition ec_points (l : V3 Z) (m : qty) (c : dim3) : list (V3 Z) :=
  let '(v3 lx ly lz) := l in
  if g_yz g then
    match m, c with
    | QE, D0 => [v3 0 ly lz; v3 0 (ly + 1) lz; v3 0 ly (lz + 1); v3 0 (ly + 1) (lz + 1)]
    | QE, D1 => [v3 0 ly lz; v3 0 ly (lz + 1)]
    | QE, D2 => [v3 0 ly lz; v3 0 (ly + 1) lz]
    | _, D0 => [v3 0 ly lz]
    | _, D1 => [v3 0 ly lz; v3 0 (ly + 1) lz]
    | _, D2 => [v3 0 ly lz; v3 0 ly (lz + 1)]
    end
  else
    match m, c with
    | QE, D0 => [v3 lx ly lz; v3 lx (ly + 1) lz; v3 lx ly (lz + 1); v3 lx (ly + 1) (lz + 1)]
    | QE, D1 => [v3 lx ly lz; v3 lx ly (lz + 1); v3 (lx + 1) ly lz; v3 (lx + 1) ly (lz + 1)]
    | QE, D2 => [v3 lx ly lz; v3 (lx + 1) ly lz; v3 lx (ly + 1) lz; v3 (lx + 1) (ly + 1) lz]
    | _, D0 => [v3 lx ly lz; v3 (lx + 1) ly lz]
    | _, D1 => [v3 lx ly lz; v3 lx (ly + 1) lz]
    | _, D2 => [v3 lx ly lz; v3 lx ly (lz + 1)]
    end.

(** The dimension, and with it the version of the code (cuda/cuda_push_mprts_yz.cxx:567-570: those there
    are). *)
Definition cu_dim : dim_t := if g_yz g then dim_yz else dim_xyz.

(** ip.ex(fld_cache) etc., cuda/cuda_push_mprts_yz.cxx:78-79: [None] if one of the points is not in the
    cache's memory, else the value of the interpolation. *)
Definition cu_ip (data : list R) (ci0 : V3 Z) (xm : V3 R) (m : qty) (c : dim3) : option R :=
  match all_some (map (fc_read data ci0 m c) (ec_points (gen3 (fun d => fint (get3 xm d))) m c)) with
  | None => None
  | Some _ => interp ip_1st_ec cu_dim xm (fun m c n => match fc_read data ci0 m c n with Some v => v | None => 0%R end) m c
  end.

(** All three components of E or H, cuda/cuda_push_mprts_yz.cxx:78-79. *)
Definition cu_ip3 (data : list R) (ci0 : V3 Z) (xm : V3 R) (m : qty) : option (V3 R) :=
  match cu_ip data ci0 xm m D0, cu_ip data ci0 xm m D1, cu_ip data ci0 xm m D2 with
  | Some a, Some b, Some c => Some (v3 a b c)
  | _, _, _ => None
  end.

Context (dx : V3 R) (dt eta : R) (ks : list kind).

(** dxi_, cuda/cuda_mparticles_indexer.h:121 and include/particle_indexer.hxx:69. *)
Definition fl_dxi : V3 R := gen3 (fun d => 1 / get3 dx d)%R.

(** scalePos<dim>, cuda/cuda_mparticles_indexer.h:231-240. *)
Definition scale_pos (x : V3 R) : V3 R :=
  v3 (if g_yz g then 0 else c0 x * c0 fl_dxi)%R (c1 x * c1 fl_dxi)%R (c2 x * c2 fl_dxi)%R.

(** dqs_ and dq_, cuda/cuda_mparticles.hxx:335-349, with the assert; dq(), 361: the factor of a kind. *)
Definition cu_dq (k : Z) : option R :=
  if alen ks <=? 4 then option_map (fun k => (1 / 2 * eta * dt * k_q k / k_m k)%R) (aget ks k) else None.

(** push_part_one, cuda/cuda_push_mprts_yz.cxx:54-99, and of calc_j 246, 281-283 and 355,
    367-368 (DEPOSIT_VB_3D, the only one in use): the particle afterwards. *)
Definition cu_push_one (data : list R) (ci0 : V3 Z) (x : mprt) : option mprt :=
  let xm := scale_pos (mp_x x) in
  match cu_ip3 data ci0 xm QE, cu_ip3 data ci0 xm QH, cu_dq (mp_kind x) with
  | Some E, Some H, Some dq =>
      let u := push_p (mp_u x) E H dq in
      Some (MPrt (push_x (invar_of cu_dim) dt 1 (mp_x x) (calc_v u)) u (mp_kind x) (mp_qw x))
  | _, _, _ => None
  end.

(** The cell a particle is in after the push, cuda/cuda_mparticles_indexer.h:169-171 (dim_yz) and
    cuda/cuda_push_mprts_yz.cxx:371-373, 440-441 (dim_xyz). *)
Definition fl_cell (x : mprt) : V3 Z := gen3 (fun d => fint (get3 (mp_x x) d * get3 fl_dxi d)%R).

(** The body of the loop for slot [n], cuda/cuda_push_mprts_yz.cxx:474-488: slot, pushed particle, block
    index. *)
Definition slot_push (c : cm mprt) (data : list R) (b : blk) (n : Z) : option (list (Z * (mprt * Z))) :=
  match read_slot c n with
  | None => None
  | Some x =>
      match cu_push_one data (k_ci0 b) x with
      | None => None
      | Some y => option_map (fun i => [(n, (y, i))]) (pushed_index g (fl_cell y) (k_p b))
      end
  end.

(** push_mprts on the device, cuda/cuda_push_mprts_yz.cxx:455-491, for all blocks of a launch: the
    stores. *)
Fixpoint blocks_push (c : cm mprt) (bl : list blk) (r : option (list (Z * (mprt * Z)))) : Prop :=
  match bl with
  | [] => r = Some []
  | b :: bl => exists d, load_runs b d /\
      match d with
      | None => r = None
      | Some data =>
          match launch_slots [b] tpb c (slot_push c data) with
          | None => r = None
          | Some ws => exists rr, blocks_push c bl rr /\ r = option_map (app ws) rr
          end
      end
  end.

(** Stores of particles and block indices, cuda/cuda_push_mprts_yz.cxx:481-487: to alt_storage or to
    storage, and to d_idx (290 and 447). *)
Definition store_pushed (c : cm mprt) (ws : list (Z * (mprt * Z))) : option (cm mprt) :=
  match run_writes (map (fun w => (fst w, fst (snd w))) ws) (if c_re c then c_alt c else c_st c),
        run_writes (map (fun w => (fst w, snd (snd w))) ws) (c_idx c) with
  | Some s, Some i => Some (if c_re c then mkcm (c_st c) s i (c_id c) (c_off c) (c_n c) (c_re c)
                            else mkcm s (c_alt c) i (c_id c) (c_off c) (c_n c) (c_re c))
  | _, _ => None
  end.

(** One launch after the other, cuda/cuda_push_mprts_yz.cxx:536-540, each given by its blocks; the stores of
    a launch come in any order. *)
Fixpoint launches_push (c : cm mprt) (ls : list (list blk)) (r : option (cm mprt)) : Prop :=
  match ls with
  | [] => r = Some c
  | bl :: ls => exists rws, blocks_push c bl rws /\
      match rws with
      | None => r = None
      | Some ws => exists ws', Permutation ws ws' /\
          match store_pushed c ws' with
          | None => r = None
          | Some c' => launches_push c' ls r
          end
      end
  end.

(** The launches: BlockQ with CurrmemShared in two dimensions, BlockSimple with CurrmemGlobal in three,
    cuda/cuda_currmem.hxx:159-166, 171-178 and cuda/cuda_push_mprts_yz.cxx:567-570. *)
Definition push_launches : list (list blk) := if g_yz g then map (q_blocks g) q_starts else [simple_blocks g].

(** push_mprts and push_mprts_ab, cuda/cuda_push_mprts_yz.cxx:518-565: what may become of the store. *)
Definition fpush_runs (c : cm mprt) (r : option (cm mprt)) : Prop :=
  if c_n c =? 0 then r = Some c
  else
    let c1 := if c_re c then mkcm (c_st c) (vresize mp_zero (c_n c) (c_alt c)) (vresize 0 (c_n c) (c_idx c)) (c_id c) (c_off c) (c_n c) true else c in
    exists r1, launches_push c1 push_launches r1 /\
      r = option_map (fun c => if c_re c then mkcm (c_alt c) (c_st c) (c_idx c) (c_id c) (c_off c) (c_n c) false else c) r1.
End Push.
