(** Moments of the particles on the GPU.

    Files modelled: src/libpsc/cuda/cuda_moments_1st_nc.cxx and the classes that call it,
    src/libpsc/cuda/fields_item_moments_1st_cuda.hxx.

    [None]: an assert fails, or an array is accessed outside (also: beyond the components or the ghost
    points of the field, or for a kind that is not there), or a division by zero.
    Simplified: real arithmetic; the profiling calls are left out (CudaMoments1stN starts its timer
    and returns without stopping it if there are no particles). *)
From Coq Require Import Reals Permutation String.
From Verif Require Import Base Arr DomainModel GhostModel DdcPrtSpec FieldModel DepositModel PushModel GaussModel MomentModel CudaPrtModel CudaLaunchModel.
Local Open Scope Z_scope.

(** The moments there are: rho_1st_nc, n_1st_cc, all_1st_cc, cuda/fields_item_moments_1st_cuda.hxx:15-90. *)
Inductive cumoment := cu_rho | cu_n | cu_all.

(** Names of the components, cuda/fields_item_moments_1st_cuda.hxx:23-26, 49-52 and 75-80. *)
Definition cu_comp_names (t : cumoment) (ks : list kind) : list string :=
  match t with
  | cu_rho => ["rho"%string]
  | cu_n => add_kind_suffix ["n"%string] ks
  | cu_all => add_kind_suffix ["rho"; "jx"; "jy"; "jz"; "px"; "py"; "pz"; "txx"; "tyy"; "tzz"; "txy"; "tyz"; "tzx"]%string ks
  end.

(** The particle of zeros new elements of a vector are (as in cuda/cuda_mparticles.cxx:45-55). *)
Definition mp_zero : mprt := MPrt (v3 0 0 0)%R (v3 0 0 0)%R 0 0%R.

(** A place in the field of one patch: component and grid point, the arguments of flds(),
    cuda/cuda_moments_1st_nc.cxx:25. *)
Definition maddr : Type := (Z * V3 Z)%type.

(** Deposit::operator(), cuda/cuda_moments_1st_nc.cxx:21-51: the atomic adds, in their order; [yz] for
    the version for dim_yz (21-29), else that for dim_xyz (31-51). *)
Definition cu_deposit (yz : bool) (m : Z) (l : V3 Z) (h : V3 R) (val : R) : list (maddr * R) :=
  let '(v3 l0 l1 l2) := l in
  let '(v3 h0 h1 h2) := h in
  if yz then
    [ ((m, v3 0 l1 l2), ((1 - h1) * (1 - h2) * val)%R);
      ((m, v3 0 (l1 + 1) l2), (h1 * (1 - h2) * val)%R);
      ((m, v3 0 l1 (l2 + 1)), ((1 - h1) * h2 * val)%R);
      ((m, v3 0 (l1 + 1) (l2 + 1)), (h1 * h2 * val)%R) ]
  else
    [ ((m, v3 l0 l1 l2), ((1 - h0) * (1 - h1) * (1 - h2) * val)%R);
      ((m, v3 (l0 + 1) l1 l2), (h0 * (1 - h1) * (1 - h2) * val)%R);
      ((m, v3 l0 (l1 + 1) l2), ((1 - h0) * h1 * (1 - h2) * val)%R);
      ((m, v3 (l0 + 1) (l1 + 1) l2), (h0 * h1 * (1 - h2) * val)%R);
      ((m, v3 l0 l1 (l2 + 1)), ((1 - h0) * (1 - h1) * h2 * val)%R);
      ((m, v3 (l0 + 1) l1 (l2 + 1)), (h0 * (1 - h1) * h2 * val)%R);
      ((m, v3 l0 (l1 + 1) (l2 + 1)), ((1 - h0) * h1 * h2 * val)%R);
      ((m, v3 (l0 + 1) (l1 + 1) (l2 + 1)), (h0 * h1 * h2 * val)%R) ].

(** find_idx_off_1st, cuda/cuda_mparticles_indexer.h:206-214: the position in units of cells. *)
Definition cu_idx_off (dxi : V3 R) (shift : R) (x : V3 R) : V3 Z * V3 R :=
  let pos := gen3 (fun d => get3 x d * get3 dxi d + shift)%R in
  let j := gen3 (fun d => fint (get3 pos d)) in
  (j, gen3 (fun d => get3 pos d - IZR (get3 j d))%R).

(** The shift, cuda/cuda_moments_1st_nc.cxx:91, 128 and 166. *)
Definition cu_shift (t : cumoment) : R := match t with cu_rho => 0 | _ => - / 2 end%R.

(** prt_w, cuda/cuda_mparticles.hxx:375-378: [None] is the quotient by zero. *)
Definition cu_prt_w (k : kind) (x : mprt) : option R := if Req_EM_T (k_q k) 0 then None else Some (mp_qw x / k_q k)%R.

(** What the kernels deposit of a particle, component and value, cuda/cuda_moments_1st_nc.cxx:86-93,
    123-130 and 160-185. *)
Definition cu_values (t : cumoment) (ks : list kind) (fnqs : R) (x : mprt) : option (list (Z * R)) :=
  match aget ks (mp_kind x) with
  | None => None
  | Some k =>
    match cu_prt_w k x with
    | None => None
    | Some w =>
      let fnq := (w * fnqs)%R in
      let q := k_q k in
      let m := k_m k in
      let u := mp_u x in
      let v := calc_v u in
      let mm := mp_kind x * 13 in
      Some match t with
      | cu_rho => [(0, (q * fnq)%R)]
      | cu_n => [(mp_kind x, fnq)]
      | cu_all =>
          [ (mm + 0, (fnq * q)%R);
            (mm + 1, (fnq * q * c0 v)%R);
            (mm + 2, (fnq * q * c1 v)%R);
            (mm + 3, (fnq * q * c2 v)%R);
            (mm + 4, (fnq * m * c0 u)%R);
            (mm + 5, (fnq * m * c1 u)%R);
            (mm + 6, (fnq * m * c2 u)%R);
            (mm + 7, (fnq * m * c0 u * c0 v)%R);
            (mm + 8, (fnq * m * c1 u * c1 v)%R);
            (mm + 9, (fnq * m * c2 u * c2 v)%R);
            (mm + 10, (fnq * m * c0 u * c1 v)%R);
            (mm + 11, (fnq * m * c1 u * c2 v)%R);
            (mm + 12, (fnq * m * c2 u * c0 v)%R) ]
      end
    end
  end.

Section Launch.
Context {P B : Type}.

(** A kernel over the particles in their blocks, as cuda/cuda_moments_1st_nc.cxx:67-84: for each block
    of the launch, each of its [nt] threads, and each slot of the block it comes to, what [f] does. *)
Definition launch_slots (bl : list blk) (nt : Z) (c : cm P) (f : blk -> Z -> option (list B)) : option (list B) :=
  option_map (@concat _) (all_some (map (fun b =>
    match aget (c_off c) (k_bid b), aget (c_off c) (k_bid b + 1) with
    | Some lo, Some hi =>
        option_map (@concat _) (all_some (map (fun tid =>
          option_map (@concat _) (all_some (map (f b) (in_block_loop nt lo hi tid)))) (zrange 0 nt)))
    | _, _ => None
    end) bl)).
End Launch.

Section Moments.
Context (g : geom) (dxi : V3 R) (fnqs : R) (ibn : V3 Z) (t : cumoment) (ks : list kind).

(** The atomic adds for one particle in a block, each with the patch, cuda/cuda_moments_1st_nc.cxx:83-93,
    120-130 and 157-185 (REORDER is false, 206, 241 and 277). *)
Definition cu_prt_adds (c : cm mprt) (b : blk) (n : Z) : option (list (Z * (maddr * R))) :=
  match aget (c_st c) n with
  | None => None
  | Some x =>
      let '(l, h) := cu_idx_off dxi (cu_shift t) (mp_x x) in
      option_map (flat_map (fun e => map (pair (k_p b)) (cu_deposit (g_yz g) (fst e) l h (snd e)))) (cu_values t ks fnqs x)
  end.

(** The blocks of the launch, cuda/cuda_moments_1st_nc.cxx:67, 104, 141 and 202-207, 237-242, 273-278. *)
Definition cu_mom_blocks : list blk := if g_yz g then simple_yz_blocks g else simple_blocks g.

(** The components of all patches, mres of include/fields_item.hxx:124-125. *)
Definition mfield : Type := Z -> Z -> V3 Z -> R.

(** n_comps, include/fields_item.hxx:110. *)
Definition cu_n_comps : Z := alen (cu_comp_names t ks).

(** Is there such a place: mres has the components, and the points of the patch with ibn more on
    either side (include/fields_item.hxx:120-125). *)
Definition in_mfield (p : Z) (a : maddr) : bool :=
  (0 <=? p) && (p <? g_np g) && (0 <=? fst a) && (fst a <? cu_n_comps) &&
  forallb (fun d => (- get3 ibn d <=? get3 (snd a) d) && (get3 (snd a) d <? get3 (g_ldims g) d + get3 ibn d)) dims3.

(** An atomicAdd, cuda/cuda_moments_1st_nc.cxx:25. *)
Definition m_add (F : mfield) (e : Z * (maddr * R)) : option mfield :=
  let '(p, ((m, i), v)) := e in
  if in_mfield p (m, i)
  then Some (fun p' m' i' => if (p' =? p) && (m' =? m) && v3_eqb i' i then (F p' m' i' + v)%R else F p' m' i')
  else None.

(** One after the other, cuda/cuda_moments_1st_nc.cxx:25-28. *)
Fixpoint m_adds (F : mfield) (l : list (Z * (maddr * R))) : option mfield :=
  match l with
  | [] => Some F
  | e :: l => match m_add F e with Some F => m_adds F l | None => None end
  end.

(** CudaMoments1stNcRho/N/All::operator(), cuda/cuda_moments_1st_nc.cxx:192-212, 217-248 and 253-284: what may
    come of the store and of the field.  The atomic adds of all threads in any order.  The assert of at
    most four kinds is that of DMparticlesCuda, cuda/cuda_mparticles.hxx:346. *)
Definition cu_moment_runs (c : cm mprt) (F : mfield) (r : option (cm mprt * mfield)) : Prop :=
  if c_n c =? 0 then r = Some (c, F)
  else match reorder mp_zero c with
       | None => r = None
       | Some c1 =>
           if c_re c1 || (4 <? alen ks) then r = None
           else match launch_slots cu_mom_blocks tpb c1 (cu_prt_adds c1) with
                | None => r = None
                | Some adds => exists l, Permutation l adds /\ r = option_map (pair c1) (m_adds F l)
                end
       end.
End Moments.

(** The geometry of the store of a process: size of the blocks, patches and their size, version of
    the code (cuda/cuda_mparticles_indexer.h:35-47, cuda/fields_item_moments_1st_cuda.hxx:19, 45 and 71). *)
Definition cu_geom (S : setting) (bs : V3 Z) (r : Z) : geom :=
  mkgeom bs (grid_ldims (s_dm S)) (patches_of (s_dm S) r) (match s_dim S with dim_yz => true | _ => false end).

(** dxi_, cuda/cuda_mparticles_indexer.h:121 and include/particle_indexer.hxx:69. *)
Definition cu_dxi (S : setting) : V3 R := gen3 (fun d => 1 / get3 (spacing S) d)%R.

(** ItemMoment::operator() on all processes, include/fields_item.hxx:117-129: zeros, the moment, and the
    ghost points added, which is taken to be what it is on the CPU (C11).  [C'] are the stores afterwards,
    [D' r p m x] is component m at the point x of patch p of process r. *)
Definition cu_item_moment (S : setting) (bs : V3 Z) (t : cumoment) (ks : list kind) (C C' : Z -> cm mprt) (D' : Z -> flds R) : Prop :=
  exists D : Z -> flds R,
    (forall r, 0 <= r < s_size S -> cu_moment_runs (cu_geom S bs r) (cu_dxi S) (s_fnqs S) (s_ibn S) t ks (C r) (fun _ _ _ => 0%R) (Some (C' r, D r))) /\
    added S (cu_n_comps t ks) 0 (cu_n_comps t ks) D D'.
