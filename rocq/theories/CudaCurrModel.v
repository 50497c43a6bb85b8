(** Current deposition on the GPU, cuda/cuda_push_mprts_yz.cxx.  Positions are in units of the grid
    spacing, relative to the patch.  Real numbers stand for the floats of the code. *)
From Coq Require Import Reals.
From Verif Require Import Base FieldModel DepositModel CurrentModel.
Local Open Scope R_scope.

(** Config::Deposit, cuda/push_particles_cuda_impl.hxx:11-14 *)
Inductive deposit := vb_2d | vb_3d.

(** DMparticlesCuda::fnqxs, fnqys and fnqzs, cuda/cuda_mparticles.hxx:332-334 *)
Definition cu_fnqs (g : cgrid) (e : dim3) : R := get3 (cg_dx g) e * cg_fnqs g / cg_dt g.

(** calc_dx1, cuda/cuda_push_mprts_yz.cxx:105-140 *)
Definition cu_dx1 (x dx : V3 R) (off : V3 Z) : V3 R :=
  let '(o1, x1, dx_0, dx_1, dx_2) :=
    if (c1 off =? 0)%Z then (IZR (c2 off), c2 x, c0 dx, c2 dx, c1 dx) else (IZR (c1 off), c1 x, c0 dx, c1 dx, c2 dx) in
  let '(w0, w1, w2) :=
    if (((c1 off =? 0) && (c2 off =? 0))%Z || (if Req_EM_T dx_1 0 then true else false))%bool then (0, 0, 0)
    else let w1 := / 2 * o1 - x1 in (dx_0 / dx_1 * w1, w1, dx_2 / dx_1 * w1) in
  if (c1 off =? 0)%Z then v3 w0 w2 w1 else v3 w0 w1 w2.

(** scurr.add(m, jy, jz, val, ci0): at jy + ci0[1], jz + ci0[2] of the field (cuda/cuda_currmem.hxx:68,
    86-91 with add_to_fld, and 141-146); simplified: the copies in shared memory are left to
    CudaLaunchModel *)
Definition cu_add (ci0 : V3 Z) (m : dim3) (jy jz : Z) (val : R) : entry := add m 0 (jy + c1 ci0) (jz + c2 ci0) val.

(** the adds under "if (dx[d] != 0.f)", cuda/cuda_push_mprts_yz.cxx:161, 178 and 184 *)
Definition when_moved (dx : R) (l : list entry) : list entry := if Req_EM_T dx 0 then [] else l.

(** curr_vb_cell for dim_yz, cuda/cuda_push_mprts_yz.cxx:145-190 *)
Definition cu_cell_yz (dep : deposit) (g : cgrid) (ci0 i : V3 Z) (x dx : V3 R) (qni_wni : R) : list entry :=
  let xa1 := c1 x + / 2 * c1 dx in
  let xa2 := c2 x + / 2 * c2 dx in
  let fnqx := qni_wni * cu_fnqs g D0 in
  let h := (1 / 12) * c0 dx * c1 dx * c2 dx in
  let fnqy := qni_wni * cu_fnqs g D1 in
  let fnqz := qni_wni * cu_fnqs g D2 in
  match dep with
  | vb_3d => when_moved (c0 dx)
    [ cu_add ci0 D0 (c1 i) (c2 i) (fnqx * (c0 dx * (/ 2 - xa1) * (/ 2 - xa2) + h));
      cu_add ci0 D0 (c1 i + 1) (c2 i) (fnqx * (c0 dx * (/ 2 + xa1) * (/ 2 - xa2) - h));
      cu_add ci0 D0 (c1 i) (c2 i + 1) (fnqx * (c0 dx * (/ 2 - xa1) * (/ 2 + xa2) + h));
      cu_add ci0 D0 (c1 i + 1) (c2 i + 1) (fnqx * (c0 dx * (/ 2 + xa1) * (/ 2 + xa2) - h)) ]
  | vb_2d => []
  end ++
  when_moved (c1 dx)
    [ cu_add ci0 D1 (c1 i) (c2 i) (fnqy * c1 dx * (/ 2 - xa2));
      cu_add ci0 D1 (c1 i) (c2 i + 1) (fnqy * c1 dx * (/ 2 + xa2)) ] ++
  when_moved (c2 dx)
    [ cu_add ci0 D2 (c1 i) (c2 i) (fnqz * c2 dx * (/ 2 - xa1));
      cu_add ci0 D2 (c1 i + 1) (c2 i) (fnqz * c2 dx * (/ 2 + xa1)) ].

(** curr_vb_cell_upd, cuda/cuda_push_mprts_yz.cxx:219-235 *)
Definition cu_upd (s : vstate) (dx1 : V3 R) (off : V3 Z) : vstate :=
  {| vs_i := v3 (c0 (vs_i s)) (c1 (vs_i s) + c1 off)%Z (c2 (vs_i s) + c2 off)%Z;
     vs_x := v3 (c0 (vs_x s)) (c1 (vs_x s) + (c1 dx1 - IZR (c1 off))) (c2 (vs_x s) + (c2 dx1 - IZR (c2 off)));
     vs_dx := v3 (c0 (vs_dx s) - c0 dx1) (c1 (vs_dx s) - c1 dx1) (c2 (vs_dx s) - c2 dx1) |}.

(** calc_dx1, curr_vb_cell and curr_vb_cell_upd for one off, cuda/cuda_push_mprts_yz.cxx:333-335 and 339-341 *)
Definition cu_step (dep : deposit) (g : cgrid) (ci0 : V3 Z) (qni_wni : R) (off : V3 Z) (s : vstate) : list entry * vstate :=
  let dx1 := cu_dx1 (vs_x s) (vs_dx s) off in
  (cu_cell_yz dep g ci0 (vs_i s) (vs_x s) dx1 qni_wni, cu_upd s dx1 off).

(** AdvanceParticle::push_x by the fraction f of a step, pushp.hxx:17-29, and the scaling by dxi_
    (cuda/cuda_mparticles_indexer.h:229), in the direction e *)
Definition cu_push_x (g : cgrid) (f : R) (x v : V3 R) (e : dim3) : R := get3 x e + f * cg_dt g * get3 v e / get3 (cg_dx g) e.

(** the out-of-plane current of DEPOSIT_VB_2D, cuda/cuda_push_mprts_yz.cxx:255-278 *)
Definition cu_oop (g : cgrid) (ci0 : V3 Z) (qni_wni : R) (xm v : V3 R) : list entry :=
  let y := cu_push_x g (/ 2) xm v D1 in
  let z := cu_push_x g (/ 2) xm v D2 in
  let fnqx := c0 v * qni_wni * cg_fnqs g in
  let l1 := (fint y - c1 ci0)%Z in
  let l2 := (fint z - c2 ci0)%Z in
  let o1 := y - IZR (fint y) in
  let o2 := z - IZR (fint z) in
  [ cu_add ci0 D0 l1 l2 ((1 - o1) * (1 - o2) * fnqx);
    cu_add ci0 D0 (l1 + 1) l2 (o1 * (1 - o2) * fnqx);
    cu_add ci0 D0 l1 (l2 + 1) ((1 - o1) * o2 * fnqx);
    cu_add ci0 D0 (l1 + 1) (l2 + 1) (o1 * o2 * fnqx) ].

(** calc_j for dim_yz, the current of a particle at xm with velocity v in the block with first cell
    ci0, cuda/cuda_push_mprts_yz.cxx:240-344.  Simplified: positions in memory are not divided by
    the spacing, and the two half steps of DEPOSIT_VB_2D are taken as a whole step for xp. *)
Definition cu_calc_j_yz (dep : deposit) (g : cgrid) (ci0 : V3 Z) (qni_wni : R) (xm v : V3 R) : list entry :=
  let xp1 := cu_push_x g 1 xm v D1 in
  let xp2 := cu_push_x g 1 xm v D2 in
  let j1 := fint (c1 xm) in
  let j2 := fint (c2 xm) in
  let idiff1 := (fint xp1 - j1)%Z in
  let idiff2 := (fint xp2 - j2)%Z in
  let s := {| vs_i := v3 0%Z (j1 - c1 ci0)%Z (j2 - c2 ci0)%Z;
              vs_x := v3 0 (c1 xm - IZR j1 - / 2) (c2 xm - IZR j2 - / 2);
              vs_dx := v3 (c0 v * cg_dt g * (1 / c0 (cg_dx g))) (xp1 - c1 xm) (xp2 - c2 xm) |} in
  let x1 := c1 (vs_x s) * IZR idiff1 in
  let x2 := c2 (vs_x s) * IZR idiff2 in
  let d_first := if Rge_dec (Rabs (c2 (vs_dx s)) * (/ 2 - x1)) (Rabs (c1 (vs_dx s)) * (/ 2 - x2)) then true else false in
  let off := if d_first then v3 0%Z 0%Z idiff2 else v3 0%Z idiff1 0%Z in
  let '(l1, s) := cu_step dep g ci0 qni_wni off s in
  let off := v3 0%Z (idiff1 - c1 off)%Z (idiff2 - c2 off)%Z in
  let '(l2, s) := cu_step dep g ci0 qni_wni off s in
  match dep with vb_2d => cu_oop g ci0 qni_wni xm v | vb_3d => [] end ++
  l1 ++ l2 ++ cu_cell_yz dep g ci0 (vs_i s) (vs_x s) (vs_dx s) qni_wni.

(** ** dim_xyz *)

(** bnd[d], cuda/cuda_push_mprts_yz.cxx:395-396 *)
Definition cu_bnd (dx : R) : R := if Rgt_dec dx 0 then 1 else -1.

(** frac[d], cuda/cuda_push_mprts_yz.cxx:397-399 *)
Definition cu_frac (x dx : R) : R := if Req_EM_T dx 0 then 1 else (/ 2 * cu_bnd dx - x) / dx.

(** step and dir (None is -1), cuda/cuda_push_mprts_yz.cxx:400-413 *)
Definition cu_pick (x dx : V3 R) : R * option dim3 :=
  fold_left (fun sd e => if Rlt_dec (cu_frac (get3 x e) (get3 dx e)) (fst sd) then (cu_frac (get3 x e) (get3 dx e), Some e) else sd)
    dims3 (1, None).

(** curr_vb_cell for dim_xyz, cuda/cuda_push_mprts_yz.cxx:195-214, with deposit,
    psc_push_particles/inc_curr.cxx:14-27 *)
Definition cu_cell_xyz (g : cgrid) (ci0 i : V3 Z) (x dx : V3 R) (qni_wni : R) : list entry :=
  let xa := gen3 (fun e => get3 x e + / 2 * get3 dx e + / 2) in
  dep1vb vb_xyz (gen3 (cu_fnqs g)) (gen3 (fun e => get3 i e + get3 ci0 e)%Z) qni_wni dx xa.

(** the update at the end of the loop, cuda/cuda_push_mprts_yz.cxx:424-429 *)
Definition cu_cross (s : vstate) (dx1 : V3 R) (dir : dim3) : vstate :=
  {| vs_i := set3 (vs_i s) dir (get3 (vs_i s) dir + if Rgt_dec (get3 (vs_dx s) dir) 0 then 1 else -1)%Z;
     vs_x := set3 (gen3 (fun e => get3 (vs_x s) e + get3 dx1 e)) dir (- / 2 * cu_bnd (get3 (vs_dx s) dir));
     vs_dx := gen3 (fun e => get3 (vs_dx s) e - get3 dx1 e) |}.

(** the loop "for (;;)", cuda/cuda_push_mprts_yz.cxx:394-432, given up after [fuel] iterations *)
Fixpoint cu_loop (fuel : nat) (g : cgrid) (ci0 : V3 Z) (qni_wni : R) (s : vstate) : option (list entry) :=
  match fuel with
  | O => None
  | Datatypes.S fuel =>
      let '(step, dir) := cu_pick (vs_x s) (vs_dx s) in
      let dx1 := gen3 (fun e => get3 (vs_dx s) e * step) in
      let l := cu_cell_xyz g ci0 (vs_i s) (vs_x s) dx1 qni_wni in
      match dir with
      | None => Some l
      | Some dir => match cu_loop fuel g ci0 qni_wni (cu_cross s dx1 dir) with Some l' => Some (l ++ l') | None => None end
      end
  end.

(** calc_j for dim_xyz, cuda/cuda_push_mprts_yz.cxx:349-393; the loop given up after [fuel] iterations *)
Definition cu_calc_j_xyz (fuel : nat) (g : cgrid) (ci0 : V3 Z) (qni_wni : R) (xm v : V3 R) : option (list entry) :=
  let j := gen3 (fun e => fint (get3 xm e)) in
  let xp := gen3 (cu_push_x g 1 xm v) in
  cu_loop fuel g ci0 qni_wni
    {| vs_i := gen3 (fun e => get3 j e - get3 ci0 e)%Z;
       vs_x := gen3 (fun e => get3 xm e - (IZR (get3 j e) + / 2));
       vs_dx := gen3 (fun e => get3 xp e - get3 xm e) |}.
