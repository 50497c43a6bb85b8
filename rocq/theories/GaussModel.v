(** One time step of the whole system, particles and fields of all processes:
    src/include/psc.hxx:386-469, for a periodic domain (the conditions at walls, psc.hxx:417-466,
    do nothing then: WallModel, BND_FLD_PERIODIC), without injection, external
    currents and Marder correction.  The parts are those of the other models; what is defined here is
    how they are put together. *)
From Coq Require Import Reals.
From Flocq Require Import Core.
From Verif Require Import Base Arr DomainModel MpiModel BndPrtModel DdcPrtModel DdcPrtSpec GhostModel FieldModel DepositModel CurrentModel CudaCurrModel EsirkModel PushModel BndPrtExact.
Local Open Scope R_scope.

(** JXI .. HZ, psc.h:26-38 *)
Definition comp (q : qty) (d : dim3) : Z :=
  ((match q with QJ => 0 | QE => 3 | QH => 6 end) + (match d with D0 => 0 | D1 => 1 | D2 => 2 end))%Z.
(** NR_FIELDS, psc.h:37 *)
Definition NR_FIELDS : Z := 9.
(** and back: the field and component with number m, psc.h:26-38 *)
Definition qty_of (m : Z) : qty := if (m <? 3)%Z then QJ else if (m <? 6)%Z then QE else QH.
(** (psc.h:26-38) *)
Definition dim_of (m : Z) : dim3 := if (m mod 3 =? 0)%Z then D0 else if (m mod 3 =? 1)%Z then D1 else D2.

(** the fields of patch p as the field updates see them, include/psc_push_fields_impl.hxx:47-85 *)
Definition patch_flds (F : flds R) (p : Z) : pf := fun q d i => F p (comp q d) i.
(** an update of the fields of every patch, include/psc_push_fields_impl.hxx:11-21 and 149-178 *)
Definition on_patches (u : pf -> pf) (F : flds R) : flds R := fun p m i => u (patch_flds F p) (qty_of m) (dim_of m) i.

(** the deposition schemes for the current (the Current template parameter of the pushers,
    psc_push_particles/push_config.hxx:52-64 and 71-113; push_particles_esirkepov.hxx:46-50), and that of the
    push on the GPU with blocks of bs cells (cuda/push_particles_cuda_impl.hxx:11-14 and 44-62) *)
Inductive scheme := sch_split | sch_zigzag | sch_var1 | sch_2d | sch_esirk (o : order) | sch_cuda (dep : deposit) (bs : V3 Z).

(** calc_j with the positions in units of the spacing before and after the step,
    push_particles_1vb.hxx:51 and 66-81, push_particles_esirkepov.hxx:86-115, cuda/cuda_push_mprts_yz.cxx:240-393; lf and lg are
    the cells as the pusher has them; on the GPU ci0 is the first cell of the block the particle is in (CudaLaunchModel) *)
Definition calc_j (sc : scheme) (d : dim_t) (g : cgrid) (q : R) (xm xp v : V3 R) : option (list entry) :=
  let lg := gen3 (fun e => fint (get3 xm e)) in
  let lf := gen3 (fun e => fint (get3 xp e)) in
  match sc, d with
  | sch_split, dim_xyz => Some (calc_j_split g vb_xyz q xm xp v)
  | sch_split, dim_yz => Some (calc_j_split g vb_yz q xm xp v)
  | sch_zigzag, dim_xyz => Some (calc_j_zigzag g vb_xyz q xm xp v)
  | sch_zigzag, dim_yz => Some (calc_j_zigzag g vb_yz q xm xp v)
  | sch_var1, dim_yz => Some (calc_j_var1 g q xm xp lf lg v)
  | sch_2d, dim_yz => Some (calc_j_2d g q xm xp lf lg)
  | sch_esirk o, _ => calc_esirk o d g q xm xp v
  | sch_cuda dep bs, dim_yz => Some (cu_calc_j_yz dep g (gen3 (fun e => get3 lg e / get3 bs e * get3 bs e)%Z) q xm v)
  | sch_cuda dep bs, dim_xyz => cu_calc_j_xyz 4 g (gen3 (fun e => get3 lg e / get3 bs e * get3 bs e)%Z) q xm v
  | _, _ => None
  end.

(** what a run has: the dimension type, number of ghost points (grid.ibn), the size of the domain (domain.length, domain.corner),
    the kinds of the boundaries for particles, time step and norm.fnqs (grid.hxx:94-140), and the scheme for the current *)
Record setting := Setting {
  s_dm : domain; s_size : Z; s_dim : dim_t; s_ibn : V3 Z; s_len : V3 R; s_corner : V3 R; s_lo : V3 bnd_prt; s_hi : V3 bnd_prt; s_dt : R; s_fnqs : R; s_sch : scheme }.

Section Step.
  Variable S : setting.
  (** domain.dx, grid/domain.hxx:45 *)
  Definition spacing : V3 R := gen3 (fun d => get3 (s_len S) d / IZR (get3 (dm_gdims (s_dm S)) d)).
  (** the grid of the field updates (grid.hxx:94-140) *)
  Definition fgrid_of : fgrid := FGrid (grid_ldims (s_dm S)) (s_ibn S) spacing (s_dt S) (invar_of (s_dim S)).
  (** the grid of the deposition (inc_curr_1vb_split.cxx:19-23) *)
  Definition cgrid_of : cgrid := {| cg_dt := s_dt S; cg_dx := spacing; cg_fnqs := s_fnqs S |}.

  (** one particle of push_mprts, push_particles_1vb.hxx:50-82: new momentum u (interpolation and Boris push, PushModel, are
      not repeated here: u is whatever they give), new position, and entries for the current.  p_t is qni_wni. *)
  Definition push_one (u : V3 R) (q : particle R) : option (particle R * list entry) :=
    let v := calc_v u in
    let x := push_x (invar_of (s_dim S)) (s_dt S) 1 (p_x q) v in
    let scaled := fun x => gen3 (fun e => get3 x e / get3 spacing e) in
    option_map (fun l => (mkP x u (p_t q), l)) (calc_j (s_sch S) (s_dim S) cgrid_of (p_t q) (scaled (p_x q)) (scaled x) v).

  (** the current has storage there, include/fields.hxx:47-64 (the bounds of the patch and its ghost points; out of them is None in push_patch) *)
  Definition entry_stored (e : entry) : bool :=
    let '(_, i, _) := e in
    forallb (fun d => (- get3 (s_ibn S) d <=? get3 i d)%Z && (get3 i d <? get3 (grid_ldims (s_dm S)) d + get3 (s_ibn S) d)%Z) dims3.

  (** the particles of one patch, push_particles_1vb.hxx:50-82; us are the new momenta *)
  Fixpoint push_patch (us : list (V3 R)) (b : list (particle R)) : option (list (particle R) * list entry) :=
    match us, b with
    | [], [] => Some ([], [])
    | u :: us, q :: b =>
        match push_one u q, push_patch us b with
        | Some (q', l), Some (b', l') => if forallb entry_stored l then Some (q' :: b', l ++ l') else None
        | _, _ => None
        end
    | _, _ => None
    end.

  (** the currents of one process: J is cleared (push_particles_1vb.hxx:48), then all entries are added *)
  Definition with_current (ls : Z -> list entry) (F : flds R) : flds R :=
    fun p m i => match qty_of m with QJ => cadd_all (fun _ _ => 0) (ls p) (dim_of m) i | _ => F p m i end.

  (** push_mprts of all processes, psc.hxx:389 *)
  Definition pushed (us : Z -> Z -> list (V3 R)) (F : Z -> flds R) (P : Z -> list (list (particle R))) (F' : Z -> flds R) (P' : Z -> list (list (particle R))) : Prop :=
    exists ls, forall r, (0 <= r < s_size S)%Z -> F' r = with_current (ls r) (F r) /\ alen (P' r) = alen (P r) /\
      forall p b, aget (P r) p = Some b -> exists b', aget (P' r) p = Some b' /\ push_patch (us r p) b = Some (b', ls r p).

  (** bndp_, psc.hxx:412 *)
  Definition exchanged (P P' : Z -> list (list (particle R))) : Prop :=
    exists kept sb em cm pm epool cpool dpool,
      (forall r, (0 <= r < s_size S)%Z -> process_all exact (s_dm S) (s_len S) (s_corner S) (s_lo S) (s_hi S) r (P r) = Some (kept r, sb r)) /\
      all_entry_posts (s_dm S) (s_size S) = Some em /\ all_count_posts (s_dm S) (s_size S) sb = Some cm /\ all_data_posts (s_dm S) (s_size S) sb = Some pm /\
      Permutation epool em /\ Permutation cpool cm /\ Permutation dpool pm /\
      forall r, (0 <= r < s_size S)%Z -> comm (s_dm S) (s_size S) epool cpool dpool (kept r) (sb r) r = Some (P' r).

  (** bnd_.fill_ghosts, psc.hxx:419, 432, 445 and 467 *)
  Definition filled (q : qty) (F F' : Z -> flds R) : Prop :=
    let mb := comp q D0 in
    exists msgs pool, all_ddc_posts (s_dm S) (s_size S) (s_ibn S) NR_FIELDS true mb (mb + 3) F = Some msgs /\ Permutation pool msgs /\
      forall r, (0 <= r < s_size S)%Z -> fill_ghosts (s_dm S) (s_size S) (s_ibn S) NR_FIELDS mb (mb + 3) pool (F r) r = Some (F' r).

  (** bnd_.add_ghosts of components mb to me of n, psc.hxx:418 and include/fields_item.hxx:79-86 *)
  Definition added (n mb me : Z) (F F' : Z -> flds R) : Prop :=
    exists msgs pool, all_ddc_posts (s_dm S) (s_size S) (s_ibn S) n false mb me F = Some msgs /\ Permutation pool msgs /\
      forall r, (0 <= r < s_size S)%Z -> add_ghosts Rplus (s_dm S) (s_size S) (s_ibn S) n mb me pool (F r) r = Some (F' r).

  (** psc.hxx:386-469 *)
  Definition step (us : Z -> Z -> list (V3 R)) (F : Z -> flds R) (P : Z -> list (list (particle R))) (F' : Z -> flds R) (P' : Z -> list (list (particle R))) : Prop :=
    exists F1 P1 F2 F3 F4 F5,
      pushed us F P F1 P1 /\ exchanged P1 P' /\ added NR_FIELDS 0 3 F1 F2 /\ filled QJ F2 F3 /\
      filled QH (fun r => on_patches (push_H fgrid_of (1 / 2)) (F3 r)) F4 /\
      filled QE (fun r => on_patches (push_E fgrid_of 1) (F4 r)) F5 /\
      filled QH (fun r => on_patches (push_H fgrid_of (1 / 2)) (F5 r)) F'.

  (** sorting and collisions, psc.hxx:356-369: the particles of each patch in any order, with any momenta *)
  Definition shuffled (P P' : Z -> list (list (particle R))) : Prop :=
    forall r, (0 <= r < s_size S)%Z -> alen (P' r) = alen (P r) /\
      forall p b, aget (P r) p = Some b -> exists b', aget (P' r) p = Some b' /\
        Permutation (map (fun q => (p_x q, p_t q)) b) (map (fun q => (p_x q, p_t q)) b').

  (** any number of time steps, psc.hxx:265-303 *)
  Inductive run : (Z -> flds R) -> (Z -> list (list (particle R))) -> (Z -> flds R) -> (Z -> list (list (particle R))) -> Prop :=
  | run_refl F P : run F P F P
  | run_step us F P F1 P1 F2 P2 : run F P F1 P1 -> step us F1 P1 F2 P2 -> run F P F2 P2
  | run_shuffle F P F1 P1 P2 : run F P F1 P1 -> shuffled P1 P2 -> run F P F1 P2.

  (** the order of the density: that of the current (checks_order_1st, checks_order_2nd, checks_impl.hxx:220-230, push_particles_1vb.hxx:22.
      Simplified: for Esirkepov of first order push_particles_esirkepov.hxx:54 has the second order, with a FIXME; here it is the first) *)
  Definition rho_scheme : dep_scheme := match s_sch S with sch_esirk o2nd => dep_2nd_nc | _ => dep_1st_nc end.

  (** item_rho, checks_impl.hxx:153-156: the density of all particles, include/psc/moment.hxx:42-80, and
      ghost points added, include/fields_item.hxx:114-127 *)
  Definition density (P : Z -> list (list (particle R))) (rho : Z -> Z -> V3 Z -> R) : Prop :=
    exists D D' : Z -> flds R,
      (forall r p b, (0 <= r < s_size S)%Z -> aget (P r) p = Some b -> exists f,
         dep_particles rho_scheme (s_dim S) spacing (s_fnqs S) (gen3 (fun d => - get3 (s_ibn S) d)%Z) (map (fun q => (p_x q, p_t q)) b) (fun _ => 0) = Some f /\
         forall i, D r p 0%Z i = f (gen3 (fun d => get3 i d - - get3 (s_ibn S) d)%Z)) /\
      added 1 0 1 D D' /\ forall r p i, rho r p i = D' r p 0%Z i.

  (** the largest magnitude at the interior points (psc::mflds::interior, fields3d.hxx:563-570) of all patches of all processes:
      gt::norm_linf and MPI_Allreduce, checks_impl.hxx:93-96 and 177-180 *)
  Definition max_err (e : Z -> Z -> V3 Z -> R) : R :=
    fold_right Rmax 0 (flat_map (fun r => flat_map (fun p => flat_map (fun k => flat_map (fun j => map (fun i => Rabs (e r p (v3 i j k)))
      (zrange 0 (c0 (grid_ldims (s_dm S))))) (zrange 0 (c1 (grid_ldims (s_dm S))))) (zrange 0 (c2 (grid_ldims (s_dm S)))))
      (zrange 0 (patches_of (s_dm S) r))) (zrange 0 (s_size S))).

  (** the check of Gauss's law, checks_impl.hxx:147-177; no walls *)
  Definition gauss_check (F : Z -> flds R) (P : Z -> list (list (particle R))) (err : R) : Prop :=
    exists rho, density P rho /\ err = max_err (fun r p i => div_nc fgrid_of (patch_flds (F r) p QE) i - rho r p i).

  (** the check of continuity, checks_impl.hxx:46-94: P before the push (psc.hxx:378-383), F' and P' after the step (psc.hxx:471-476); no walls *)
  Definition continuity_check (P : Z -> list (list (particle R))) (F' : Z -> flds R) (P' : Z -> list (list (particle R))) (err : R) : Prop :=
    exists rho_m rho_p, density P rho_m /\ density P' rho_p /\
      err = max_err (fun r p i => (rho_p r p i - rho_m r p i) + s_dt S * div_nc fgrid_of (patch_flds (F' r) p QJ) i).
End Step.
