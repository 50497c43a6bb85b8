(** The time step with the push of the GPU: its kernels leave the current, all else of a step is as in GaussModel (the exchange of
    ghost points, the field updates and the density of the GPU are those of the CPU: C66, C68, C65). *)
From Coq Require Import Reals.
From Verif Require Import Base Arr DomainModel BndPrtModel DdcPrtSpec GhostModel FieldModel DepositModel CurrentModel CudaCurrModel PushModel CudaPrtModel CudaPrtSpec CudaLaunchModel CudaLaunchProps GaussModel.
Local Open Scope R_scope.

Section GpuStep.
  Variable S : setting.
  (** the configuration of the push, cuda/push_particles_cuda_impl.hxx:19-40: deposition and size of the blocks *)
  Variable dep : deposit.
  Variable bs : V3 Z.

  (** the indexer of process r, cuda/cuda_mparticles_indexer.h:27-43 and 96-100 *)
  Definition geom_of (r : Z) : geom :=
    mkgeom bs (grid_ldims (s_dm S)) (patches_of (s_dm S) r) (match s_dim S with dim_yz => true | _ => false end).

  (** a position in units of the spacing, cuda/cuda_push_mprts_yz.cxx:250-256 and cuda_mparticles_indexer.h:50-66; on it depends the cell *)
  Definition gposn (q : particle R) : V3 R := gen3 (fun e => get3 (p_x q) e / get3 (spacing S) e).

  (** a particle after the push, cuda/cuda_push_mprts_yz.cxx:54-110 and 475-490: u is the new momentum, a function of the particle and
      its patch (C67) *)
  Definition gmoved (u : V3 R) (q : particle R) : particle R := mkP (push_x (invar_of (s_dim S)) (s_dt S) 1 (p_x q) (calc_v u)) u (p_t q).

  (** the current of process r from the store c of its particles, cuda/cuda_push_mprts_yz.cxx:518-565 and 568-570: in y and z
      collected in shared memory, in three dimensions added to the field at once *)
  Definition gpu_current (r : Z) (unew : Z -> particle R -> V3 R) (c : cm (particle R)) (J : jfield) (res : option jfield) : Prop :=
    match s_dim S with
    | dim_yz => push_runs (calc_yz gposn p_t (fun p q => calc_v (unew p q)) dep (cgrid_of S)) (geom_of r) (s_ibn S) c J res
    | _ => push_global_runs (calc_xyz gposn p_t (fun p q => calc_v (unew p q)) 4 (cgrid_of S)) (geom_of r) (s_ibn S) c J res
    end.

  (** push_mprts of all processes with the stores cs, psc.hxx:389 and cuda/push_particles_cuda_impl.hxx:52-55 *)
  Definition gpu_pushed (unew : Z -> Z -> particle R -> V3 R) (cs : Z -> cm (particle R)) (F : Z -> flds R) (P : Z -> list (list (particle R)))
    (F' : Z -> flds R) (P' : Z -> list (list (particle R))) : Prop := forall r, (0 <= r < s_size S)%Z ->
    (exists J, gpu_current r (unew r) (cs r) (fun p d i => F r p (comp QJ d) i) (Some J) /\
      F' r = (fun p m i => match qty_of m with QJ => J p (dim_of m) i | _ => F r p m i end)) /\
    alen (P' r) = alen (P r) /\ forall p b, aget (P r) p = Some b -> aget (P' r) p = Some (map (fun q => gmoved (unew r p q) q) b).

  (** the stores hold the particles (kept so by C58), cuda/cuda_mparticles.hxx:60-150 *)
  Definition stores_hold (cs : Z -> cm (particle R)) (P : Z -> list (list (particle R))) : Prop := forall r, (0 <= r < s_size S)%Z ->
    represents (cell_of gposn) (geom_of r) (cs r) (tag (geom_of r) (P r)).

  (** a time step after the push, psc.hxx:407-469 *)
  Definition after_push (F1 : Z -> flds R) (P1 : Z -> list (list (particle R))) (F' : Z -> flds R) (P' : Z -> list (list (particle R))) : Prop :=
    exists F2 F3 F4 F5, exchanged S P1 P' /\ added S NR_FIELDS 0 3 F1 F2 /\ filled S QJ F2 F3 /\
      filled S QH (fun r => on_patches (push_H (fgrid_of S) (1 / 2)) (F3 r)) F4 /\
      filled S QE (fun r => on_patches (push_E (fgrid_of S) 1) (F4 r)) F5 /\
      filled S QH (fun r => on_patches (push_H (fgrid_of S) (1 / 2)) (F5 r)) F'.

  (** every process has particles: else push_mprts returns at once, cuda/cuda_push_mprts_yz.cxx:555-557 (C59) *)
  Definition busy (P : Z -> list (list (particle R))) : Prop := forall r, (0 <= r < s_size S)%Z -> exists b q, In b (P r) /\ In q b.

  (** any number of time steps with the push of the GPU, psc.hxx:265-303 and 356-469 *)
  Inductive gpu_run : (Z -> flds R) -> (Z -> list (list (particle R))) -> (Z -> flds R) -> (Z -> list (list (particle R))) -> Prop :=
  | gpu_refl F P : gpu_run F P F P
  | gpu_step unew cs F P F1 P1 Fa Pa F2 P2 : gpu_run F P F1 P1 -> busy P1 -> stores_hold cs P1 -> gpu_pushed unew cs F1 P1 Fa Pa -> after_push Fa Pa F2 P2 -> gpu_run F P F2 P2
  | gpu_shuffle F P F1 P1 P2 : gpu_run F P F1 P1 -> shuffled S P1 P2 -> gpu_run F P F1 P2.
End GpuStep.
