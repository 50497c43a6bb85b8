(** The initial fields: src/include/setup_fields.hxx, its version for the GPU
    src/libpsc/cuda/setup_fields_cuda.hxx, src/include/centering.hxx, and what is done with the fields before the first
    step (src/include/psc.hxx:220-238).  [rnd] rounds after every operation on positions (the identity for exact arithmetic);
    the values of the fields are real numbers.  [None]: an assert fails or an array is accessed outside. *)
From Coq Require Import Reals.
From Verif Require Import Base Arr DomainModel DdcPrtSpec GhostModel FieldModel GaussModel.
Local Open Scope R_scope.

(** centering::Centering, centering.hxx:8-14 *)
Inductive cent := at_NC | at_EC | at_FC | at_CC.

Section SetupFields.
  Variable S : setting.
  Variable rnd : R -> R.

  (** domain.dx, grid/domain.hxx:46 *)
  Definition dom_dx (d : dim3) : R := rnd (get3 (s_len S) d / IZR (get3 (dm_gdims (s_dm S)) d)).
  (** Patch::xb, grid.hxx:84-88 *)
  Definition patch_xb (off : V3 Z) (d : dim3) : R := rnd (rnd (IZR (get3 off d) * dom_dx d) + get3 (s_corner S) d).
  (** Patch::get_nc, x_nc, y_nc, z_nc, grid.hxx:42-45 *)
  Definition get_nc (off : V3 Z) (i : Z) (d : dim3) : R := rnd (patch_xb off d + rnd (IZR i * dom_dx d)).
  (** Patch::get_cc, x_cc, y_cc, z_cc, grid.hxx:47-53; i + .5f is exact for |i| < 2^22 *)
  Definition get_cc (off : V3 Z) (i : Z) (d : dim3) : R := rnd (patch_xb off d + rnd ((IZR i + 1 / 2) * dom_dx d)).

  (** centering::get_pos with the assert, centering.hxx:25-41; [None] as component is -1 *)
  Definition get_pos (off i : V3 Z) (c : cent) (component : option dim3) : option (V3 R) :=
    match component, c with
    | None, at_EC | None, at_FC => None
    | _, _ => Some (gen3 (fun d =>
        let is_c := match component with Some e => dim3_eqb d e | None => false end in
        if match c with at_CC => true | at_FC => negb is_c | at_EC => is_c | at_NC => false end
        then get_cc off (get3 i d) d else get_nc off (get3 i d) d))
    end.

  (** isInvar, grid/domain.hxx:58, as Foreach_3d uses it (grid.hxx:124-139) *)
  Definition dom_grid : fgrid :=
    FGrid (grid_ldims (s_dm S)) (s_ibn S) (gen3 dom_dx) (s_dt S) (gen3 (fun d => get3 (dm_gdims (s_dm S)) d =? 1)%Z).

  (** n_ghosts, setup_fields.hxx:30-31 and cuda/setup_fields_cuda.hxx:28 *)
  Definition n_ghosts : Z := Z.max (Z.max (c0 (s_ibn S)) (c1 (s_ibn S))) (c2 (s_ibn S)).
  (** the points of Foreach_3d, setup_fields.hxx:33 and cuda/setup_fields_cuda.hxx:31 *)
  Definition setup_points : list (V3 Z) := foreach_bnd dom_grid n_ghosts n_ghosts.

  (** F(m, i) += v, setup_fields.hxx:37-42, fields.hxx:59-66: component, index, value *)
  Definition fentry : Type := Z * V3 Z * R.

  (** all += of run for a patch, setup_fields.hxx:33-44 *)
  Definition cpu_entries (f : Z -> V3 R -> R) (off : V3 Z) : list (option fentry) :=
    flat_map (fun i => flat_map (fun c =>
      [option_map (fun x => (comp QH c, i, f (comp QH c) x)) (get_pos off i at_FC (Some c));
       option_map (fun x => (comp QE c, i, f (comp QE c) x)) (get_pos off i at_EC (Some c));
       option_map (fun x => (comp QJ c, i, f (comp QJ c) x)) (get_pos off i at_EC (Some c))]) dims3) setup_points.

  (** all += for a patch in the version for the GPU, cuda/setup_fields_cuda.hxx:31-56 (done on the host) *)
  Definition gpu_entries (f : Z -> V3 R -> R) (off : V3 Z) : list (option fentry) :=
    flat_map (fun i =>
      let '(v3 jx jy jz) := i in
      let x_nc := get_nc off jx D0 in let y_nc := get_nc off jy D1 in let z_nc := get_nc off jz D2 in
      let x_cc := get_cc off jx D0 in let y_cc := get_cc off jy D1 in let z_cc := get_cc off jz D2 in
      let ncc := v3 x_nc y_cc z_cc in let cnc := v3 x_cc y_nc z_cc in let ccn := v3 x_cc y_cc z_nc in
      let cnn := v3 x_cc y_nc z_nc in let ncn := v3 x_nc y_cc z_nc in let nnc := v3 x_nc y_nc z_cc in
      map (fun e => Some (fst e, i, f (fst e) (snd e)))
        [(comp QH D0, ncc); (comp QH D1, cnc); (comp QH D2, ccn);
         (comp QE D0, cnn); (comp QE D1, ncn); (comp QE D2, nnc);
         (comp QJ D0, cnn); (comp QJ D1, ncn); (comp QJ D2, nnc)]) setup_points.

  (** all += of runScalar for a patch, setup_fields.hxx:61-63 *)
  Definition scalar_entries (c : cent) (f : Z -> V3 R -> R) (off : V3 Z) : list (option fentry) :=
    map (fun i => option_map (fun x => (0%Z, i, f 0%Z x)) (get_pos off i c None)) setup_points.

  (** the += one after the other, setup_fields.hxx:36-43; the bounds are those of the storage, fields3d.hxx:260-275 *)
  Fixpoint add_entries (n_comps n p : Z) (es : list (option fentry)) (F : flds R) : option (flds R) :=
    match es with
    | [] => Some F
    | None :: _ => None
    | Some (m, i, v) :: es =>
        if in_store (s_dm S) (s_ibn S) n_comps n p m i
        then add_entries n_comps n p es (upd F p m i (F p m i + v)) else None
    end.

  (** the loop over the patches ps of process r, setup_fields.hxx:26-45, 55-65 and cuda/setup_fields_cuda.hxx:23-57 *)
  Fixpoint setup_patches (entries : V3 Z -> list (option fentry)) (n_comps r : Z) (ps : list Z) (F : flds R) : option (flds R) :=
    match ps with
    | [] => Some F
    | p :: ps =>
        match get_local_patch_info (s_dm S) r p with
        | None => None
        | Some info =>
            match add_entries n_comps (patches_of (s_dm S) r) p (entries (pi_off info)) F with
            | None => None
            | Some F1 => setup_patches entries n_comps r ps F1
            end
        end
    end.

  (** setupFields, setup_fields.hxx:20-46 and 72-75 *)
  Definition setup_fields (f : Z -> V3 R -> R) (r : Z) (F : flds R) : option (flds R) :=
    setup_patches (cpu_entries f) NR_FIELDS r (zrange 0 (patches_of (s_dm S) r)) F.
  (** its version for the GPU, cuda/setup_fields_cuda.hxx:6-59 *)
  Definition setup_fields_cuda (f : Z -> V3 R -> R) (r : Z) (F : flds R) : option (flds R) :=
    setup_patches (gpu_entries f) NR_FIELDS r (zrange 0 (patches_of (s_dm S) r)) F.
  (** setupScalarField, setup_fields.hxx:48-66 and 79-82 *)
  Definition setup_scalar (n_comps : Z) (c : cent) (f : Z -> V3 R -> R) (r : Z) (F : flds R) : option (flds R) :=
    setup_patches (scalar_entries c f) n_comps r (zrange 0 (patches_of (s_dm S) r)) F.

  (** pre_first_step, psc.hxx:220-228, in a periodic domain (the conditions at walls do nothing then) *)
  Definition before_first_step (F F' : Z -> flds R) : Prop :=
    exists F1 F2, filled S QH F F1 /\ filled S QJ F1 F2 /\ filled S QE F2 F'.
End SetupFields.
