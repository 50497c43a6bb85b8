(** Writing a checkpoint and reading it: src/include/checkpoint.hxx, grid.inl, particles_simple.inl,
    fields3d.inl, VariableByPatch.h, src/kg/include/kg/io/.

    Outside of /repo and taken as follows: an ADIOS2 variable is an array over the index box of
    its shape; Put writes the elements of the selected box, in row-major order from memory, or from the
    memory box selected; Get reads the selected box in row-major order.  Attributes (numbers, short
    vectors and strings that are the same on all processes) are not modelled; what is rebuilt from them is a
    parameter here.  Values are of any type T, no arithmetic is done on them.  None: an assertion that fails,
    an access out of bounds, or a read of something that was not written. *)
From Coq Require Import String.
From Verif Require Import Base Arr DomainModel BalanceModel StorageModel.
Local Open Scope Z_scope.
Local Open Scope list_scope.

Section Restart.
  Context {T : Type}.

  (** an element of a variable: float/double or int/uint/size_t (the instances of putVariable, FileAdios2.inl:62-79) *)
  Inductive val := VReal (t : T) | VInt (z : Z).

  (** an ADIOS2 variable: shape and elements written; file: by name (Engine::prefix, src/kg/include/kg/io/Engine.h:108-120) *)
  Record variable := Var { v_shape : list Z; v_data : list Z -> option val }.
  (** as above, Engine.h:108-120 *)
  Definition file := string -> option variable.

  (** a call of FileAdios2::putVariable (src/kg/include/kg/io/FileAdios2.inl:62-79): name, shape and the elements selected *)
  Record write := Write { w_name : string; w_shape : list Z; w_elems : list (list Z * val) }.

  (** the indices of a box in row-major order (Dims of the selections, FileAdios2.inl:71-76) *)
  Fixpoint slab (count : list Z) : list (list Z) :=
    match count with
    | [] => [[]]
    | c :: cs => flat_map (fun i => map (cons i) (slab cs)) (zrange 0 c)
    end.
  (** position of an index in memory, row-major (Put of FileAdios2.inl:77) *)
  Fixpoint lin (dims idx : list Z) : Z :=
    match dims, idx with
    | d :: ds, i :: is => i * fold_right Z.mul 1 ds + lin ds is
    | _, _ => 0
    end.
  (** sum of an index and the start of a selection (FileAdios2.inl:71-76) *)
  Fixpoint iadd (a b : list Z) : list Z :=
    match a, b with
    | x :: a, y :: b => x + y :: iadd a b
    | _, _ => []
    end.
  (** within the shape of the variable (FileAdios2.inl:69) *)
  Fixpoint in_shape (shape idx : list Z) : bool :=
    match shape, idx with
    | [], [] => true
    | s :: ss, i :: is => (0 <=? i) && (i <? s) && in_shape ss is
    | _, _ => false
    end.
  (** equality of Dims, as in VariableByPatch.h:35 and 63 *)
  Definition ieqb (a b : list Z) : bool := if list_eq_dec Z.eq_dec a b then true else false.

  (** putVariable with selection {start, count} and memory selection {mstart, mcount}
      (FileAdios2.inl:62-79; without memory selection: mstart zero, mcount = count) *)
  Definition put_variable (name : string) (data : list val) (shape start count mstart mcount : list Z) : option write :=
    match sequence (map (fun k => option_map (fun v => (iadd start k, v)) (aget data (lin mcount (iadd mstart k)))) (slab count)) with
    | Some elems => Some (Write name shape elems)
    | None => None
    end.
  (** without memory selection (FileAdios2.inl:74 not taken) *)
  Definition put_plain (name : string) (data : list val) (shape start count : list Z) : option write :=
    put_variable name data shape start count (map (fun _ => 0) count) count.

  (** the effect of engine_.Put (FileAdios2.inl:77) on the file; all processes have to give the same shape *)
  Definition apply_write (f : file) (w : write) : option file :=
    if forallb (fun e => in_shape (w_shape w) (fst e)) (w_elems w) then
      let upd (old : list Z -> option val) := fun idx =>
        fold_left (fun r e => if ieqb (fst e) idx then Some (snd e) else r) (w_elems w) (old idx) in
      match f (w_name w) with
      | None => Some (fun n => if String.eqb n (w_name w) then Some (Var (w_shape w) (upd (fun _ => None))) else f n)
      | Some v =>
          if ieqb (v_shape v) (w_shape w)
          then Some (fun n => if String.eqb n (w_name w) then Some (Var (w_shape w) (upd (v_data v))) else f n)
          else None
      end
    else None.
  (** the Puts of all processes (checkpoint.hxx:14-46), in the order in which they take effect *)
  Fixpoint apply_writes (f : file) (ws : list write) : option file :=
    match ws with
    | [] => Some f
    | w :: ws => match apply_write f w with Some f => apply_writes f ws | None => None end
    end.
  (** a new file (io.open with Mode::Write, checkpoint.hxx:30-40) *)
  Definition empty_file : file := fun _ => None.

  (** FileAdios2::getVariable (FileAdios2.inl:81-95) *)
  Definition get_variable (f : file) (name : string) (start count : list Z) : option (list val) :=
    match f name with
    | Some v => sequence (map (fun k => if in_shape (v_shape v) (iadd start k) then v_data v (iadd start k) else None) (slab count))
    | None => None
    end.
  (** Engine::variableShape, src/kg/include/kg/io/Engine.inl:132-136 *)
  Definition variable_shape (f : file) (name : string) : option (list Z) := option_map v_shape (f name).
  (** [assert(reader.variableShape<T>() == shape)], VariableByPatch.h:35 and 63 *)
  Definition shape_is (f : file) (name : string) (shape : list Z) : bool :=
    match variable_shape f name with Some s => ieqb s shape | None => false end.

  (** InquireVariable<T> (FileAdios2.inl:87): null if the type differs, so that the read fails *)
  Definition as_int (v : val) : option Z := match v with VInt z => Some z | VReal _ => None end.
  (** as above, FileAdios2.inl:87 *)
  Definition as_real (v : val) : option T := match v with VReal t => Some t | VInt _ => None end.

  (** ** State of a process *)

  (** Grid::Patch, src/include/grid.hxx:32-59; dx_ is None if it was not initialised *)
  Record patch := Patch { p_off : V3 Z; p_xb : V3 T; p_xe : V3 T; p_dx : option (V3 T) }.
  (** ParticleSimple, src/include/particle_simple.hxx:38-42 *)
  Record prt := Prt { q_x : V3 T; q_u : V3 T; q_kind : Z; q_qni_wni : T }.
  (** grid.patches, the buffers of MparticlesSimple (particles_simple.hxx:242) and, per patch, the storage of the fields
      (fields3d.hxx:343-344) *)
  Record proc := Proc { s_patches : list patch; s_prts : list (list prt); s_flds : list (list T) }.

  (** ForComponents<ParticleSimple>, particle_simple.hxx:44-62: name, read, assign *)
  Definition for_components : list (string * (prt -> val) * (prt -> val -> option prt)) :=
    let x d := (fun q => VReal (get3 (q_x q) d), fun q v => option_map (fun t => Prt (set3 (q_x q) d t) (q_u q) (q_kind q) (q_qni_wni q)) (as_real v)) in
    let u d := (fun q => VReal (get3 (q_u q) d), fun q v => option_map (fun t => Prt (q_x q) (set3 (q_u q) d t) (q_kind q) (q_qni_wni q)) (as_real v)) in
    [ ("mprts::x"%string, fst (x D0), snd (x D0)); ("mprts::y"%string, fst (x D1), snd (x D1)); ("mprts::z"%string, fst (x D2), snd (x D2));
      ("mprts::ux"%string, fst (u D0), snd (u D0)); ("mprts::uy"%string, fst (u D1), snd (u D1)); ("mprts::uz"%string, fst (u D2), snd (u D2));
      ("mprts::kind"%string, fun q => VInt (q_kind q), fun q v => option_map (fun z => Prt (q_x q) (q_u q) z (q_qni_wni q)) (as_int v));
      ("mprts::qni_wni"%string, fun q => VReal (q_qni_wni q), fun q v => option_map (fun t => Prt (q_x q) (q_u q) (q_kind q) t) (as_real v)) ].

  (** the components of a vector in memory (Vec3::data) *)
  Definition data3 {A} (v : V3 A) : list A := [c0 v; c1 v; c2 v].

  Section Run.
    (** the curve, number of patches, number of cells and boundary conditions: attributes of the grid
        (grid.inl:17-66), the same after reading *)
    Variables (c : curve) (np gdims : V3 Z) (per : V3 bool).
    (** number of processes; ghost points (attribute ibn); number of components (NR_FIELDS, fields3d.hxx:428) *)
    Variables (size : Z) (ibn : V3 Z) (n_comps : Z).
    (** values of value-initialised particles and fields (std::vector::resize; fields3d.hxx:347) *)
    Variables (prt0 : prt) (zero : T).

    (** grid.ldims: gdims / np, grid.hxx:75-110 *)
    Definition ldims : V3 Z := gen3 (fun d => get3 gdims d / get3 np d).
    (** makeDims, src/include/io_common.h:9-14 *)
    Definition makeDims (m : Z) (d : V3 Z) : list Z := [m; c2 d; c1 d; c0 d].

    (** grid.nGlobalPatches(), src/include/mrc_domain.hxx:83-88 *)
    Definition nGlobalPatches (dm : domain) : Z := dm_nr_global_patches dm.

    (** VariableByPatch<std::vector<T>>::put, VariableByPatch.h:46-54 *)
    Definition put_by_patch (dm : domain) (r : Z) (name : string) (vec : list Z) : option write :=
      match get_local_patch_info dm r 0 with
      | Some info => put_plain name (map VInt vec) [nGlobalPatches dm] [pi_global_patch info] [alen vec]
      | None => None
      end.
    (** VariableByPatch<std::vector<Vec3<T>>>::put, VariableByPatch.h:18-26; vec[0] of an empty vector: None *)
    Definition put3_by_patch (dm : domain) (r : Z) (name : string) (vec : list (V3 val)) : option write :=
      match get_local_patch_info dm r 0, vec with
      | Some info, _ :: _ => put_plain name (flat_map data3 vec) [nGlobalPatches dm; 3] [pi_global_patch info; 0] [alen vec; 3]
      | _, _ => None
      end.
    (** VariableByPatch<std::vector<T>>::get, VariableByPatch.h:56-66 *)
    Definition get_by_patch (f : file) (dm : domain) (r n : Z) (name : string) : option (list Z) :=
      match get_local_patch_info dm r 0 with
      | Some info =>
          if shape_is f name [nGlobalPatches dm] then
            match get_variable f name [pi_global_patch info] [n] with Some vs => sequence (map as_int vs) | None => None end
          else None
      | None => None
      end.
    (** three components at a time: the memory of std::vector<Vec3<T>> (VariableByPatch.h:28-38) *)
    Fixpoint rows {A} (l : list A) : option (list (V3 A)) :=
      match l with
      | [] => Some []
      | a :: b :: c :: l => option_map (cons (v3 a b c)) (rows l)
      | _ => None
      end.
    (** VariableByPatch<std::vector<Vec3<T>>>::get, VariableByPatch.h:28-38 *)
    Definition get3_by_patch {A} (as_A : val -> option A) (f : file) (dm : domain) (r n : Z) (name : string) : option (list (V3 A)) :=
      match get_local_patch_info dm r 0 with
      | Some info =>
          if shape_is f name [nGlobalPatches dm; 3] && (0 <? n) then
            match get_variable f name [pi_global_patch info; 0] [n; 3] with
            | Some vs => match sequence (map as_A vs) with Some l => rows l | None => None end
            | None => None
            end
          else None
      | None => None
      end.

    (** MPI_Allreduce and MPI_Exscan of the number of elements on each process, particles_simple.inl:20-22 and 32-34.
        Process 0 keeps the initial 0 (MPI leaves its result undefined) *)
    Definition allreduce (n : Z -> Z) : Z := zsum (map n (zrange 0 size)).
    (** as above, particles_simple.inl:21 and 33 *)
    Definition exscan (n : Z -> Z) (r : Z) : Z := zsum (map n (zrange 0 r)).
    (** MparticlesStorage::size, particles_simple.hxx:85-92 (int; no overflow here) *)
    Definition n_prts (bufs : list (list prt)) : Z := zsum (map alen bufs).

    (** PutComponent and VariableByParticle::put, particles_simple.inl:17-27 and 53-68 *)
    Definition put_component (st : Z -> proc) (r : Z) (name : string) (get : prt -> val) : option write :=
      let vec := flat_map (map get) (s_prts (st r)) in
      let n r := n_prts (s_prts (st r)) in
      put_plain name vec [allreduce n] [exscan n r] [alen vec].

    (** Descr<Grid>::put, grid.inl:168-200; putLocal: one value per process, read as an array over the processes
        (src/kg/include/kg/io/Descr.inl:82-98) *)
    Definition put_grid (dm : domain) (st : Z -> proc) (r : Z) : list (option write) :=
      let ps := s_patches (st r) in
      [ put_plain "grid::n_local" [VInt (alen ps)] [size] [r] [1];
        put3_by_patch dm r "grid::off" (map (fun p => let o := p_off p in v3 (VInt (c0 o)) (VInt (c1 o)) (VInt (c2 o))) ps);
        put3_by_patch dm r "grid::xb" (map (fun p => let o := p_xb p in v3 (VReal (c0 o)) (VReal (c1 o)) (VReal (c2 o))) ps);
        put3_by_patch dm r "grid::xe" (map (fun p => let o := p_xe p in v3 (VReal (c0 o)) (VReal (c1 o)) (VReal (c2 o))) ps) ].

    (** Descr<MparticlesSimple>::put, particles_simple.inl:111-124 *)
    Definition put_prts (dm : domain) (st : Z -> proc) (r : Z) : list (option write) :=
      put_by_patch dm r "mprts::size_by_patch" (map alen (s_prts (st r)))
      :: map (fun '(name, get, _) => put_component st r name get) for_components.

    (** box of the fields with ghost points, fields3d.hxx:340-348: ib and im *)
    Definition fbox (bn : V3 Z) : mfields := make_mfields ldims bn n_comps 1.

    (** Descr<Mfields>::put, fields3d.inl:18-34 *)
    Definition put_flds (st : Z -> proc) (r : Z) : list (option write) :=
      map (fun '(p, s) =>
             put_variable "mflds::mflds" (map VReal s) (makeDims n_comps gdims) (makeDims 0 (p_off p)) (makeDims n_comps ldims)
               (makeDims 0 (gen3 (fun d => - get3 (ib (fbox ibn)) d))) (makeDims n_comps (im (fbox ibn))))
          (combine (s_patches (st r)) (s_flds (st r))).

    (** write_checkpoint, checkpoint.hxx:14-46, on process r *)
    Definition rank_writes (dm : domain) (st : Z -> proc) (r : Z) : option (list write) :=
      sequence (put_grid dm st r ++ put_prts dm st r ++ put_flds st r).
    (** on all processes (checkpoint.hxx:14-46) *)
    Definition checkpoint_writes (dm : domain) (st : Z -> proc) : option (list write) :=
      concat_option (map (rank_writes dm st) (zrange 0 size)).

    (** Local::get, src/kg/include/kg/io/Descr.inl:88-98 *)
    Definition get_n_local (f : file) (r : Z) : option Z :=
      if shape_is f "grid::n_local" [size] then
        match get_variable f "grid::n_local" [0] [size] with
        | Some vs => match aget vs r with Some v => as_int v | None => None end
        | None => None
        end
      else None.

    (** grid.patches.resize(n) (grid.inl:218): the patches that exist keep their dx_, new ones have none; then grid.inl:219-232 *)
    Definition set_patches (old : list patch) (offs : list (V3 Z)) (xbs xes : list (V3 T)) : list patch :=
      map (fun '(i, (off, (xb, xe))) => Patch off xb xe (match aget old i with Some p => p_dx p | None => None end))
          (combine (zrange 0 (alen offs)) (combine offs (combine xbs xes))).

    (** GetComponent, particles_simple.inl:91-96: the values in order *)
    Fixpoint set_buf (set : prt -> val -> option prt) (buf : list prt) (vec : list val) : option (list prt * list val) :=
      match buf, vec with
      | [], _ => Some ([], vec)
      | q :: buf, v :: vec =>
          match set q v, set_buf set buf vec with
          | Some q', Some (buf', rest) => Some (q' :: buf', rest)
          | _, _ => None
          end
      | _, [] => None
      end.
    (** particles_simple.inl:91-96: all patches *)
    Fixpoint set_bufs (set : prt -> val -> option prt) (bufs : list (list prt)) (vec : list val) : option (list (list prt)) :=
      match bufs with
      | [] => Some []
      | b :: bufs =>
          match set_buf set b vec with
          | Some (b', rest) => match set_bufs set bufs rest with Some bufs' => Some (b' :: bufs') | None => None end
          | None => None
          end
      end.

    (** GetComponent and VariableByParticle::get, particles_simple.inl:29-39 and 83-97; n: the number of particles on each process *)
    Definition get_component (f : file) (n : Z -> Z) (r : Z) (name : string) (set : prt -> val -> option prt)
               (bufs : list (list prt)) : option (list (list prt)) :=
      match get_variable f name [exscan n r] [n_prts bufs] with
      | Some vec => set_bufs set bufs vec
      | None => None
      end.

    (** Descr<MparticlesSimple>::get, particles_simple.inl:126-139, on process r; sizes: size_by_patch as read on each process *)
    Definition get_prts (f : file) (sizes : Z -> list Z) (r : Z) : option (list (list prt)) :=
      let bufs := map (fun n => repeat prt0 (Z.to_nat n)) (sizes r) in
      fold_left (fun o '(name, _, set) => match o with Some b => get_component f (fun r => zsum (sizes r)) r name set b | None => None end)
                for_components (Some bufs).

    (** flds(m, i, j, k) = h_flds(m, i, j, k) for the cells of the patch, fields3d.inl:60-68 *)
    Definition copy_inner (h : list T) (s : list T) : option (list T) :=
      fold_left (fun o '(m, (i, (j, k))) =>
                   match o, aget h (span_pos (strides (im (fbox (v3 0 0 0)))) i j k m) with
                   | Some s, Some v => aset s (span_pos (strides (im (fbox ibn))) (i - c0 (ib (fbox ibn))) (j - c1 (ib (fbox ibn))) (k - c2 (ib (fbox ibn))) m) v
                   | _, _ => None
                   end)
                (flat_map (fun m => flat_map (fun k => flat_map (fun j => map (fun i => (m, (i, (j, k)))) (zrange 0 (c0 ldims)))
                   (zrange 0 (c1 ldims))) (zrange 0 (c2 ldims))) (zrange 0 n_comps))
                (Some s).
    (** Descr<Mfields>::get, fields3d.inl:36-69, for a patch; the fields are new, i.e. zero (checkpoint.hxx:67, fields3d.hxx:347) *)
    Definition get_flds (f : file) (p : patch) : option (list T) :=
      if shape_is f "mflds::mflds" (makeDims n_comps gdims) then
        match get_variable f "mflds::mflds" (makeDims 0 (p_off p)) (makeDims n_comps ldims) with
        | Some vs =>
            match sequence (map as_real vs) with
            | Some h => copy_inner h (repeat zero (Z.to_nat (storage_size (fbox ibn))))
            | None => None
            end
        | None => None
        end
      else None.

    (** Descr<Grid>::get on process r, grid.inl:202-240, with the patches of the grid that is overwritten *)
    Definition get_patches (f : file) (dm : domain) (old : list patch) (r n : Z) : option (list patch) :=
      match get3_by_patch as_int f dm r n "grid::off", get3_by_patch as_real f dm r n "grid::xb", get3_by_patch as_real f dm r n "grid::xe" with
      | Some offs, Some xbs, Some xes => Some (set_patches old offs xbs xes)
      | _, _, _ => None
      end.

    (** read_checkpoint, checkpoint.hxx:52-79, on all processes: first the number of patches of each (gathered in
        mrc_domain_multi.c:171-176), then the domain, the numbers of particles, and the rest.  old: the grid's patches before *)
    Definition read_checkpoint (f : file) (old : Z -> list patch) : option (domain * list proc) :=
      match sequence (map (get_n_local f) (zrange 0 size)) with
      | None => None
      | Some counts =>
          match domain_setup c np gdims per (Some counts) size with
          | None => None
          | Some dm =>
              match sequence (map (fun r => match aget counts r with
                                            | Some n => match get_patches f dm (old r) r n, get_by_patch f dm r n "mprts::size_by_patch" with
                                                        | Some ps, Some szs => Some (ps, szs)
                                                        | _, _ => None
                                                        end
                                            | None => None
                                            end) (zrange 0 size)) with
              | None => None
              | Some l =>
                  let sizes r := match aget l r with Some (_, szs) => szs | None => [] end in
                  match sequence (map (fun '(r, (ps, _)) =>
                            match get_prts f sizes r, sequence (map (get_flds f) ps) with
                            | Some bufs, Some fl => Some (Proc ps bufs fl)
                            | _, _ => None
                            end) (combine (zrange 0 size) l)) with
                  | Some procs => Some (dm, procs)
                  | None => None
                  end
              end
          end
      end.
  End Run.
End Restart.
