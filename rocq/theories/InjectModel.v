(** Injecting particles at the lower boundary in y: src/include/boundary_injector.hxx
    (BoundaryInjector, ParticleGeneratorMaxwellian), with the injector of src/include/injector_simple.hxx.
    Real numbers stand for the floating point numbers; NaN is the None of [vel_to_4vel] only.  The random numbers are
    arguments.  Ids, kinds and tags of the particles are not modelled.
    [None]: a failed assert, a conversion to int out of range, or an access out of bounds. *)
From Coq Require Import Reals.
From Flocq Require Import Core.
From Verif Require Import Base Arr IndexerModel RangeModel BndPrtModel FieldModel DepositModel CurrentModel PushModel SetupModel GaussModel.
Local Open Scope R_scope.

(** vel_to_4vel, setup_particles.hxx:38-43.  [None]: 1 - v.mag2() is not positive, the result is NaN (or
    infinite, of which calc_v makes NaN) *)
Definition vel_to_4vel (v : V3 R) : option (V3 R) :=
  let m := 1 - (sqr (c0 v) + sqr (c1 v) + sqr (c2 v)) in
  if Rlt_dec 0 m then let gamma := 1 / sqrt m in Some (gen3 (fun d => get3 v d * gamma)) else None.

(** the random numbers of one call of get: of uniform_dist and of vdfs, boundary_injector.hxx:35-50 *)
Record draw := { dr_x : V3 R; dr_u : V3 R }.

(** what is used of the grid, the patch and the injector: ldims, ibn, domain.dx, dt, norm.fnqs, the dimension type
    (grid.hxx:94-140), patches[p].xb and xe (grid.hxx:38-42); correct_gamma and the charge of the kind
    (boundary_injector.hxx:24-33), prts_per_unit_density_ (line 87), and the Current (line 80) *)
Record inj := { in_ld : V3 Z; in_ibn : V3 Z; in_g : cgrid; in_dim : dim_t; in_xb : V3 R; in_xe : V3 R;
                in_correct : bool; in_q : R; in_ppud : R; in_sch : scheme }.

(** ParticleGeneratorMaxwellian::get, boundary_injector.hxx:35-50: position and momentum (weight 1) *)
Definition generate (correct_gamma : bool) (r : draw) (min_pos pos_range : V3 R) : V3 R * option (V3 R) :=
  (gen3 (fun d => get3 min_pos d + get3 (dr_x r) d * get3 pos_range d),
   if correct_gamma then vel_to_4vel (dr_u r) else Some (dr_u r)).

(** current.calc_j, boundary_injector.hxx:155-157, for the schemes of the 1vb pushers (as in GaussModel, but lf and lg are given) *)
Definition calc_j_1vb (sc : scheme) (d : dim_t) (g : cgrid) (q : R) (xm xp : V3 R) (lf lg : V3 Z) (v : V3 R) : option (list entry) :=
  match sc, d with
  | sch_split, dim_xyz => Some (calc_j_split g vb_xyz q xm xp v)
  | sch_split, dim_yz => Some (calc_j_split g vb_yz q xm xp v)
  | sch_zigzag, dim_xyz => Some (calc_j_zigzag g vb_xyz q xm xp v)
  | sch_zigzag, dim_yz => Some (calc_j_zigzag g vb_yz q xm xp v)
  | sch_var1, dim_yz => Some (calc_j_var1 g q xm xp lf lg v)
  | sch_2d, dim_yz => Some (calc_j_2d g q xm xp lf lg)
  | _, _ => None
  end.

(** the current has storage there, include/fields.hxx:47-64 *)
Definition j_stored (I : inj) (e : entry) : bool :=
  forallb (fun d => (- get3 (in_ibn I) d <=? get3 (snd (fst e)) d)%Z && (get3 (snd (fst e)) d <? get3 (in_ld I) d + get3 (in_ibn I) d)%Z) dims3.

(** InjectorSimple::Patch::operator(), injector_simple.hxx:21-37: position relative to the patch, and qni_wni *)
Definition inject_at (I : inj) (x u : V3 R) : option (particle R) :=
  if forallb (fun d => Rle_bool (get3 (in_xb I) d) (get3 x d) && Rle_bool (get3 x d) (get3 (in_xe I) d)) dims3
  then Some (mkP (gen3 (fun d => get3 x d - get3 (in_xb I) d)) u (1 * in_q I)) else None.

(** one particle, boundary_injector.hxx:126-152; what is added to the particles and to the current.  The particles move as in dim_y
    (line 158): invariant in x and z.  With a NaN in prt.u, prt.x[1] is NaN, the comparison of line 133 is false,
    and the assert of injector_simple.hxx:25 fails *)
Definition inject_one (I : inj) (idx : V3 Z) (r : draw) : option (list (particle R) * list entry) :=
  let dx := cg_dx (in_g I) in
  let corner := gen3 (fun d => IZR (get3 idx d) * get3 dx d) in
  let '(initial_x, u) := generate (in_correct I) r corner dx in
  match u with
  | None => None
  | Some u =>
      let v := calc_v u in
      let x := push_x (v3 true false true) (cg_dt (in_g I)) 1 initial_x v in
      if Rlt_dec (get3 x D1) 0 then Some ([], [])
      else
        match inject_at I (gen3 (fun d => get3 x d + get3 (in_xb I) d)) u with
        | None => None
        | Some p =>
            let initial_pos := gen3 (fun d => get3 initial_x d / get3 dx d) in
            let final_pos := gen3 (fun d => get3 x d / get3 dx d) in
            let final_idx := gen3 (fun d => fint (get3 final_pos d)) in
            match calc_j_1vb (in_sch I) (in_dim I) (in_g I) (in_q I * 1) initial_pos final_pos final_idx idx v with
            | Some l => if forallb (j_stored I) l then Some ([p], l) else None
            | None => None
            end
        end
  end.

(** one after the other: all that is added, boundary_injector.hxx:120-154 *)
Definition join {A B} (l : list (option (list A * list B))) : option (list A * list B) :=
  option_map (fun l => (concat (map fst l), concat (map snd l))) (all_some l).

(** the particles of one cell, boundary_injector.hxx:122-153; frac is the random number of get_n_in_cell *)
Definition inject_cell (I : inj) (frac : V3 Z -> R) (dr : V3 Z -> Z -> draw) (idx : V3 Z) : option (list (particle R) * list entry) :=
  match n_in_cell 1 (in_ppud I) true (frac idx) with
  | Some n => join (map (fun k => inject_one I idx (dr idx k)) (zrange 0 n))
  | None => None
  end.

(** one patch, boundary_injector.hxx:105-154; at_lo is grid.atBoundaryLo(p, 1) *)
Definition inject_patch (I : inj) (at_lo : bool) (frac : V3 Z -> R) (dr : V3 Z -> Z -> draw) : option (list (particle R) * list entry) :=
  if at_lo then
    match vr_visits (Z.to_nat (c0 (in_ld I) * c2 (in_ld I))) [0; -1; 0]%Z [c0 (in_ld I); 0; c2 (in_ld I)]%Z with
    | Some cells => join (map (fun l => inject_cell I frac dr (idx3 l)) cells)
    | None => None
    end
  else Some ([], []).
