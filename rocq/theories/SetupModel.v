(** Creating the initial particles: src/include/setup_particles.hxx (SetupParticles), with the
    injector of src/include/injector_simple.hxx.  Real numbers stand for the floating point
    numbers.  Momenta, tags and ids of the particles are not modelled.  [None]: a failed
    assert, a conversion to int out of range, or an access out of bounds. *)
From Coq Require Import Reals.
From Flocq Require Import Core.
From Verif Require Import Base Arr IndexerModel RangeModel BndPrtModel.
Local Open Scope R_scope.

(** conversion of a floating point number to int (setup_particles.hxx:118, 120, 183 and 188):
    truncation *)
Definition to_int (x : R) : option Z := int_op (Ztrunc x).

(** get_n_in_cell, setup_particles.hxx:108-121; u is the random number drawn in line 118 *)
Definition n_in_cell (density ppud : R) (fractional : bool) (u : R) : option Z :=
  if Req_EM_T density 0 then Some 0%Z
  else if fractional then to_int (density * ppud + u)
  else option_map (Z.max 1) (to_int (density * ppud + / 2)).

(** centering.hxx:8-14; the other two need a component (assert, 28-30) *)
Inductive centering := NC | CC.

(** the members of SetupParticles, setup_particles.hxx:350-362: the charges of kinds_,
    norm_.prts_per_unit_density, n_populations_, neutralizing_population,
    fractional_n_particles_per_cell, centerer.c, random_offsets *)
Record setup_prm := { st_q : list R; st_ppud : R; st_npop : Z; st_neutral : Z; st_frac : bool; st_center : centering; st_random : bool }.

(** n_populations_, setup_particles.hxx:132-142 *)
Definition populations (q : list R) (n_populations : Z) : Z := if (n_populations =? 0)%Z then alen q else n_populations.

(** what is used of the grid and the patch: ldims, isInvar, domain.dx, xb, xe (grid.hxx:38-45 and
    84-88) *)
Record sgeom := { sg_ld : V3 Z; sg_inv : V3 bool; sg_dx : V3 R; sg_xb : V3 R; sg_xe : V3 R }.

(** get_nc and get_cc, grid.hxx:45 and 50-53 *)
Definition get_nc (g : sgeom) (i : Z) (d : dim3) : R := get3 (sg_xb g) d + IZR i * get3 (sg_dx g) d.
(** grid.hxx:50-53 *)
Definition get_cc (g : sgeom) (i : Z) (d : dim3) : R := get3 (sg_xb g) d + (IZR i + / 2) * get3 (sg_dx g) d.

(** the position of a cell, setup_particles.hxx:161-168 with centering.hxx:25-42 *)
Definition cell_pos (c : centering) (g : sgeom) (index : V3 Z) : V3 R :=
  gen3 (fun d => if get3 (sg_inv g) d then get_nc g (get3 index d) d
                 else match c with CC => get_cc g (get3 index d) d | NC => get_nc g (get3 index d) d end).

(** init_np, setup_particles.hxx:83-103: population, position, index and the kind set beforehand,
    to density and kind.  A function: the same arguments give the same values.  It may also use
    the number of the patch on its process, which is left out here. *)
Definition init_t := Z -> V3 R -> V3 Z -> Z -> R * Z.

(** the arguments given to op: n_in_cell, np.n and np.kind, setup_particles.hxx:189 *)
Record pop_t := { po_n : Z; po_density : R; po_kind : Z }.

(** one iteration of the loop over populations, setup_particles.hxx:171-189; n_q is n_q_in_cell
    (an int: each addition of a double is truncated); u is the random number *)
Definition pop_step (s : setup_prm) (init : init_t) (pos : V3 R) (index : V3 Z) (u : Z -> R) (n_q pop : Z) : option (pop_t * Z) :=
  let '(density, kind) := init pop pos index (if (pop <? alen (st_q s))%Z then pop else 0%Z) in
  if negb (pop =? st_neutral s)%Z then
    match n_in_cell density (st_ppud s) (st_frac s) (u pop), aget (st_q s) kind with
    | Some n, Some q => option_map (fun n_q => ({| po_n := n; po_density := density; po_kind := kind |}, n_q)) (to_int (IZR n_q + q * IZR n))
    | _, _ => None
    end
  else if negb (st_neutral s =? st_npop s - 1)%Z then None
  else
    match aget (st_q s) kind with
    | Some q => if Req_EM_T q 0 then None
                else option_map (fun n => ({| po_n := n; po_density := density; po_kind := kind |}, n_q)) (to_int (IZR (- n_q) / q))
    | None => None
    end.

(** the loop over populations of a cell, setup_particles.hxx:170-190 *)
Fixpoint pops_loop (s : setup_prm) (init : init_t) (pos : V3 R) (index : V3 Z) (u : Z -> R) (n_q : Z) (pops : list Z) : option (list pop_t) :=
  match pops with
  | [] => Some []
  | pop :: pops =>
      match pop_step s init pos index u n_q pop with
      | Some (x, n_q) => option_map (cons x) (pops_loop s init pos index u n_q pops)
      | None => None
      end
  end.

(** op_cellwise, setup_particles.hxx:156-192, as the list of the calls of op: cell, position of the cell
    and arguments; the random numbers depend on cell and population *)
Definition cell_pops (s : setup_prm) (init : init_t) (g : sgeom) (u : V3 Z -> Z -> R) (index : V3 Z) : option (list pop_t) :=
  pops_loop s init (cell_pos (st_center s) g index) index (u index) 0 (zrange 0 (st_npop s)).

(** the loop over the cells of a patch, setup_particles.hxx:160 (VecRange, RangeModel) *)
Definition cells_of (ld : V3 Z) : option (list (list Z)) :=
  vr_visits (Z.to_nat (c0 ld * c1 ld * c2 ld)) [0; 0; 0]%Z [c0 ld; c1 ld; c2 ld].

(** an index triple from the list of RangeModel (Int3, setup_particles.hxx:160) *)
Definition idx3 (l : list Z) : V3 Z := v3 (nth 0 l 0%Z) (nth 1 l 0%Z) (nth 2 l 0%Z).

(** op_cellwise on a patch, setup_particles.hxx:156-192 *)
Definition op_cellwise (s : setup_prm) (init : init_t) (g : sgeom) (u : V3 Z -> Z -> R) : option (list (V3 Z * pop_t)) :=
  match cells_of (sg_ld g) with
  | Some cells =>
      option_map (@concat _) (all_some (map (fun l => option_map (map (pair (idx3 l))) (cell_pops s init g u (idx3 l))) cells))
  | None => None
  end.

(** getWeight, setup_particles.hxx:245-252 *)
Definition get_weight (s : setup_prm) (density : R) (n : Z) : R :=
  if st_frac s then 1 else density * st_ppud s / IZR n.

(** a particle made by the injector: position in the patch, qni_wni and kind,
    injector_simple.hxx:29-36 *)
Record sprt := { sp_x : V3 R; sp_qw : R; sp_kind : Z }.

(** InjectorSimple::Patch::operator(), injector_simple.hxx:21-37 *)
Definition inject (s : setup_prm) (g : sgeom) (x : V3 R) (w : R) (kind : Z) : option sprt :=
  if forallb (fun d => Rle_bool (get3 (sg_xb g) d) (get3 x d) && Rle_bool (get3 x d) (get3 (sg_xe g) d)) dims3 then
    match aget (st_q s) kind with
    | Some q => Some {| sp_x := gen3 (fun d => get3 x d - get3 (sg_xb g) d); sp_qw := w * q; sp_kind := kind |}
    | None => None
    end
  else None.

(** one particle, setup_particles.hxx:311-325; off are the random offsets (line 318) *)
Definition make_prt (s : setup_prm) (g : sgeom) (index : V3 Z) (p : pop_t) (off : dim3 -> R) : option sprt :=
  let pos := cell_pos (st_center s) g index in
  let x := if st_random s then gen3 (fun d => if get3 (sg_inv g) d then get3 pos d else get3 pos d + off d * get3 (sg_dx g) d) else pos in
  inject s g x (get_weight s (po_density p) (po_n p)) (po_kind p).

(** the loop over cnt, setup_particles.hxx:310-327; the offsets depend on cell, kind and cnt (two populations of
    the same kind get the same offsets in a cell here; nothing depends on that) *)
Definition make_prts (s : setup_prm) (g : sgeom) (off : V3 Z -> Z -> Z -> dim3 -> R) (c : V3 Z * pop_t) : option (list sprt) :=
  all_some (map (fun cnt => make_prt s g (fst c) (snd c) (off (fst c) (po_kind (snd c)) cnt)) (zrange 0 (po_n (snd c)))).

(** setupParticles on one patch, setup_particles.hxx:304-328 *)
Definition setup_patch (s : setup_prm) (init : init_t) (g : sgeom) (u : V3 Z -> Z -> R) (off : V3 Z -> Z -> Z -> dim3 -> R) : option (list sprt) :=
  match op_cellwise s init g u with
  | Some calls => option_map (@concat _) (all_some (map (make_prts s g off) calls))
  | None => None
  end.

(** partition, setup_particles.hxx:341-355: n_prts_by_patch of one patch; the elements are unsigned *)
Definition partition_patch (s : setup_prm) (init : init_t) (g : sgeom) (u : V3 Z -> Z -> R) : option Z :=
  option_map (fun calls => fold_left (fun n c => uint (n + po_n (snd c))) calls 0%Z) (op_cellwise s init g u).
