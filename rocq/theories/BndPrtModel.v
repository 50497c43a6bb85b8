(** Boundary processing of particles before the exchange:
    src/include/bnd_particles_impl.hxx (process_patch) with cellPosition of
    src/include/particle_indexer.hxx.  Real numbers, with every floating point
    operation followed by a rounding function (the identity for exact arithmetic). *)
From Coq Require Import Reals.
From Flocq Require Import Core.
From Verif Require Import Base Arr IndexerModel.
Local Open Scope R_scope.

(** the arithmetic of real_t and of double, and the values of the two constants of
    bnd_particles_impl.hxx:179 (1. - 1e-6, a double) and 199 (1e-6f) *)
Record arith := { rnd : R -> R; rndd : R -> R; shrink : R; tiny : R }.

(** exact arithmetic for bnd_particles_impl.hxx:92-218 *)
Definition exact : arith := {| rnd := fun x => x; rndd := fun x => x; shrink := 1 - / 1000000; tiny := / 1000000 |}.

(** psc_bits.h:7-15 and particle_indexer.hxx:74: the cell of a position in one direction;
    None: the conversion to int overflows *)
Definition cell_position (a : arith) (dxi x : R) : option Z := int_op (Zfloor (rnd a (x * dxi))).

(** grid/BC.h:16-22 *)
Inductive bnd_prt := PRT_REFLECTING | PRT_PERIODIC | PRT_ABSORBING | PRT_OPEN.

(** comparison with BND_PRT_PERIODIC, bnd_particles_impl.hxx:136 and 165 *)
Definition is_periodic (b : bnd_prt) : bool := match b with PRT_PERIODIC => true | _ => false end.

(** what process_patch uses of the grid and of the patch (bnd_particles_impl.hxx:100-102,
    136, 165): ldims, dx_inv, patch_size, atBoundaryLo, atBoundaryHi, bc.prt_lo, bc.prt_hi *)
Record pgeom := { pg_ld : V3 Z; pg_dxi : V3 R; pg_ps : V3 R; pg_at_lo : V3 bool; pg_at_hi : V3 bool; pg_lo : V3 bnd_prt; pg_hi : V3 bnd_prt }.

(** a particle: position, momentum, and the rest (kind, charge, id), particle_simple.hxx:38-41 *)
Record particle (T : Type) := mkP { p_x : V3 R; p_u : V3 R; p_t : T }.
Arguments mkP {T}.
Arguments p_x {T}.
Arguments p_u {T}.
Arguments p_t {T}.

(** one direction of the slow path (bnd_particles_impl.hxx:135-197): new position, momentum and direction to go to, or drop *)
Inductive moved := Moved (x u : R) (dir : Z) | Dropped.

(** bnd_particles_impl.hxx:135-197 for one direction d; pos is pos[d] computed at line 120 *)
Definition bnd_dir (a : arith) (g : pgeom) (d : dim3) (pos : Z) (x u : R) : option moved :=
  let ld := get3 (pg_ld g) d in
  let ps := get3 (pg_ps g) d in
  let cell := cell_position a (get3 (pg_dxi g) d) in
  if (pos <? 0)%Z then
    if negb (get3 (pg_at_lo g) d) || is_periodic (get3 (pg_lo g) d) then
      let x := rnd a (x + ps) in
      match cell x with
      | Some ci => Some (if (ld <=? ci)%Z then Moved 0 u 0 else Moved x u (-1))
      | None => None
      end
    else match get3 (pg_lo g) d with
         | PRT_REFLECTING => Some (Moved (- x) (- u) 0)
         | _ => Some Dropped
         end
  else if (ld <=? pos)%Z then
    if negb (get3 (pg_at_hi g) d) || is_periodic (get3 (pg_hi g) d) then
      let x := rnd a (x - ps) in
      match cell x with
      | Some ci => Some (if (ci <? 0)%Z then Moved 0 u 1 else Moved x u 1)
      | None => None
      end
    else match get3 (pg_hi g) d with
         | PRT_REFLECTING =>
             let x := rnd a (rnd a (2 * ps) - x) in
             match cell x with
             | Some ci => Some (Moved (if (ld <=? ci)%Z then rnd a (rndd a (x * shrink a)) else x) (- u) 0)
             | None => None
             end
         | _ => Some Dropped
         end
  else Some (Moved x u 0).

(** bnd_particles_impl.hxx:198-205: small negative positions become 0; None: an assert fails *)
Definition bnd_check (a : arith) (ps x : R) : option R :=
  let x := if Rlt_bool x 0 && Rlt_bool (- tiny a) x then 0 else x in
  if Rle_bool 0 x && Rle_bool x ps then Some x else None.

(** the loop over d of bnd_particles_impl.hxx:134-206; state: position, momentum, dir, drop *)
Definition bnd_step (a : arith) (g : pgeom) (pos : V3 Z) (st : option (V3 R * V3 R * V3 Z * bool)) (d : dim3)
  : option (V3 R * V3 R * V3 Z * bool) :=
  match st with
  | None => None
  | Some (x, u, dir, drop) =>
      match bnd_dir a g d (get3 pos d) (get3 x d) (get3 u d) with
      | None => None
      | Some Dropped => Some (x, u, dir, true)
      | Some (Moved x' u' k) =>
          if drop then Some (set3 x d x', set3 u d u', set3 dir d k, true)
          else match bnd_check a (get3 (pg_ps g) d) x' with
               | Some x'' => Some (set3 x d x'', set3 u d u', set3 dir d k, false)
               | None => None
               end
      end
  end.

(** cellPosition of all three components, particle_indexer.hxx:76-83 *)
Definition cell_position3 (a : arith) (g : pgeom) (x : V3 R) : option (V3 Z) :=
  match cell_position a (c0 (pg_dxi g)) (c0 x), cell_position a (c1 (pg_dxi g)) (c1 x), cell_position a (c2 (pg_dxi g)) (c2 x) with
  | Some i, Some j, Some k => Some (v3 i j k)
  | _, _, _ => None
  end.

(** where the particle goes (bnd_particles_impl.hxx:207-215): it stays, is put in the buffer for direction dir, or is removed *)
Inductive fate (T : Type) := Keep (p : particle T) | Send (dir : V3 Z) (p : particle T) | Drop.
Arguments Keep {T}.
Arguments Send {T}.
Arguments Drop {T}.

(** the body of the loop over particles, bnd_particles_impl.hxx:116-215; None: an assert
    fails or an integer overflows.  The entry left in the buffer for a dropped particle is
    not modelled (it is overwritten or cut off). *)
Definition process_one {T} (a : arith) (g : pgeom) (prt : particle T) : option (fate T) :=
  match cell_position3 a g (p_x prt) with
  | None => None
  | Some pos =>
      if is_valid_cell_position (pg_ld g) pos then Some (Keep prt)
      else
        match fold_left (bnd_step a g pos) dims3 (Some (p_x prt, p_u prt, v3 0 0 0, false)%Z) with
        | None => None
        | Some (x, u, dir, true) => Some Drop
        | Some (x, u, dir, false) =>
            let prt := mkP x u (p_t prt) in
            if ((c0 dir =? 0) && (c1 dir =? 0) && (c2 dir =? 0))%Z then
              match cell_position3 a g x with
              | Some cpos => match valid_cell_index (pg_ld g) cpos with Some _ => Some (Keep prt) | None => None end
              | None => None
              end
            else Some (Send dir prt)
        end
  end.

(** mrc_ddc.h:64-67 *)
Definition dir2idx (dir : V3 Z) : Z := (((c2 dir + 1) * 3 + c1 dir + 1) * 3 + c0 dir + 1)%Z.

(** nei[dir1].send_buf.push_back, bnd_particles_impl.hxx:212-213; the buffers of the patch
    as a function of dir1 = dir2idx(dir) *)
Definition push_back {T} (sends : Z -> list T) (i : Z) (p : T) : Z -> list T :=
  fun j => if (j =? i)%Z then sends j ++ [p] else sends j.

(** the loop over n of bnd_particles_impl.hxx:116-216, working in place on the buffer;
    state: buffer, head, send buffers *)
Definition process_step {T} (a : arith) (g : pgeom) (st : option (list (particle T) * Z * (Z -> list (particle T)))) (n : Z)
  : option (list (particle T) * Z * (Z -> list (particle T))) :=
  match st with
  | None => None
  | Some (buf, head, sends) =>
      match aget buf n with
      | None => None
      | Some prt =>
          match process_one a g prt with
          | None => None
          | Some (Keep p) =>
              match aset buf n p with
              | Some buf => match aset buf head p with Some buf => Some (buf, head + 1, sends)%Z | None => None end
              | None => None
              end
          | Some (Send dir p) =>
              match aset buf n p with Some buf => Some (buf, head, push_back sends (dir2idx dir) p) | None => None end
          | Some Drop => Some (buf, head, sends)
          end
      end
  end.

(** process_patch, bnd_particles_impl.hxx:92-218 *)
Definition process_patch {T} (a : arith) (g : pgeom) (buf : list (particle T)) : option (list (particle T) * (Z -> list (particle T))) :=
  match fold_left (process_step a g) (zrange 0 (alen buf)) (Some (buf, 0%Z, fun _ => [])) with
  | Some (buf, head, sends) => Some (firstn (Z.to_nat head) buf, sends)
  | None => None
  end.

(** the geometry of a patch from the domain, in the arithmetic of double and then real_t:
    grid/domain.hxx:45-46 (dx, dx_inv), grid.hxx:84-88 (xb, xe), 90-99 (invariant directions),
    114-118 (atBoundary),
    bnd_particles_impl.hxx:102 (patch_size), particle_indexer.hxx:69 (dxi_); length and
    corner of the domain, its cells gdims, and the first cell off of the patch *)
Definition patch_geom (a : arith) (gdims ld off : V3 Z) (length corner : V3 R) (lo hi : V3 bnd_prt) : pgeom :=
  let dx := fun d => rndd a (get3 length d / IZR (get3 gdims d)) in
  let xb := fun d => rndd a (rndd a (IZR (get3 off d) * dx d) + get3 corner d) in
  let xe := fun d => rndd a (rndd a (IZR (get3 off d + get3 ld d) * dx d) + get3 corner d) in
  {| pg_ld := ld;
     pg_dxi := gen3 (fun d => rnd a (rndd a (IZR (get3 gdims d) / get3 length d)));
     pg_ps := gen3 (fun d => rnd a (rndd a (xe d - xb d)));
     pg_at_lo := gen3 (fun d => get3 off d =? 0)%Z;
     pg_at_hi := gen3 (fun d => get3 off d + get3 ld d =? get3 gdims d)%Z;
     pg_lo := gen3 (fun d => if (get3 gdims d =? 1)%Z then PRT_PERIODIC else get3 lo d);
     pg_hi := gen3 (fun d => if (get3 gdims d =? 1)%Z then PRT_PERIODIC else get3 hi d) |}.
