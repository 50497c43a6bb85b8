(** What injection at the lower boundary in y should do. *)
From Coq Require Import Reals.
From Flocq Require Import Core.
From Verif Require Import Base Arr RSum FieldModel FieldSpec BndPrtModel DepositModel DepositSpec CurrentModel GaussModel InjectModel.
Local Open Scope R_scope.

(** A patch in three dimensions or in y and z, with at least one layer of ghost points; light does not cross a cell in y in a step.
    There is code for the current in this number of dimensions; the schemes [sch_split] and [sch_zigzag] need the step to be at most half
    a cell in the direction left out (C24).  The number of particles in a cell fits an int. *)
Definition inject_run (I : inj) : Prop :=
  let inv := invar_of (in_dim I) in
  match in_sch I with sch_split | sch_zigzag => in_dim I = dim_xyz \/ in_dim I = dim_yz | sch_var1 | sch_2d => in_dim I = dim_yz | _ => False end /\
  (forall d, (0 < get3 (in_ld I) d)%Z /\ 0 < get3 (cg_dx (in_g I)) d /\ get3 (in_xe I) d = get3 (in_xb I) d + IZR (get3 (in_ld I) d) * get3 (cg_dx (in_g I)) d /\
     if get3 inv d then get3 (in_ld I) d = 1%Z /\ get3 (in_ibn I) d = 0%Z /\ match in_sch I with sch_split | sch_zigzag => 2 * cg_dt (in_g I) <= get3 (cg_dx (in_g I)) d | _ => True end
     else (1 <= get3 (in_ibn I) d)%Z) /\
  0 < cg_dt (in_g I) < c1 (cg_dx (in_g I)) /\ 0 <= in_ppud I < 2147483647.

(** the random numbers between 0 and 1 *)
Definition uniform_ok (frac : V3 Z -> R) (dr : V3 Z -> Z -> draw) : Prop :=
  forall i, 0 <= frac i < 1 /\ forall k d, 0 <= get3 (dr_x (dr i k)) d < 1.

(** the square of a velocity *)
Definition mag2 (v : V3 R) : R := c0 v * c0 v + c1 v * c1 v + c2 v * c2 v.

(** the velocities drawn, if they are velocities, are slower than light *)
Definition slower_than_light (I : inj) (dr : V3 Z -> Z -> draw) : Prop :=
  in_correct I = true -> forall i k, mag2 (dr_u (dr i k)) < 1.

(** the velocity meant: the one drawn, or that of the momentum drawn *)
Definition velocity (I : inj) (r : draw) (d : dim3) : R :=
  if in_correct I then get3 (dr_u r) d else get3 (dr_u r) d / sqrt (1 + mag2 (dr_u r)).

(** its position after the step, for a particle from the cell below (i, 0, k): only y changes *)
Definition arrives (I : inj) (i k : Z) (r : draw) : V3 R :=
  let dx := cg_dx (in_g I) in
  v3 ((IZR i + c0 (dr_x r)) * c0 dx) ((c1 (dr_x r) - 1) * c1 dx + cg_dt (in_g I) * velocity I r D1) ((IZR k + c2 (dr_x r)) * c2 dx).

(** the particle there, with the momentum of that velocity *)
Definition arrived (I : inj) (i k : Z) (r : draw) : particle R :=
  let v := v3 (velocity I r D0) (velocity I r D1) (velocity I r D2) in
  mkP (arrives I i k r) (gen3 (fun d => get3 v d / sqrt (1 - mag2 v))) (in_q I).

(** all particles that arrive: of every cell below the patch, as many as asked for, those that cross y = 0 *)
Definition arrivals (I : inj) (frac : V3 Z -> R) (dr : V3 Z -> Z -> draw) : list (particle R) :=
  flat_map (fun i => flat_map (fun k => flat_map (fun n =>
      let r := dr (v3 i (-1) k)%Z n in if Rlt_dec (c1 (arrives I i k r)) 0 then [] else [arrived I i k r])
    (zrange 0 (Zfloor (in_ppud I + frac (v3 i (-1) k)%Z)))) (zrange 0 (c2 (in_ld I)))) (zrange 0 (c0 (in_ld I))).

(** in the patch, in the first row of cells *)
Definition in_first_row (I : inj) (p : particle R) : Prop :=
  (forall d, 0 <= get3 (p_x p) d < IZR (get3 (in_ld I) d) * get3 (cg_dx (in_g I)) d) /\ c1 (p_x p) < c1 (cg_dx (in_g I)).

(** a particle started at x: straight below, less than a cell away from the patch *)
Definition started (I : inj) (x : V3 R) (p : particle R) : Prop :=
  c0 x = c0 (p_x p) /\ c2 x = c2 (p_x p) /\ - c1 (cg_dx (in_g I)) <= c1 x < 0.

(** the charge density on the node n (first order) of charges at the positions xs *)
Definition density_at (I : inj) (xs : list (V3 R)) (n : V3 Z) : R :=
  rsum (map (fun x => cg_fnqs (in_g I) * in_q I * share hat (invar_of (in_dim I)) (gen3 (fun d => get3 x d / get3 (cg_dx (in_g I)) d)) n) xs).

(** div J by differences to the points below *)
Definition div_J (I : inj) (J : current) (n : V3 Z) : R := div_minus (invar_of (in_dim I)) (cg_dx (in_g I)) J n.
