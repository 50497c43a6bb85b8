(** Deposition of one particle's contribution onto a grid: src/include/psc/deposit.hxx.
    Real numbers stand for the floating point numbers of the code. *)
From Coq Require Import Reals.
From Flocq Require Import Core.
From Verif Require Import Base FieldModel.
Local Open Scope R_scope.

(** dimension types, include/dim.hxx:37-44 *)
Inductive dim_t := dim_xyz | dim_xy | dim_xz | dim_yz | dim_x | dim_y | dim_z | dim_1.

(** their InvarX, InvarY, InvarZ, include/dim.hxx:8-13 and 37-44 *)
Definition invar_of (d : dim_t) : V3 bool :=
  match d with
  | dim_xyz => v3 false false false
  | dim_xy => v3 false false true
  | dim_xz => v3 false true false
  | dim_yz => v3 true false false
  | dim_x => v3 false true true
  | dim_y => v3 true false true
  | dim_z => v3 true true false
  | dim_1 => v3 true true true
  end.

(** fint, include/psc_bits.h:7-15; the conversion to int is taken to be in range *)
Definition fint (x : R) : Z := Zfloor x.

(** nint, include/psc_bits.h:17-21: std::round, ties away from zero *)
Definition nint (x : R) : Z := ZnearestA x.

(** one component of one patch, by storage index (the view passed in
    psc/moment.hxx:28-31) *)
Definition rfield := V3 Z -> R.

(** [flds(i, j, k) += v], deposit.hxx:37-40 *)
Definition radd (f : rfield) (i : V3 Z) (v : R) : rfield := fun j => if v3_eqb i j then f j + v else f j.

(** a sequence of such statements, deposit.hxx:36-56 *)
Definition radd_all (f : rfield) (l : list (V3 Z * R)) : rfield := fold_left (fun f e => radd f (fst e) (snd e)) l f.

(** an index triple with integer arithmetic, deposit.hxx:37 *)
Definition z3 (a b c : Z) : V3 Z := v3 a b c.

(** Deposit1st, deposit.hxx:24-65; only dim_yz and dim_xyz exist *)
Definition deposit1st (d : dim_t) (l : V3 Z) (h : V3 R) (val : R) : option (list (V3 Z * R)) :=
  let '(v3 l0 l1 l2) := l in
  let '(v3 h0 h1 h2) := h in
  match d with
  | dim_yz => Some
     [ (z3 0 (l1 + 0) (l2 + 0), val * (1 - h1) * (1 - h2));
       (z3 0 (l1 + 1) (l2 + 0), val * h1 * (1 - h2));
       (z3 0 (l1 + 0) (l2 + 1), val * (1 - h1) * h2);
       (z3 0 (l1 + 1) (l2 + 1), val * h1 * h2) ]
  | dim_xyz => Some
     [ (z3 (l0 + 0) (l1 + 0) (l2 + 0), val * (1 - h0) * (1 - h1) * (1 - h2));
       (z3 (l0 + 1) (l1 + 0) (l2 + 0), val * h0 * (1 - h1) * (1 - h2));
       (z3 (l0 + 0) (l1 + 1) (l2 + 0), val * (1 - h0) * h1 * (1 - h2));
       (z3 (l0 + 1) (l1 + 1) (l2 + 0), val * h0 * h1 * (1 - h2));
       (z3 (l0 + 0) (l1 + 0) (l2 + 1), val * (1 - h0) * (1 - h1) * h2);
       (z3 (l0 + 1) (l1 + 0) (l2 + 1), val * h0 * (1 - h1) * h2);
       (z3 (l0 + 0) (l1 + 1) (l2 + 1), val * (1 - h0) * h1 * h2);
       (z3 (l0 + 1) (l1 + 1) (l2 + 1), val * h0 * h1 * h2) ]
  | _ => None
  end.

(** Deposit2nd, deposit.hxx:73-157; only dim_yz and dim_xyz exist *)
Definition deposit2nd (d : dim_t) (l : V3 Z) (h : V3 R) (val : R) : option (list (V3 Z * R)) :=
  let '(v3 l0 l1 l2) := l in
  let '(v3 h0 h1 h2) := h in
  let gm := fun h => / 2 * (/ 2 + h) * (/ 2 + h) in
  let g0 := fun h => 3 / 4 - h * h in
  let g1 := fun h => / 2 * (/ 2 - h) * (/ 2 - h) in
  match d with
  | dim_yz => Some
     [ (z3 0 (l1 - 1) (l2 - 1), gm h1 * gm h2 * val);
       (z3 0 l1 (l2 - 1), g0 h1 * gm h2 * val);
       (z3 0 (l1 + 1) (l2 - 1), g1 h1 * gm h2 * val);
       (z3 0 (l1 - 1) l2, gm h1 * g0 h2 * val);
       (z3 0 l1 l2, g0 h1 * g0 h2 * val);
       (z3 0 (l1 + 1) l2, g1 h1 * g0 h2 * val);
       (z3 0 (l1 - 1) (l2 + 1), gm h1 * g1 h2 * val);
       (z3 0 l1 (l2 + 1), g0 h1 * g1 h2 * val);
       (z3 0 (l1 + 1) (l2 + 1), g1 h1 * g1 h2 * val) ]
  | dim_xyz => Some
     [ (z3 (l0 - 1) (l1 - 1) (l2 - 1), gm h0 * gm h1 * gm h2 * val);
       (z3 l0 (l1 - 1) (l2 - 1), g0 h0 * gm h1 * gm h2 * val);
       (z3 (l0 + 1) (l1 - 1) (l2 - 1), g1 h0 * gm h1 * gm h2 * val);
       (z3 (l0 - 1) l1 (l2 - 1), gm h0 * g0 h1 * gm h2 * val);
       (z3 l0 l1 (l2 - 1), g0 h0 * g0 h1 * gm h2 * val);
       (z3 (l0 + 1) l1 (l2 - 1), g1 h0 * g0 h1 * gm h2 * val);
       (z3 (l0 - 1) (l1 + 1) (l2 - 1), gm h0 * g1 h1 * gm h2 * val);
       (z3 l0 (l1 + 1) (l2 - 1), g0 h0 * g1 h1 * gm h2 * val);
       (z3 (l0 + 1) (l1 + 1) (l2 - 1), g1 h0 * g1 h1 * gm h2 * val);
       (z3 (l0 - 1) (l1 - 1) l2, gm h0 * gm h1 * g0 h2 * val);
       (z3 l0 (l1 - 1) l2, g0 h0 * gm h1 * g0 h2 * val);
       (z3 (l0 + 1) (l1 - 1) l2, g1 h0 * gm h1 * g0 h2 * val);
       (z3 (l0 - 1) l1 l2, gm h0 * g0 h1 * g0 h2 * val);
       (z3 l0 l1 l2, g0 h0 * g0 h1 * g0 h2 * val);
       (z3 (l0 + 1) l1 l2, g1 h0 * g0 h1 * g0 h2 * val);
       (z3 (l0 - 1) (l1 + 1) l2, gm h0 * g1 h1 * g0 h2 * val);
       (z3 l0 (l1 + 1) l2, g0 h0 * g1 h1 * g0 h2 * val);
       (z3 (l0 + 1) (l1 + 1) l2, g1 h0 * g1 h1 * g0 h2 * val);
       (z3 (l0 - 1) (l1 - 1) (l2 + 1), gm h0 * gm h1 * g1 h2 * val);
       (z3 l0 (l1 - 1) (l2 + 1), g0 h0 * gm h1 * g1 h2 * val);
       (z3 (l0 + 1) (l1 - 1) (l2 + 1), g1 h0 * gm h1 * g1 h2 * val);
       (z3 (l0 - 1) l1 (l2 + 1), gm h0 * g0 h1 * g1 h2 * val);
       (z3 l0 l1 (l2 + 1), g0 h0 * g0 h1 * g1 h2 * val);
       (z3 (l0 + 1) l1 (l2 + 1), g1 h0 * g0 h1 * g1 h2 * val);
       (z3 (l0 - 1) (l1 + 1) (l2 + 1), gm h0 * g1 h1 * g1 h2 * val);
       (z3 l0 (l1 + 1) (l2 + 1), g0 h0 * g1 h1 * g1 h2 * val);
       (z3 (l0 + 1) (l1 + 1) (l2 + 1), g1 h0 * g1 h1 * g1 h2 * val) ]
  | _ => None
  end.

(** norm::Deposit1stNc, deposit.hxx:172-191 *)
Definition norm_1st_nc (d : dim_t) (ib : V3 Z) (x : V3 R) (val : R) : option (list (V3 Z * R)) :=
  let l := gen3 (fun e => fint (get3 x e)) in
  let h := gen3 (fun e => get3 x e - IZR (get3 l e)) in
  deposit1st d (gen3 (fun e => get3 l e - get3 ib e)%Z) h val.

(** norm::Deposit1stCc, deposit.hxx:193-212 *)
Definition norm_1st_cc (d : dim_t) (ib : V3 Z) (x : V3 R) (val : R) : option (list (V3 Z * R)) :=
  let l := gen3 (fun e => fint (get3 x e - / 2)) in
  let h := gen3 (fun e => get3 x e - / 2 - IZR (get3 l e)) in
  deposit1st d (gen3 (fun e => get3 l e - get3 ib e)%Z) h val.

(** norm::Deposit2ndNc, deposit.hxx:218-237 *)
Definition norm_2nd_nc (d : dim_t) (ib : V3 Z) (x : V3 R) (val : R) : option (list (V3 Z * R)) :=
  let l := gen3 (fun e => nint (get3 x e)) in
  let h := gen3 (fun e => IZR (get3 l e) - get3 x e) in
  deposit2nd d (gen3 (fun e => get3 l e - get3 ib e)%Z) h val.

(** the schemes of deposit.hxx:296-319 *)
Inductive dep_scheme := dep_1st_nc | dep_1st_cc | dep_2nd_nc.

(** the DEPOSIT_NORM template parameter, deposit.hxx:264-291 *)
Definition norm_dep (s : dep_scheme) := match s with dep_1st_nc => norm_1st_nc | dep_1st_cc => norm_1st_cc | dep_2nd_nc => norm_2nd_nc end.

(** code::Deposit, deposit.hxx:275-288 *)
Definition code_dep (s : dep_scheme) (d : dim_t) (dx : V3 R) (fnqs : R) (ib : V3 Z) (xi : V3 R) (val : R) (f : rfield) : option rfield :=
  let x := gen3 (fun e => get3 xi e * (1 / get3 dx e)) in
  match norm_dep s d ib x (fnqs * val) with
  | Some l => Some (radd_all f l)
  | None => None
  end.

(** moment_rho and psc::moment::deposit, psc/moment.hxx:36-75: the contributions of all
    particles, given as position and value *)
Fixpoint dep_particles (s : dep_scheme) (d : dim_t) (dx : V3 R) (fnqs : R) (ib : V3 Z) (prts : list (V3 R * R)) (f : rfield) : option rfield :=
  match prts with
  | [] => Some f
  | (x, val) :: prts =>
      match code_dep s d dx fnqs ib x val f with
      | Some f => dep_particles s d dx fnqs ib prts f
      | None => None
      end
  end.
