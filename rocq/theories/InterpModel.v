(** Interpolation of the fields to a particle: src/include/interpolate.hxx.  Positions are
    in units of the grid spacing.  Real numbers stand for the floating point numbers of
    the code. *)
From Coq Require Import Reals.
From Verif Require Import Base FieldModel DepositModel.
Local Open Scope R_scope.

(** ip_coeff_1st, interpolate.hxx:45-59 (get_fint_remainder, 16-26) *)
Record coeff1 := { k1_v0 : R; k1_v1 : R; k1_l : Z }.
(** its set, interpolate.hxx:48-55 *)
Definition set1 (u : R) : coeff1 := let h := u - IZR (fint u) in {| k1_v0 := 1 - h; k1_v1 := h; k1_l := fint u |}.

(** ip_coeff_2nd, interpolate.hxx:64-77 (get_nint_remainder, 31-37) *)
Record coeff2 := { k2_vm : R; k2_v0 : R; k2_vp : R; k2_l : Z }.
(** its set, interpolate.hxx:67-73 *)
Definition set2 (u : R) : coeff2 :=
  let h := IZR (nint u) - u in
  {| k2_vm := / 2 * (/ 2 + h) * (/ 2 + h); k2_v0 := 3 / 4 - h * h; k2_vp := / 2 * (/ 2 - h) * (/ 2 - h); k2_l := nint u |}.

(** the coefficients g and h of one direction, interpolate.hxx:96-109 *)
Record coeffs (C : Type) := { kg : C; kh : C }.
Arguments kg {C}.
Arguments kh {C}.
(** set, interpolate.hxx:101-105; for opt_ip_1st_ec (86-94) there is only g *)
Definition set_std {C} (set : R -> C) (xm : R) : coeffs C := {| kg := set xm; kh := set (xm - / 2) |}.

(** opt_ip_1st_ec, opt_ip_1st, opt_ip_2nd, interpolate.hxx:8-10 *)
Inductive ip_opt := ip_1st_ec | ip_1st | ip_2nd.

(** which of g and h the functions ex .. hz pass to cc for each direction,
    interpolate.hxx:310-333 (and the same at 355-378, 417-440, ...) *)
Definition cc_args {C} (k : V3 (coeffs C)) (m : qty) (c : dim3) : C * C * C :=
  let '(v3 cx cy cz) := k in
  match m, c with
  | QE, D0 => (kh cx, kg cy, kg cz)
  | QE, D1 => (kg cx, kh cy, kg cz)
  | QE, D2 => (kg cx, kg cy, kh cz)
  | _, D0 => (kg cx, kh cy, kh cz)
  | _, D1 => (kh cx, kg cy, kh cz)
  | _, D2 => (kh cx, kh cy, kg cz)
  end.

(** 1st EC, dim_xyz, interpolate.hxx:140-192 *)
Definition ec_xyz (gx gy gz : coeff1) (EM : V3 Z -> R) (m : qty) (c : dim3) : R :=
  match m, c with
  | QE, D0 => (k1_v0 gz * (k1_v0 gy * EM (z3 (k1_l gx) (k1_l gy) (k1_l gz)) + k1_v1 gy * EM (z3 (k1_l gx) (k1_l gy + 1) (k1_l
      gz))) + k1_v1 gz * (k1_v0 gy * EM (z3 (k1_l gx) (k1_l gy) (k1_l gz + 1)) + k1_v1 gy * EM (z3 (k1_l gx) (k1_l gy + 1) (k1_l
      gz + 1))))
  | QE, D1 => (k1_v0 gx * (k1_v0 gz * EM (z3 (k1_l gx) (k1_l gy) (k1_l gz)) + k1_v1 gz * EM (z3 (k1_l gx) (k1_l gy) (k1_l gz +
      1))) + k1_v1 gx * (k1_v0 gz * EM (z3 (k1_l gx + 1) (k1_l gy) (k1_l gz)) + k1_v1 gz * EM (z3 (k1_l gx + 1) (k1_l gy) (k1_l gz
      + 1))))
  | QE, D2 => (k1_v0 gy * (k1_v0 gx * EM (z3 (k1_l gx) (k1_l gy) (k1_l gz)) + k1_v1 gx * EM (z3 (k1_l gx + 1) (k1_l gy) (k1_l
      gz))) + k1_v1 gy * (k1_v0 gx * EM (z3 (k1_l gx) (k1_l gy + 1) (k1_l gz)) + k1_v1 gx * EM (z3 (k1_l gx + 1) (k1_l gy + 1)
      (k1_l gz))))
  | _, D0 => (k1_v0 gx * EM (z3 (k1_l gx) (k1_l gy) (k1_l gz)) + k1_v1 gx * EM (z3 (k1_l gx + 1) (k1_l gy) (k1_l gz)))
  | _, D1 => (k1_v0 gy * EM (z3 (k1_l gx) (k1_l gy) (k1_l gz)) + k1_v1 gy * EM (z3 (k1_l gx) (k1_l gy + 1) (k1_l gz)))
  | _, D2 => (k1_v0 gz * EM (z3 (k1_l gx) (k1_l gy) (k1_l gz)) + k1_v1 gz * EM (z3 (k1_l gx) (k1_l gy) (k1_l gz + 1)))
  end.

(** 1st EC, dim_xz, interpolate.hxx:197-240 *)
Definition ec_xz (gx gy gz : coeff1) (EM : V3 Z -> R) (m : qty) (c : dim3) : R :=
  match m, c with
  | QE, D0 => (k1_v0 gz * EM (z3 (k1_l gx) (k1_l gy) (k1_l gz)) + k1_v1 gz * EM (z3 (k1_l gx) (k1_l gy) (k1_l gz + 1)))
  | QE, D1 => (k1_v0 gx * (k1_v0 gz * EM (z3 (k1_l gx) (k1_l gy) (k1_l gz)) + k1_v1 gz * EM (z3 (k1_l gx) (k1_l gy) (k1_l gz +
      1))) + k1_v1 gx * (k1_v0 gz * EM (z3 (k1_l gx + 1) (k1_l gy) (k1_l gz)) + k1_v1 gz * EM (z3 (k1_l gx + 1) (k1_l gy) (k1_l gz
      + 1))))
  | QE, D2 => (k1_v0 gx * EM (z3 (k1_l gx) (k1_l gy) (k1_l gz)) + k1_v1 gx * EM (z3 (k1_l gx + 1) (k1_l gy) (k1_l gz)))
  | _, D0 => (k1_v0 gx * EM (z3 (k1_l gx) (k1_l gy) (k1_l gz)) + k1_v1 gx * EM (z3 (k1_l gx + 1) (k1_l gy) (k1_l gz)))
  | _, D1 => EM (z3 (k1_l gx) (k1_l gy) (k1_l gz))
  | _, D2 => (k1_v0 gz * EM (z3 (k1_l gx) (k1_l gy) (k1_l gz)) + k1_v1 gz * EM (z3 (k1_l gx) (k1_l gy) (k1_l gz + 1)))
  end.

(** 1st EC, dim_yz, interpolate.hxx:245-287 *)
Definition ec_yz (gx gy gz : coeff1) (EM : V3 Z -> R) (m : qty) (c : dim3) : R :=
  match m, c with
  | QE, D0 => (k1_v0 gz * (k1_v0 gy * EM (z3 0 (k1_l gy) (k1_l gz)) + k1_v1 gy * EM (z3 0 (k1_l gy + 1) (k1_l gz))) + k1_v1 gz *
      (k1_v0 gy * EM (z3 0 (k1_l gy) (k1_l gz + 1)) + k1_v1 gy * EM (z3 0 (k1_l gy + 1) (k1_l gz + 1))))
  | QE, D1 => (k1_v0 gz * EM (z3 0 (k1_l gy) (k1_l gz)) + k1_v1 gz * EM (z3 0 (k1_l gy) (k1_l gz + 1)))
  | QE, D2 => (k1_v0 gy * EM (z3 0 (k1_l gy) (k1_l gz)) + k1_v1 gy * EM (z3 0 (k1_l gy + 1) (k1_l gz)))
  | _, D0 => EM (z3 0 (k1_l gy) (k1_l gz))
  | _, D1 => (k1_v0 gy * EM (z3 0 (k1_l gy) (k1_l gz)) + k1_v1 gy * EM (z3 0 (k1_l gy + 1) (k1_l gz)))
  | _, D2 => (k1_v0 gz * EM (z3 0 (k1_l gy) (k1_l gz)) + k1_v1 gz * EM (z3 0 (k1_l gy) (k1_l gz + 1)))
  end.

(** cc of 1st std, dim_xz, interpolate.hxx:300-308 *)
Definition cc1_xz (gx gy gz : coeff1) (EM : V3 Z -> R) : R :=
  (k1_v0 gz * (k1_v0 gx * EM (z3 (k1_l gx) 0 (k1_l gz)) + k1_v1 gx * EM (z3 (k1_l gx + 1) 0 (k1_l gz))) + k1_v1 gz * (k1_v0 gx *
      EM (z3 (k1_l gx) 0 (k1_l gz + 1)) + k1_v1 gx * EM (z3 (k1_l gx + 1) 0 (k1_l gz + 1)))).

(** cc of 1st std, dim_yz, interpolate.hxx:344-353 *)
Definition cc1_yz (gx gy gz : coeff1) (EM : V3 Z -> R) : R :=
  (k1_v0 gz * (k1_v0 gy * EM (z3 0 (k1_l gy) (k1_l gz)) + k1_v1 gy * EM (z3 0 (k1_l gy + 1) (k1_l gz))) + k1_v1 gz * (k1_v0 gy *
      EM (z3 0 (k1_l gy) (k1_l gz + 1)) + k1_v1 gy * EM (z3 0 (k1_l gy + 1) (k1_l gz + 1)))).

(** cc of 2nd std, dim_y, interpolate.hxx:409-414 *)
Definition cc2_y (gx gy gz : coeff2) (EM : V3 Z -> R) : R :=
  (k2_vm gy * EM (z3 0 (k2_l gy - 1) 0) + k2_v0 gy * EM (z3 0 (k2_l gy) 0) + k2_vp gy * EM (z3 0 (k2_l gy + 1) 0)).

(** cc of 2nd std, dim_z, interpolate.hxx:451-456 *)
Definition cc2_z (gx gy gz : coeff2) (EM : V3 Z -> R) : R :=
  (k2_vm gz * EM (z3 0 0 (k2_l gz - 1)) + k2_v0 gz * EM (z3 0 0 (k2_l gz)) + k2_vp gz * EM (z3 0 0 (k2_l gz + 1))).

(** cc of 2nd std, dim_xy, interpolate.hxx:493-505 *)
Definition cc2_xy (gx gy gz : coeff2) (EM : V3 Z -> R) : R :=
  (k2_vm gy * (k2_vm gx * EM (z3 (k2_l gx - 1) (k2_l gy - 1) 0) + k2_v0 gx * EM (z3 (k2_l gx) (k2_l gy - 1) 0) + k2_vp gx * EM (z3
      (k2_l gx + 1) (k2_l gy - 1) 0)) + k2_v0 gy * (k2_vm gx * EM (z3 (k2_l gx - 1) (k2_l gy) 0) + k2_v0 gx * EM (z3 (k2_l gx)
      (k2_l gy) 0) + k2_vp gx * EM (z3 (k2_l gx + 1) (k2_l gy) 0)) + k2_vp gy * (k2_vm gx * EM (z3 (k2_l gx - 1) (k2_l gy + 1) 0)
      + k2_v0 gx * EM (z3 (k2_l gx) (k2_l gy + 1) 0) + k2_vp gx * EM (z3 (k2_l gx + 1) (k2_l gy + 1) 0))).

(** cc of 2nd std, dim_xz, interpolate.hxx:542-554 *)
Definition cc2_xz (gx gy gz : coeff2) (EM : V3 Z -> R) : R :=
  (k2_vm gz * (k2_vm gx * EM (z3 (k2_l gx - 1) 0 (k2_l gz - 1)) + k2_v0 gx * EM (z3 (k2_l gx) 0 (k2_l gz - 1)) + k2_vp gx * EM (z3
      (k2_l gx + 1) 0 (k2_l gz - 1))) + k2_v0 gz * (k2_vm gx * EM (z3 (k2_l gx - 1) 0 (k2_l gz)) + k2_v0 gx * EM (z3 (k2_l gx) 0
      (k2_l gz)) + k2_vp gx * EM (z3 (k2_l gx + 1) 0 (k2_l gz))) + k2_vp gz * (k2_vm gx * EM (z3 (k2_l gx - 1) 0 (k2_l gz + 1)) +
      k2_v0 gx * EM (z3 (k2_l gx) 0 (k2_l gz + 1)) + k2_vp gx * EM (z3 (k2_l gx + 1) 0 (k2_l gz + 1)))).

(** cc of 2nd std, dim_yz, interpolate.hxx:591-603 *)
Definition cc2_yz (gx gy gz : coeff2) (EM : V3 Z -> R) : R :=
  (k2_vm gz * (k2_vm gy * EM (z3 0 (k2_l gy - 1) (k2_l gz - 1)) + k2_v0 gy * EM (z3 0 (k2_l gy) (k2_l gz - 1)) + k2_vp gy * EM (z3
      0 (k2_l gy + 1) (k2_l gz - 1))) + k2_v0 gz * (k2_vm gy * EM (z3 0 (k2_l gy - 1) (k2_l gz)) + k2_v0 gy * EM (z3 0 (k2_l gy)
      (k2_l gz)) + k2_vp gy * EM (z3 0 (k2_l gy + 1) (k2_l gz))) + k2_vp gz * (k2_vm gy * EM (z3 0 (k2_l gy - 1) (k2_l gz + 1)) +
      k2_v0 gy * EM (z3 0 (k2_l gy) (k2_l gz + 1)) + k2_vp gy * EM (z3 0 (k2_l gy + 1) (k2_l gz + 1)))).

(** cc of 2nd std, dim_xyz, interpolate.hxx:640-670 *)
Definition cc2_xyz (gx gy gz : coeff2) (EM : V3 Z -> R) : R :=
  (k2_vm gz * (k2_vm gy * (k2_vm gx * EM (z3 (k2_l gx - 1) (k2_l gy - 1) (k2_l gz - 1)) + k2_v0 gx * EM (z3 (k2_l gx) (k2_l gy -
      1) (k2_l gz - 1)) + k2_vp gx * EM (z3 (k2_l gx + 1) (k2_l gy - 1) (k2_l gz - 1))) + k2_v0 gy * (k2_vm gx * EM (z3 (k2_l gx -
      1) (k2_l gy) (k2_l gz - 1)) + k2_v0 gx * EM (z3 (k2_l gx) (k2_l gy) (k2_l gz - 1)) + k2_vp gx * EM (z3 (k2_l gx + 1) (k2_l
      gy) (k2_l gz - 1))) + k2_vp gy * (k2_vm gx * EM (z3 (k2_l gx - 1) (k2_l gy + 1) (k2_l gz - 1)) + k2_v0 gx * EM (z3 (k2_l gx)
      (k2_l gy + 1) (k2_l gz - 1)) + k2_vp gx * EM (z3 (k2_l gx + 1) (k2_l gy + 1) (k2_l gz - 1)))) + k2_v0 gz * (k2_vm gy *
      (k2_vm gx * EM (z3 (k2_l gx - 1) (k2_l gy - 1) (k2_l gz)) + k2_v0 gx * EM (z3 (k2_l gx) (k2_l gy - 1) (k2_l gz)) + k2_vp gx
      * EM (z3 (k2_l gx + 1) (k2_l gy - 1) (k2_l gz))) + k2_v0 gy * (k2_vm gx * EM (z3 (k2_l gx - 1) (k2_l gy) (k2_l gz)) + k2_v0
      gx * EM (z3 (k2_l gx) (k2_l gy) (k2_l gz)) + k2_vp gx * EM (z3 (k2_l gx + 1) (k2_l gy) (k2_l gz))) + k2_vp gy * (k2_vm gx *
      EM (z3 (k2_l gx - 1) (k2_l gy + 1) (k2_l gz)) + k2_v0 gx * EM (z3 (k2_l gx) (k2_l gy + 1) (k2_l gz)) + k2_vp gx * EM (z3
      (k2_l gx + 1) (k2_l gy + 1) (k2_l gz)))) + k2_vp gz * (k2_vm gy * (k2_vm gx * EM (z3 (k2_l gx - 1) (k2_l gy - 1) (k2_l gz +
      1)) + k2_v0 gx * EM (z3 (k2_l gx) (k2_l gy - 1) (k2_l gz + 1)) + k2_vp gx * EM (z3 (k2_l gx + 1) (k2_l gy - 1) (k2_l gz +
      1))) + k2_v0 gy * (k2_vm gx * EM (z3 (k2_l gx - 1) (k2_l gy) (k2_l gz + 1)) + k2_v0 gx * EM (z3 (k2_l gx) (k2_l gy) (k2_l gz
      + 1)) + k2_vp gx * EM (z3 (k2_l gx + 1) (k2_l gy) (k2_l gz + 1))) + k2_vp gy * (k2_vm gx * EM (z3 (k2_l gx - 1) (k2_l gy +
      1) (k2_l gz + 1)) + k2_v0 gx * EM (z3 (k2_l gx) (k2_l gy + 1) (k2_l gz + 1)) + k2_vp gx * EM (z3 (k2_l gx + 1) (k2_l gy + 1)
      (k2_l gz + 1))))).

(** InterpolateEM: set_coeffs, then the function for component c of the field m (E or H),
    interpolate.hxx:702-731; None where there is no such specialization *)
Definition interp (o : ip_opt) (d : dim_t) (xm : V3 R) (EM : qty -> dim3 -> V3 Z -> R) (m : qty) (c : dim3) : option R :=
  let F := EM m c in
  let ec := fun f : coeff1 -> coeff1 -> coeff1 -> (V3 Z -> R) -> qty -> dim3 -> R => Some (f (set1 (c0 xm)) (set1 (c1 xm)) (set1 (c2 xm)) F m c) in
  let std1 := fun f : coeff1 -> coeff1 -> coeff1 -> (V3 Z -> R) -> R =>
    let '(gx, gy, gz) := cc_args (v3 (set_std set1 (c0 xm)) (set_std set1 (c1 xm)) (set_std set1 (c2 xm))) m c in Some (f gx gy gz F) in
  let std2 := fun f : coeff2 -> coeff2 -> coeff2 -> (V3 Z -> R) -> R =>
    let '(gx, gy, gz) := cc_args (v3 (set_std set2 (c0 xm)) (set_std set2 (c1 xm)) (set_std set2 (c2 xm))) m c in Some (f gx gy gz F) in
  match o, d with
  | _, dim_1 => Some (F (z3 0 0 0))
  | ip_1st_ec, dim_xyz => ec ec_xyz
  | ip_1st_ec, dim_xz => ec ec_xz
  | ip_1st_ec, dim_yz => ec ec_yz
  | ip_1st, dim_xz => std1 cc1_xz
  | ip_1st, dim_yz => std1 cc1_yz
  | ip_2nd, dim_y => std2 cc2_y
  | ip_2nd, dim_z => std2 cc2_z
  | ip_2nd, dim_xy => std2 cc2_xy
  | ip_2nd, dim_xz => std2 cc2_xz
  | ip_2nd, dim_yz => std2 cc2_yz
  | ip_2nd, dim_xyz => std2 cc2_xyz
  | _, _ => None
  end.
