(** Advancing one particle: position, momentum and velocity.  Real numbers stand for
    the floating point numbers of the code. *)
From Coq Require Import Reals.
From Verif Require Import Base.
Local Open Scope R_scope.

(** sqr, include/psc_bits.h:23 *)
Definition sqr (x : R) : R := x * x.

(** rsqrt, include/cuda_compat.h:26-30: the reciprocal of the square root *)
Definition rsqrt (x : R) : R := / sqrt x.

(** push_x, include/pushp.hxx:17-29; [invar] are the InvarX, InvarY, InvarZ of the
    dimension type *)
Definition push_x (invar : V3 bool) (dt : R) (dt_fac : R) (x v : V3 R) : V3 R :=
  let x := if c0 invar then x else v3 (c0 x + dt_fac * dt * c0 v) (c1 x) (c2 x) in
  let x := if c1 invar then x else v3 (c0 x) (c1 x + dt_fac * dt * c1 v) (c2 x) in
  if c2 invar then x else v3 (c0 x) (c1 x) (c2 x + dt_fac * dt * c2 v).

(** push_p, include/pushp.hxx:36-63 *)
Definition push_p (p E H : V3 R) (dq : R) : V3 R :=
  let pxm := c0 p + dq * c0 E in
  let pym := c1 p + dq * c1 E in
  let pzm := c2 p + dq * c2 E in
  let root := dq * rsqrt (1 + sqr pxm + sqr pym + sqr pzm) in
  let taux := c0 H * root in
  let tauy := c1 H * root in
  let tauz := c2 H * root in
  let tau := 1 / (1 + sqr taux + sqr tauy + sqr tauz) in
  let pxp := ((1 + sqr taux - sqr tauy - sqr tauz) * pxm +
              (2 * taux * tauy + 2 * tauz) * pym +
              (2 * taux * tauz - 2 * tauy) * pzm) * tau in
  let pyp := ((2 * taux * tauy - 2 * tauz) * pxm +
              (1 - sqr taux + sqr tauy - sqr tauz) * pym +
              (2 * tauy * tauz + 2 * taux) * pzm) * tau in
  let pzp := ((2 * taux * tauz + 2 * tauy) * pxm +
              (2 * tauy * tauz - 2 * taux) * pym +
              (1 - sqr taux - sqr tauy + sqr tauz) * pzm) * tau in
  v3 (pxp + dq * c0 E) (pyp + dq * c1 E) (pzp + dq * c2 E).

(** calc_v, include/pushp.hxx:68-72 *)
Definition calc_v (u : V3 R) : V3 R :=
  let root := rsqrt (1 + sqr (c0 u) + sqr (c1 u) + sqr (c2 u)) in
  v3 (c0 u * root) (c1 u * root) (c2 u * root).

(** push_particles_1vb.hxx:33-35 (also push_particles_esirkepov.hxx): the factor dq of a kind *)
Definition dq_kind (eta dt q m : R) : R := 1 / 2 * eta * dt * q / m.

(** push_particles_1vb.hxx:56-62: one particle's momentum and position, for the
    interpolated fields E and H *)
Definition advance (invar : V3 bool) (dt : R) (x p E H : V3 R) (dq : R) : V3 R * V3 R :=
  let p' := push_p p E H dq in
  (push_x invar dt 1 x (calc_v p'), p').
