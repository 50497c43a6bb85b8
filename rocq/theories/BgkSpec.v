(** What the distribution of the azimuthal velocity is to be. *)
From Coq Require Import Reals.
From Verif Require Import Base.
Local Open Scope R_scope.

(** the distribution f = exp(-w) (1 - h0 exp(-4 k l^2)) of v, where w = v^2 / 2 is the energy and l = rho (v - A) the angular momentum, in units of the
    thermal velocity and of the Debye length, up to a factor: comments of psc_bgk_util/bgk_params.hxx:12-22 *)
Definition bgk_density (k h0 A rho v : R) : R := exp (- (v * v) / 2) * (1 - h0 * exp (- 4 * k * ((rho * (v - A)) * (rho * (v - A))))).
(** f tends to l for large x, and for large -x *)
Definition tends_up (f : R -> R) (l : R) : Prop := forall eps, 0 < eps -> exists M, forall x, M < x -> Rabs (f x - l) < eps.
Definition tends_down (f : R -> R) (l : R) : Prop := forall eps, 0 < eps -> exists M, forall x, x < M -> Rabs (f x - l) < eps.
(** F is the cumulative distribution function of a density proportional to f *)
Definition cdf_of (F f : R -> R) : Prop := (exists c, 0 < c /\ forall x, derivable_pt_lim F x (c * f x)) /\ tends_down F 0 /\ tends_up F 1.
(** what is needed of the error function: its derivative is proportional to exp(-x^2), and it goes from -1 to 1 *)
Definition error_function (erf : R -> R) : Prop :=
  (exists c, 0 < c /\ forall x, derivable_pt_lim erf x (c * exp (- (x * x)))) /\ tends_down erf (-1) /\ tends_up erf 1.
