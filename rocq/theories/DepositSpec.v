(** Shape functions and the density of a particle on the grid. *)
From Coq Require Import Reals.
From Verif Require Import Base.
Local Open Scope R_scope.

(** first order: the hat function *)
Definition hat (t : R) : R := Rmax 0 (1 - Rabs t).

(** second order: the quadratic spline *)
Definition spline2 (t : R) : R :=
  if Rle_dec (Rabs t) (1 / 2) then 3 / 4 - t * t
  else if Rle_dec (Rabs t) (3 / 2) then (3 / 2 - Rabs t) * (3 / 2 - Rabs t) / 2 else 0.

(** the share of a particle at x (in units of the grid spacing) on the node n: the
    product over the directions the grid resolves *)
Definition share (sh : R -> R) (invar : V3 bool) (x : V3 R) (n : V3 Z) : R :=
  let one := fun d => if get3 invar d then (if (get3 n d =? 0)%Z then 1 else 0) else sh (get3 x d - IZR (get3 n d)) in
  one D0 * one D1 * one D2.

(** sum over the nodes of the box from lo (inclusive) to hi (exclusive) *)
Definition sum_nodes (lo hi : V3 Z) (u : V3 Z -> R) : R :=
  fold_right Rplus 0 (map (fun k => fold_right Rplus 0 (map (fun j => fold_right Rplus 0 (map (fun i => u (v3 i j k))
    (zrange (c0 lo) (c0 hi)))) (zrange (c1 lo) (c1 hi)))) (zrange (c2 lo) (c2 hi))).
