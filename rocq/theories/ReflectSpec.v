(** Mirror images at walls. *)
From Coq Require Import Reals.
From Verif Require Import Base RSum GhostSpec.
Local Open Scope Z_scope.

(** The points of one direction of a patch with n cells: cells 0 .. n - 1 around whose outer faces is reflected, or nodes
    0 .. n with the walls at the nodes 0 and n.  [nodes]: which of the two. *)
Definition last_point (nodes : bool) (n : Z) : Z := if nodes then n else n - 1.

(** the mirror image of a point beyond a wall; points that are not beyond a wall stay *)
Definition image (nodes lo hi : bool) (n x : Z) : Z :=
  if lo && (x <? 0) then (if nodes then - x else - 1 - x)
  else if hi && (last_point nodes n <? x) then (if nodes then 2 * n - x else 2 * n - 1 - x)
  else x.
(** in three directions; lo, hi: the sides where there is a wall *)
Definition image3 (nodes : bool) (lo hi : dim3 -> bool) (n x : V3 Z) : V3 Z :=
  gen3 (fun d => image nodes (lo d) (hi d) (get3 n d) (get3 x d)).

Definition same3 (x y : V3 Z) : bool := (c0 x =? c0 y) && (c1 x =? c1 y) && (c2 x =? c2 y).

(** the points with ghost points: g on each side for cells.  Nodes have one point more, which is
    taken from the ghost points above, so that they have g - 1 on each side *)
Definition with_ghosts (nodes : bool) (n g : V3 Z) : list (V3 Z) :=
  box (gen3 (fun d => - get3 g d + (if nodes && negb (get3 g d =? 0) then 1 else 0))) (gen3 (fun d => get3 n d + get3 g d)).
(** those not beyond a wall *)
Definition kept (nodes : bool) (lo hi : dim3 -> bool) (n x : V3 Z) : bool :=
  forallb (fun d => negb (lo d && (get3 x d <? 0)) && negb (hi d && (last_point nodes (get3 n d) <? get3 x d))) dims3.

(** all that was at points with the image x *)
Definition collected (nodes : bool) (lo hi : dim3 -> bool) (n g : V3 Z) (u : V3 Z -> R) (x : V3 Z) : R :=
  rsum (map u (filter (fun y => same3 (image3 nodes lo hi n y) x) (with_ghosts nodes n g))).

(** where there is a wall, the ghost points do not reach beyond the opposite side *)
Definition thick (nodes : bool) (lo hi : dim3 -> bool) (n g : V3 Z) : Prop :=
  forall d, 0 <= get3 g d /\ 0 < get3 n d /\ (lo d || hi d = true -> get3 g d <= get3 n d + (if nodes then 1 else 0)).
