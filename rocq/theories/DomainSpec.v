(** Specification vocabulary for the domain decomposition (no reference to the
    model's algorithms). *)
From Verif Require Import Base.
Local Open Scope Z_scope.

(** integer points of the box [0,n) *)
Definition in_box (n p : V3 Z) : Prop := forall d, 0 <= get3 p d < get3 n d.

(** the half-open box [off, off+size) *)
Definition in_patch (off size p : V3 Z) : Prop :=
  forall d, get3 off d <= get3 p d < get3 off d + get3 size d.

Definition volume (n : V3 Z) : Z := c0 n * c1 n * c2 n.

Definition all_pos (n : V3 Z) : Prop := forall d, 0 < get3 n d.

(** a pair of partial conversions that is a bijection [0,volume np) <-> box np *)
Definition bijective_on (np : V3 Z) (to_idx : V3 Z -> option Z) (to_idx3 : Z -> option (V3 Z))
  : Prop :=
  (forall i, 0 <= i < volume np ->
     exists p, to_idx3 i = Some p /\ in_box np p /\ to_idx p = Some i) /\
  (forall p, in_box np p ->
     exists i, to_idx p = Some i /\ 0 <= i < volume np /\ to_idx3 i = Some p).

(** process [r] (of those with the given patch counts) owns, as its [p]-th
    patch, global patch [gp] *)
Definition owns (counts : list Z) (r p gp : Z) : Prop :=
  0 <= r /\ exists c, nth_error counts (Z.to_nat r) = Some c /\ 0 <= p < c /\
  gp = zsum (firstn (Z.to_nat r) counts) + p.

Definition is_pow2 (n : Z) : Prop := exists k, 0 <= k /\ n = 2 ^ k.

(** smallest exponent with 2^k >= n *)
Definition is_clog2 (n k : Z) : Prop := 0 <= k /\ n <= 2 ^ k /\ forall j, 0 <= j < k -> 2 ^ j < n.

(** wrap-around for a periodic direction *)
Definition wrap (n i : Z) : Z := i mod n.

(** one direction of the neighbour relation: coordinate of the neighbour *)
Definition nei_coord (np : Z) (periodic : bool) (i dir j : Z) : Prop :=
  0 <= j < np /\ (if periodic then j = wrap np (i + dir) else j = i + dir).

(** a prescribed distribution is acceptable if no count is negative and they add
    up to the number of patches (the code checks neither); without one there
    must be at least one process *)
Definition counts_valid (prescribed : option (list Z)) (n size : Z) : Prop :=
  match prescribed with
  | Some l => Forall (fun c => 0 <= c) l /\ zsum l = n
  | None => 0 < size
  end.

(** counts differ by at most one *)
Definition even_split (counts : list Z) : Prop :=
  exists q, Forall (fun c => q <= c <= q + 1) counts.

(** stepping from patch coordinate [i3] by [dir] leaves the patch grid through a
    side that is not periodic *)
Definition leaves (np : V3 Z) (per : V3 bool) (i3 dir : V3 Z) : Prop :=
  exists d, get3 per d = false /\ ~ (0 <= get3 i3 d + get3 dir d < get3 np d).
