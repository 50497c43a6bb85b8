(** What sampling from a tabulated distribution is to deliver. *)
From Coq Require Import Reals.
From Verif Require Import Base Arr.
Local Open Scope R_scope.

(** a cumulative distribution function *)
Definition is_cdf (F : R -> R) : Prop :=
  (forall x, 0 <= F x <= 1) /\ (forall x y, x <= y -> F x <= F y).

Definition nondecreasing (l : list R) : Prop :=
  forall i j a b, (i <= j)%Z -> aget l i = Some a -> aget l j = Some b -> a <= b.

(** a table of a cumulative distribution function: points x, values c, from 0 to 1 *)
Definition is_table (x c : list R) (xmin xmax : R) : Prop :=
  alen x = alen c /\ nondecreasing x /\ nondecreasing c /\
  aget x 0 = Some xmin /\ aget x (alen x - 1) = Some xmax /\
  aget c 0 = Some 0 /\ aget c (alen c - 1) = Some 1.

(** the point (v, u) lies on the broken line through the points of the table *)
Definition on_line (x c : list R) (v u : R) : Prop :=
  exists g x0 x1 c0 c1,
    aget x g = Some x0 /\ aget x (g + 1) = Some x1 /\ aget c g = Some c0 /\ aget c (g + 1) = Some c1 /\
    x0 <= v <= x1 /\ c0 <= u <= c1 /\ (v - x0) * (c1 - c0) = (u - c0) * (x1 - x0).

(** the numbers a uniform generator on [0, 1) may return *)
Definition uniform (u : R) : Prop := 0 <= u < 1.
