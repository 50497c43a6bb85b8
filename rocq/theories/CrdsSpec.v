(** What coordinates should be, independently of the model. *)
From Coq Require Import ZArith Reals List.
Import ListNotations.

(** m points from a on, a distance of h apart (specification, not in the code; for mrc_crds.c:218-281) *)
Definition evenly (a h : R) (m : Z) (l : list R) : Prop :=
  Z.of_nat (length l) = m /\
  forall k, (0 <= k < m)%Z -> nth_error l (Z.to_nat k) = Some (a + IZR k * h)%R.

(** nodes and cells alternate: every cell is strictly between its nodes (specification, not in the code; for mrc_crds.c:218-281) *)
Definition interleaved (cells nodes : list R) : Prop :=
  length nodes = S (length cells) /\
  forall k c a b, nth_error cells k = Some c -> nth_error nodes k = Some a -> nth_error nodes (S k) = Some b -> (a < c < b)%R.
