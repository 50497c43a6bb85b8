(** Specification of sorting particles by cell. *)
From Verif Require Import Base Arr.
Local Open Scope Z_scope.

(** [out] is [prts] stably sorted by [cell] *)
Definition stably_sorted {P} (cell : P -> Z) (prts out : list P) : Prop :=
  Permutation prts out /\
  (forall i j a b, 0 <= i <= j -> aget out i = Some a -> aget out j = Some b -> cell a <= cell b) /\
  (forall c, filter (fun x => cell x =? c) out = filter (fun x => cell x =? c) prts).
