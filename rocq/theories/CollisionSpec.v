(** Specification of the choice of collision partners. *)
From Verif Require Import Base Arr.
Local Open Scope Z_scope.

Section Spec.
  Context {P : Type}.
  Variable cell : P -> Z.

  (** [offs] cuts [prts] into the ranges of equal cell *)
  Definition partitions (n_cells : Z) (prts : list P) (offs : list Z) : Prop :=
    alen offs = n_cells + 1 /\ aget offs 0 = Some 0 /\ aget offs n_cells = Some (alen prts) /\
    forall c lo hi, aget offs c = Some lo -> aget offs (c + 1) = Some hi -> 0 <= lo <= hi /\
      forall n p, aget prts n = Some p -> (lo <= n < hi <-> cell p = c).

  Definition takes_part (n : Z) (e : Z * Z * Z) : bool :=
    let '(a, b, _) := e in (a =? n) || (b =? n).
  Definition weight (e : Z * Z * Z) : Z := let '(_, _, h) := e in h.

  (** number of collisions of a particle, and their total time weight (in halves
      of a full collision) *)
  Definition collisions (n : Z) (evs : list (Z * Z * Z)) : Z := alen (filter (takes_part n) evs).
  Definition total_weight (n : Z) (evs : list (Z * Z * Z)) : Z := zsum (map weight (filter (takes_part n) evs)).

  Definition cell_population (prts : list P) (c : Z) : Z := alen (filter (fun p => cell p =? c) prts).

  Definition collides_properly (prts : list P) (evs : list (Z * Z * Z)) : Prop :=
    (forall a b h, In (a, b, h) evs -> a <> b /\
       exists pa pb, aget prts a = Some pa /\ aget prts b = Some pb /\ cell pa = cell pb) /\
    (forall n p, aget prts n = Some p ->
       if 2 <=? cell_population prts (cell p)
       then 1 <= collisions n evs <= 2 /\ total_weight n evs = 2
       else collisions n evs = 0).
End Spec.
