(** Specification vocabulary for rebalancing. *)
From Verif Require Import Base.
Local Open Scope Z_scope.

(** Data of all patches in curve order, cut into contiguous pieces: what process
    [r] holds when [counts] says how many patches each process has. *)
Definition distribute {D} (counts : list Z) (glob : list D) (r : Z) : list D :=
  firstn (Z.to_nat (nth (Z.to_nat r) counts 0))
         (skipn (Z.to_nat (zsum (firstn (Z.to_nat r) counts))) glob).

(** [counts] spreads [n] patches over [size] processes. *)
Definition spreads (counts : list Z) (n size : Z) : Prop :=
  Z.of_nat (length counts) = size /\ Forall (fun c => 0 <= c) counts /\ zsum counts = n.
