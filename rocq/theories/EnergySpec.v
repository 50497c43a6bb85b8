(** Energies of the whole domain. *)
From Coq Require Import Reals.
From Verif Require Import Base RSum GhostSpec.
Local Open Scope R_scope.

(** relativistic kinetic energy of w particles of mass m with momentum m u (c = 1) *)
Definition kinetic (u : V3 R) (m w : R) : R := (sqrt (1 + c0 u * c0 u + c1 u * c1 u + c2 u * c2 u) - 1) * m * w.

(** sum over the particles with property [b] *)
Definition sum_where {P} (b : P -> bool) (e : P -> R) (l : list P) : R := rsum (map e (filter b l)).

(** sum of the squares of G over all cells of the domain, times the volume of a cell *)
Definition field_energy (gdims : V3 Z) (dV : R) (G : V3 Z -> R) : R := rsum (map (fun x => G x * G x * dV) (box (v3 0 0 0)%Z gdims)).
