(** Gauss's law on the GPU: when the kernels can be used. *)
From Coq Require Import Reals.
From Verif Require Import Base Arr DomainModel DdcPrtSpec GhostModel DepositModel GaussModel.
Local Open Scope Z_scope.

(** patches are made of whole blocks, whose number is an int; in y and z blocks are at least 3 x 3 and with the points around them
    not more than the threads, and have one cell along x *)
Definition blocks_fit (S : setting) (bs : V3 Z) : Prop :=
  (forall d, 0 < get3 bs d /\ (get3 bs d | get3 (grid_ldims (s_dm S)) d)) /\
  (forall r, 0 <= r < s_size S -> 0 <= patches_of (s_dm S) r /\
     patches_of (s_dm S) r * (c0 (grid_ldims (s_dm S)) / c0 bs * (c1 (grid_ldims (s_dm S)) / c1 bs) * (c2 (grid_ldims (s_dm S)) / c2 bs)) < 2 ^ 31) /\
  (s_dim S = dim_yz -> 3 <= c1 bs /\ 3 <= c2 bs /\ (c1 bs + 3) * (c2 bs + 3) <= 512).
