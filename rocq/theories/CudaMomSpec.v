(** What the moments on the GPU have to be: those of the CPU code. *)
From Coq Require Import Reals.
From Flocq Require Import Core.
From Verif Require Import Base DepositModel GaussModel MomentModel CudaMomModel.

(** which moment of the CPU code it is to be, and at which points *)
Definition same_as (t : cumoment) : moment * dep_scheme :=
  match t with cu_rho => (mom_rho, dep_1st_nc) | cu_n => (mom_n, dep_1st_cc) | cu_all => (mom_all, dep_1st_cc) end.

(** the cell of its patch a particle is in *)
Definition mp_cell (S : setting) (x : mprt) : V3 Z := gen3 (fun d => Zfloor (get3 (mp_x x) d / get3 (spacing S) d)%R).
