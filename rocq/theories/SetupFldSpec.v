(** Where the components of the fields are, and what their initial values are to be. *)
From Coq Require Import Reals.
From Flocq Require Import Core.
From Verif Require Import Base Arr DomainModel DomainSpec DdcPrtSpec GhostModel GhostSpec FieldModel DepositModel GaussModel GaussSpec.
Local Open Scope R_scope.

(** the domain is one the code sets up, with the same number of ghost points in all directions but those of one cell, where
    there are none (as all the cases have it: n_ghosts * get_noninvariant_mask, psc_harris_yz.cxx:250) *)
Definition a_domain (S : setting) (c : curve) (np gdims : V3 Z) (per : V3 bool) (pr : option (list Z)) (n : Z) : Prop :=
  (all_pos np /\ domain_setup c np gdims per pr (s_size S) = Some (s_dm S) /\ counts_valid pr (volume np) (s_size S) /\ processes pr (s_size S)) /\
  (0 <= n)%Z /\ forall d, (0 < get3 gdims d)%Z /\ get3 (s_ibn S) d = if (get3 gdims d =? 1)%Z then 0%Z else n.

(** Yee's grid: E and J are at the middle of the edges, H at the middle of the faces *)
Definition in_the_middle (q : qty) (d e : dim3) : bool := match q with QH => negb (dim3_eqb d e) | _ => dim3_eqb d e end.

(** the spacing in direction d *)
Definition h_of (S : setting) (d : dim3) : R := get3 (s_len S) d / IZR (get3 (dm_gdims (s_dm S)) d).

(** the position of component d of field q at the point with global index n *)
Definition yee (S : setting) (n : V3 Z) (q : qty) (d : dim3) : V3 R :=
  gen3 (fun e => get3 (s_corner S) e + (IZR (get3 n e) + if in_the_middle q d e then 1 / 2 else 0) * h_of S e).

(** the global index of point x of patch p of process r *)
Definition glob (S : setting) (r p : Z) (x : V3 Z) : V3 Z := gen3 (global_idx (s_dm S) (r, p, x)).

(** a function of space that is periodic with the domain, where the domain is *)
Definition f_periodic (S : setting) (f : Z -> V3 R -> R) : Prop :=
  forall m x d, get3 (dm_periodic (s_dm S)) d = true -> f m (set3 x d (get3 x d + get3 (s_len S) d)) = f m x.

(** central differences with the spacing, nothing in an invariant direction; their divergence and curl *)
Definition cd (S : setting) (e : dim3) (u : V3 R -> R) (x : V3 R) : R :=
  if get3 (invar_of (s_dim S)) e then 0
  else (u (set3 x e (get3 x e + h_of S e / 2)) - u (set3 x e (get3 x e - h_of S e / 2))) / h_of S e.
Definition cdiv (S : setting) (u : dim3 -> V3 R -> R) (x : V3 R) : R := cd S D0 (u D0) x + cd S D1 (u D1) x + cd S D2 (u D2) x.
Definition next (d : dim3) : dim3 := match d with D0 => D1 | D1 => D2 | D2 => D0 end.
Definition ccurl (S : setting) (A : dim3 -> V3 R -> R) (d : dim3) (x : V3 R) : R :=
  cd S (next d) (A (next (next d))) x - cd S (next (next d)) (A (next d)) x.

(** the middle of the cell, and the node, with global index n *)
Definition middle (S : setting) (n : V3 Z) : V3 R := gen3 (fun e => get3 (s_corner S) e + (IZR (get3 n e) + 1 / 2) * h_of S e).
Definition node (S : setting) (n : V3 Z) : V3 R := gen3 (fun e => get3 (s_corner S) e + IZR (get3 n e) * h_of S e).

(** rounding to double *)
Definition to_double : R -> R := round radix2 (FLT_exp (-1074) 53) ZnearestE.

(** the spacing and the corner are multiples of a power of two small enough for all positions, and half the spacing, to be doubles *)
Definition double_grid (S : setting) (gdims : V3 Z) (n : Z) : Prop :=
  forall e, exists ex m k, (-1074 <= ex)%Z /\ h_of S e = IZR (2 * m) * bpow radix2 ex /\ get3 (s_corner S) e = IZR k * bpow radix2 ex /\
    (4 * (get3 gdims e + n + 1) * Z.abs m + Z.abs k < 2 ^ 53)%Z.
