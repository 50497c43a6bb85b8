(** Difference calculus on the staggered grid, in the usual vector notation, and the
    fields of a whole periodic domain. *)
From Coq Require Import Reals.
From Verif Require Import Base DomainSpec FieldModel.
Local Open Scope R_scope.

(** the direction after d, cyclically *)
Definition nxt (d : dim3) : dim3 := match d with D0 => D1 | D1 => D2 | D2 => D0 end.

Section Calculus.
  Variables (inv : V3 bool) (h : V3 R).

  (** forward and backward difference quotients; nothing varies in an invariant
      direction *)
  Definition dplus (d : dim3) (u : V3 Z -> R) (i : V3 Z) : R :=
    if get3 inv d then 0 else (u (shift i d 1) - u i) / get3 h d.
  Definition dminus (d : dim3) (u : V3 Z -> R) (i : V3 Z) : R :=
    if get3 inv d then 0 else (u i - u (shift i d (-1))) / get3 h d.

  Definition curl_plus (u : dim3 -> V3 Z -> R) (d : dim3) (i : V3 Z) : R :=
    dplus (nxt d) (u (nxt (nxt d))) i - dplus (nxt (nxt d)) (u (nxt d)) i.
  Definition curl_minus (u : dim3 -> V3 Z -> R) (d : dim3) (i : V3 Z) : R :=
    dminus (nxt d) (u (nxt (nxt d))) i - dminus (nxt (nxt d)) (u (nxt d)) i.

  Definition div_plus (u : dim3 -> V3 Z -> R) (i : V3 Z) : R := dplus D0 (u D0) i + dplus D1 (u D1) i + dplus D2 (u D2) i.
  Definition div_minus (u : dim3 -> V3 Z -> R) (i : V3 Z) : R := dminus D0 (u D0) i + dminus D1 (u D1) i + dminus D2 (u D2) i.

  Definition laplace (u : V3 Z -> R) (i : V3 Z) : R :=
    dminus D0 (dplus D0 u) i + dminus D1 (dplus D1 u) i + dminus D2 (dplus D2 u) i.
End Calculus.

(** a grid as psc sets it up: at least two ghost points, but none in invariant directions *)
Definition wf_grid (g : fgrid) : Prop :=
  forall d, (0 < get3 (ldims g) d)%Z /\ get3 (dx g) d <> 0 /\
    (if get3 (invar g) d then get3 (ldims g) d = 1%Z /\ get3 (ibn g) d = 0%Z else (2 <= get3 (ibn g) d)%Z).

(** points within l below and r above the interior (invariant directions: the only one) *)
Definition within (g : fgrid) (l r : Z) (i : V3 Z) : Prop :=
  forall d, if get3 (invar g) d then get3 i d = 0%Z
            else (- l <= get3 i d < get3 (ldims g) d + r)%Z.

(** points with storage *)
Definition stored (g : fgrid) (i : V3 Z) : Prop :=
  forall d, (- get3 (ibn g) d <= get3 i d < get3 (ldims g) d + get3 (ibn g) d)%Z.

(** ** The whole domain: np patches in each direction *)

Definition vadd (a b : V3 Z) : V3 Z := gen3 (fun d => get3 a d + get3 b d)%Z.
Definition off (g : fgrid) (pi : V3 Z) : V3 Z := gen3 (fun d => get3 pi d * get3 (ldims g) d)%Z.

Definition wf_np (g : fgrid) (np : V3 Z) : Prop :=
  forall d, (0 < get3 np d)%Z /\ (get3 (invar g) d = true -> get3 np d = 1%Z).

(** fields on all of space, periodic with the size of the domain *)
Definition periodic (g : fgrid) (np : V3 Z) (G : pf) : Prop :=
  forall q d i e, G q d (shift i e (get3 np e * get3 (ldims g) e)) = G q d i.

(** the patches hold the values of G in their interior / everywhere *)
Definition holds_in (g : fgrid) (np : V3 Z) (mf : V3 Z -> pf) (G : pf) : Prop :=
  forall pi q d i, in_box np pi -> in_box (ldims g) i -> mf pi q d i = G q d (vadd (off g pi) i).
Definition holds (g : fgrid) (np : V3 Z) (mf : V3 Z -> pf) (G : pf) : Prop :=
  forall pi q d i, in_box np pi -> stored g i -> mf pi q d i = G q d (vadd (off g pi) i).

(** ** Runs of field updates *)

Definition consistent (g : fgrid) (np : V3 Z) (mf : V3 Z -> pf) : Prop := exists G, periodic g np G /\ holds g np mf G.

(** mf' has the interior of mf, and consistent ghost points: what the exchange of ghost
    points is for (properties C09, C10) *)
Definition refreshed (g : fgrid) (np : V3 Z) (mf mf' : V3 Z -> pf) : Prop :=
  (forall pi q d i, in_box np pi -> in_box (ldims g) i -> mf' pi q d i = mf pi q d i) /\ consistent g np mf'.

(** the H field along a run: pushed, any number of times, with whatever E there is *)
Inductive run_H (g : fgrid) (np : V3 Z) : (V3 Z -> pf) -> (V3 Z -> pf) -> Prop :=
| run_H_refl mf : run_H g np mf mf
| run_H_push c mf mf1 mf2 : run_H g np mf mf1 -> refreshed g np (fun pi => push_H g c (mf1 pi)) mf2 -> run_H g np mf mf2
| run_H_other mf mf1 mf2 : run_H g np mf mf1 -> consistent g np mf2 ->
    (forall pi d i, in_box np pi -> stored g i -> mf2 pi QH d i = mf1 pi QH d i) -> run_H g np mf mf2.

(** fields and charge density along a run: J is deposited, the charge density changes
    according to the continuity equation, E is pushed, H changes *)
Inductive run_gauss (g : fgrid) (np : V3 Z) : (V3 Z -> pf) * (V3 Z -> V3 Z -> R) -> (V3 Z -> pf) * (V3 Z -> V3 Z -> R) -> Prop :=
| run_g_refl s : run_gauss g np s s
| run_g_push c s mf1 rho1 mf2 rho2 : run_gauss g np s (mf1, rho1) ->
    refreshed g np (fun pi => push_E g c (mf1 pi)) mf2 ->
    (forall pi i, in_box np pi -> in_box (ldims g) i ->
       rho2 pi i - rho1 pi i = - (c * dt g) * div_minus (invar g) (dx g) (mf1 pi QJ) i) ->
    run_gauss g np s (mf2, rho2)
| run_g_other s mf1 rho1 mf2 : run_gauss g np s (mf1, rho1) -> consistent g np mf2 ->
    (forall pi d i, in_box np pi -> stored g i -> mf2 pi QE d i = mf1 pi QE d i) -> run_gauss g np s (mf2, rho1).

(** sum over the points of a box, and the size of the domain *)
Definition sum_box (n : V3 Z) (u : V3 Z -> R) : R :=
  fold_right Rplus 0 (map (fun k => fold_right Rplus 0 (map (fun j => fold_right Rplus 0 (map (fun i => u (v3 i j k))
    (zrange 0 (c0 n)))) (zrange 0 (c1 n)))) (zrange 0 (c2 n))).
Definition gdims (g : fgrid) (np : V3 Z) : V3 Z := gen3 (fun d => get3 np d * get3 (ldims g) d)%Z.

(** ** Passes of the Marder correction *)

(** one pass on all patches: the residual is computed in the interior, its ghost
    points are filled, E is corrected and its ghost points are filled *)
Definition marder_pass (g : fgrid) (np : V3 Z) (diffusion : R) (rho : V3 Z -> V3 Z -> R) (mf mf' : V3 Z -> pf) : Prop :=
  consistent g np mf /\
  exists res : V3 Z -> V3 Z -> R,
    (forall pi i, in_box np pi -> in_box (ldims g) i -> res pi i = marder_res g (mf pi) (rho pi) i) /\
    consistent g np (fun pi _ _ i => res pi i) /\
    refreshed g np (fun pi => marder_correct g diffusion (mf pi) (res pi)) mf'.

Inductive marder_passes (g : fgrid) (np : V3 Z) (diffusion : R) (rho : V3 Z -> V3 Z -> R) : nat -> (V3 Z -> pf) -> (V3 Z -> pf) -> Prop :=
| passes_0 mf : marder_passes g np diffusion rho 0 mf mf
| passes_S n mf mf1 mf2 : marder_passes g np diffusion rho n mf mf1 -> marder_pass g np diffusion rho mf1 mf2 ->
    marder_passes g np diffusion rho (S n) mf mf2.

(** the sum over all points of all patches *)
Definition sum_patches (g : fgrid) (np : V3 Z) (u : V3 Z -> V3 Z -> R) : R := sum_box np (fun pi => sum_box (ldims g) (u pi)).
