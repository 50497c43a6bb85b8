(** C26: field interpolation. *)
From Coq Require Import Reals Lra Psatz.
From Flocq Require Import Core.
From Verif Require Import Base FieldModel DepositModel DepositProofs InterpModel DepositProps.
Local Open Scope R_scope.

(** where a component of E or H is located in its cell, in units of the spacing *)
Definition stagger (m : qty) (c : dim3) (e : dim3) : R :=
  match m with QE => if dim3_eqb c e then / 2 else 0 | _ => if dim3_eqb c e then 0 else / 2 end.

(** the field component with values a + b . x at the points x where it is located *)
Definition linear (a : R) (b : V3 R) (m : qty) (c : dim3) (n : V3 Z) : R :=
  a + get3 b D0 * (IZR (get3 n D0) + stagger m c D0) + get3 b D1 * (IZR (get3 n D1) + stagger m c D1) + get3 b D2 * (IZR (get3 n D2) + stagger m c D2).

(** the point whose value the interpolation gives: the particle's position, except that
    invariant directions have index 0 only, and that the energy conserving scheme takes
    the value at the middle of the cell in the directions it does not interpolate in *)
Definition seen (o : ip_opt) (d : dim_t) (x : V3 R) (m : qty) (c : dim3) (e : dim3) : R :=
  if get3 (invar_of d) e then stagger m c e
  else match o with
       | ip_1st_ec => if Req_EM_T (stagger m c e) 0 then get3 x e else IZR (fint (get3 x e)) + / 2
       | _ => get3 x e
       end.

(** in the invariant directions the particle is in cell 0 *)
Definition in_plane (d : dim_t) (x : V3 R) : Prop := forall e, get3 (invar_of d) e = true -> 0 <= get3 x e < 1.

Definition em (m : qty) : Prop := m = QE \/ m = QH.

Lemma interp_linear o d x EM m c r a b : em m -> in_plane d x -> interp o d x EM m c = Some r -> (forall n, EM m c n = linear a b m c n) ->
  r = a + get3 b D0 * seen o d x m c D0 + get3 b D1 * seen o d x m c D1 + get3 b D2 * seen o d x m c D2.
Proof.
  intros Hm Hp H HE. unfold interp in H. cbv zeta in H.
  assert (P : forall e, get3 (invar_of d) e = true -> fint (get3 x e) = 0%Z) by (intros e He; apply fint_unique; specialize (Hp e He); lra).
  assert (T0 : forall A (u v : A), (if Req_EM_T 0 0 then u else v) = u) by (intros; destruct (Req_EM_T 0 0); [reflexivity|lra]).
  assert (T2 : forall A (u v : A), (if Req_EM_T (/ 2) 0 then u else v) = v) by (intros; destruct (Req_EM_T (/ 2) 0); [lra|reflexivity]).
  destruct o, d, Hm as [-> | ->], c; cbn [cc_args set_std kg kh] in H; try discriminate H; injection H as <-;
    unfold ec_xyz, ec_xz, ec_yz, cc1_xz, cc1_yz, cc2_y, cc2_z, cc2_xy, cc2_xz, cc2_yz, cc2_xyz; rewrite !HE; unfold linear, seen, z3, set1, set2;
    cbn [stagger dim3_eqb invar_of get3 c0 c1 c2 k1_v0 k1_v1 k1_l k2_vm k2_v0 k2_vp k2_l];
    rewrite ?T0, ?T2; try rewrite (P D1 eq_refl : fint (c1 x) = 0%Z); rewrite ?plus_IZR, ?minus_IZR; field.
Qed.

(** linear fields, at their staggered locations *)
Theorem C26_linear : forall o d x EM m c r a b, em m -> in_plane d x -> interp o d x EM m c = Some r ->
  (forall n, EM m c n = linear a b m c n) ->
  r = a + get3 b D0 * seen o d x m c D0 + get3 b D1 * seen o d x m c D1 + get3 b D2 * seen o d x m c D2.
Proof. exact interp_linear. Qed.
Print Assumptions C26_linear.

(** for the linear and second order interpolants that is the value at the particle *)
Theorem C26_linear_exact : forall o d x EM m c r a b, o <> ip_1st_ec -> em m -> in_plane d x -> interp o d x EM m c = Some r ->
  (forall n, EM m c n = linear a b m c n) -> (forall e, get3 (invar_of d) e = true -> get3 b e = 0) ->
  r = a + get3 b D0 * get3 x D0 + get3 b D1 * get3 x D1 + get3 b D2 * get3 x D2.
Proof.
  intros o d x EM m c r a b Ho Hm Hp H HE Hb. rewrite (interp_linear o d x EM m c r a b Hm Hp H HE).
  assert (T : forall e, get3 b e * seen o d x m c e = get3 b e * get3 x e).
  { intros e. unfold seen. destruct (get3 (invar_of d) e) eqn:E; [rewrite (Hb e E); ring|]. destruct o; [contradiction|reflexivity|reflexivity]. }
  rewrite !T. reflexivity.
Qed.
Print Assumptions C26_linear_exact.

(** constant fields *)
Theorem C26_constant : forall o d x EM m c r a, em m -> in_plane d x -> interp o d x EM m c = Some r -> (forall n, EM m c n = a) -> r = a.
Proof.
  intros o d x EM m c r a Hm Hp H HE. rewrite (interp_linear o d x EM m c r a (v3 0 0 0) Hm Hp H).
  - cbn [get3 c0 c1 c2]. ring.
  - intros n. rewrite HE. unfold linear. cbn [get3 c0 c1 c2]. ring.
Qed.
Print Assumptions C26_constant.

(** the points read: within one ghost layer for the first order schemes, two for second order *)
Definition stencil (o : ip_opt) (d : dim_t) (ld n : V3 Z) : Prop :=
  forall e, if get3 (invar_of d) e then get3 n e = 0%Z
    else match o with ip_1st_ec => (0 <= get3 n e <= get3 ld e)%Z | ip_1st => (-1 <= get3 n e <= get3 ld e)%Z | ip_2nd => (-2 <= get3 n e <= get3 ld e + 1)%Z end.

Lemma bounds o x ld : 0 <= x < IZR ld -> match o with ip_2nd => 0 <= nint x <= ld /\ -1 <= nint (x - / 2) <= ld | _ => 0 <= fint x < ld /\ -1 <= fint (x - / 2) < ld end%Z.
Proof.
  intros [H1 H2]. destruct o.
  1,2: (split; [split; [apply fint_bounds; exact H1|apply fint_bounds_hi; exact H2]|split; [apply fint_bounds; lra|apply fint_bounds_hi; lra]]).
  split; [split; [apply nint_bounds; exact H1|apply nint_bounds_hi; lra]|split; [apply nint_bounds; lra|apply nint_bounds_hi; lra]].
Qed.

Theorem C26_stencil : forall o d ld x EM EM' m c, in_plane d x -> (forall e, get3 (invar_of d) e = false -> 0 <= get3 x e < IZR (get3 ld e)) ->
  em m -> (forall n, stencil o d ld n -> EM m c n = EM' m c n) -> interp o d x EM m c = interp o d x EM' m c.
Proof.
  intros o d ld x EM EM' m c Hp Hin Hm HE. unfold interp. cbv zeta.
  assert (P : forall e, get3 (invar_of d) e = true -> fint (get3 x e) = 0%Z) by (intros e He; apply fint_unique; specialize (Hp e He); lra).
  assert (B : forall e, get3 (invar_of d) e = false -> match o with ip_2nd => 0 <= nint (get3 x e) <= get3 ld e /\ -1 <= nint (get3 x e - / 2) <= get3 ld e | _ => 0 <= fint (get3 x e) < get3 ld e /\ -1 <= fint (get3 x e - / 2) < get3 ld e end%Z)
    by (intros e He; apply bounds; apply Hin; exact He).
  pose proof (B D0) as B0. pose proof (B D1) as B1. pose proof (B D2) as B2. pose proof (P D1) as P1. clear B P Hp Hin.
  destruct o, d, Hm as [-> | ->], c; cbn [cc_args set_std kg kh]; try reflexivity; f_equal; cbn [invar_of get3 c0 c1 c2] in B0, B1, B2, P1;
    unfold ec_xyz, ec_xz, ec_yz, cc1_xz, cc1_yz, cc2_y, cc2_z, cc2_xy, cc2_xz, cc2_yz, cc2_xyz, set1, set2; cbn [k1_v0 k1_v1 k1_l k2_vm k2_v0 k2_vp k2_l];
    try specialize (B0 eq_refl); try specialize (B1 eq_refl); try specialize (B2 eq_refl); try specialize (P1 eq_refl);
    (repeat match goal with |- context [EM ?m ?c ?n] => rewrite (HE n) by (intros e; destruct e; cbn [stencil invar_of get3 z3 c0 c1 c2]; lia) end); reflexivity.
Qed.
Print Assumptions C26_stencil.

(** a particle in a yz run *)
Definition ex_ip_x : V3 R := v3 (1 / 2) (1 / 4) (7 / 2).

(** a field that grows in y and z: 1 + 2 y + 3 z at y = 1/4, z = 7/2 is 12; the energy
    conserving scheme takes Ey at y = 1/2, the middle of the cell, instead *)
Example ex_C26 : em QH /\ in_plane dim_yz ex_ip_x /\
  (forall e, get3 (invar_of dim_yz) e = false -> 0 <= get3 ex_ip_x e < IZR (get3 (v3 1 4 4)%Z e)) /\
  (exists r, interp ip_2nd dim_yz ex_ip_x (linear 1 (v3 0 2 3)) QH D1 = Some r /\ r = 12) /\
  (exists r, interp ip_1st dim_yz ex_ip_x (linear 1 (v3 0 2 3)) QH D1 = Some r /\ r = 12) /\
  (exists r, interp ip_1st_ec dim_yz ex_ip_x (linear 1 (v3 0 2 3)) QE D1 = Some r /\ r = 25 / 2).
Proof.
  assert (I : in_plane dim_yz ex_ip_x) by (intros e; destruct e; cbn; try discriminate; intros _; lra).
  assert (Z : forall e, get3 (invar_of dim_yz) e = true -> get3 (v3 0 2 3) e = 0) by (intros e; destruct e; cbn; try discriminate; reflexivity).
  split; [right; reflexivity|]. split; [exact I|]. split; [intros e; destruct e; cbn; try discriminate; intros _; lra|].
  split; [|split].
  - eexists; split; [reflexivity|].
    rewrite (C26_linear_exact ip_2nd dim_yz ex_ip_x _ QH D1 _ 1 (v3 0 2 3) ltac:(discriminate) (or_intror eq_refl) I eq_refl (fun _ => eq_refl) Z). cbn. lra.
  - eexists; split; [reflexivity|].
    rewrite (C26_linear_exact ip_1st dim_yz ex_ip_x _ QH D1 _ 1 (v3 0 2 3) ltac:(discriminate) (or_intror eq_refl) I eq_refl (fun _ => eq_refl) Z). cbn. lra.
  - eexists; split; [reflexivity|].
    rewrite (C26_linear ip_1st_ec dim_yz ex_ip_x _ QE D1 _ 1 (v3 0 2 3) (or_introl eq_refl) I eq_refl (fun _ => eq_refl)).
    unfold seen. cbn [invar_of get3 c0 c1 c2 stagger dim3_eqb ex_ip_x].
    destruct (Req_EM_T (/ 2) 0); [lra|]. destruct (Req_EM_T 0 0); [|lra]. rewrite (fint_unique (1 / 4) 0) by lra. lra.
Qed.
