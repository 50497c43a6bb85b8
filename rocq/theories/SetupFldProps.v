(** C71, C72: the initial fields. *)
From Coq Require Import Reals Lra Psatz.
From Flocq Require Import Core.
From Verif Require Import Base Arr RSum DomainModel DomainSpec BndPrtModel DdcPrtSpec DdcPrtProofs GhostModel GhostSpec GhostProofs FieldModel FieldSpec DepositModel EsirkModel GaussModel GaussSpec GaussProofs GaussProps SetupFldModel SetupFldSpec SetupFldProofs SetupFldRunProofs.
Local Open Scope R_scope.

Section Facts.
  Variables (S : setting) (c : curve) (np gdims : V3 Z) (per : V3 bool) (pr : option (list Z)).
  Hypothesis HR : periodic_run S c np gdims per pr.

  Lemma own_place r p x : a_patch S r p -> stored_at S x -> exists r1 p1 x1, a_patch S r1 p1 /\ in_box (grid_ldims (s_dm S)) x1 /\ same_point (s_dm S) (r, p, x) (r1, p1, x1).
  Proof.
    intros V I. pose proof HR as [(H1 & H2 & H3 & H4) (H5 & _)]. pose proof (fct_ibn S c np gdims per pr HR) as FI. destruct (fill_ex S c np gdims per pr HR QE (fun _ _ _ _ => 0)) as (F' & A).
    destruct (filled_val S c np gdims per pr H1 H2 H3 H4 (fun d => proj1 (H5 d)) FI QE _ F' A) as (K & _).
    destruct (K r p x D0 V (proj2 (stored_iff (s_dm S) (s_ibn S) x) I)) as (r1 & p1 & x1 & V1 & I1 & SP & _). exists r1, p1, x1. split; [exact V1|]. split; [apply (proj1 (interior_iff 0 (s_dm S) x1)); exact I1|exact SP].
  Qed.

  Lemma own_is_stored x : in_box (grid_ldims (s_dm S)) x -> stored_at S x.
  Proof. intros H d. specialize (H d). pose proof (fct_ibn S c np gdims per pr HR d). lia. Qed.

  Lemma before_same F F' q : single_valued S q F -> before_first_step S F F' -> forall r p x d, a_patch S r p -> stored_at S x -> F' r p (comp q d) x = F r p (comp q d) x.
  Proof.
    intros H0 HB r p x d V I. destruct (before_val S c np gdims per pr HR F F' HB) as [A B]. destruct (own_place r p x V I) as (r1 & p1 & x1 & V1 & I1 & SP).
    rewrite (A q r p x r1 p1 x1 d V I V1 (own_is_stored x1 I1) SP), (B r1 p1 x1 q d V1 I1). symmetry. apply (H0 r p x r1 p1 x1 d V I V1 (own_is_stored x1 I1) SP).
  Qed.

  Lemma shift_stored x d s : in_box (grid_ldims (s_dm S)) x -> get3 (invar_of (s_dim S)) d = false -> (-1 <= s <= 1)%Z -> stored_at S (shift x d s).
  Proof.
    intros H Hd Hs e. unfold shift. pose proof (fct_inv S c np gdims per pr HR d) as B. rewrite Hd in B. pose proof (own_is_stored x H e) as K. specialize (H e).
    destruct (dim3_eq_dec d e) as [->|N]; [rewrite get3_set3_same; lia|rewrite get3_set3_other by exact N; exact K].
  Qed.

  Lemma has_info r p : a_patch S r p -> exists info, get_local_patch_info (s_dm S) r p = Some info.
  Proof. intros V. pose proof HR as [(H1 & H2 & H3 & H4) _]. destruct (info_of c np gdims per pr _ _ H1 H2 H3 H4 r p V) as (info & E & _). exists info. exact E. Qed.

  Lemma div_H f (F1 : Z -> flds R) r p x : a_patch S r p -> in_box (grid_ldims (s_dm S)) x ->
    (forall y d, stored_at S y -> F1 r p (comp QH d) y = f (comp QH d) (yee S (glob S r p y) QH d)) ->
    div_plus (invar_of (s_dim S)) (gen3 (h_of S)) (fun d i => F1 r p (comp QH d) i) x = cdiv S (fun d => f (comp QH d)) (middle S (glob S r p x)).
  Proof.
    intros V I H. unfold div_plus, cdiv.
    assert (K : forall d, dplus (invar_of (s_dim S)) (gen3 (h_of S)) d (fun i => F1 r p (comp QH d) i) x = cd S d (f (comp QH d)) (middle S (glob S r p x))).
    { intros d. unfold dplus, cd. destruct (get3 (invar_of (s_dim S)) d) eqn:E; [reflexivity|]. rewrite !H by (first [apply shift_stored; [exact I|exact E|lia] | apply own_is_stored; exact I]).
      rewrite (glob_shift S r p x d 1 V (has_info r p V)), yee_H_up, yee_H, get3_gen3. reflexivity. }
    rewrite !K. reflexivity.
  Qed.

  Lemma div_E f (F1 : Z -> flds R) r p x : a_patch S r p -> in_box (grid_ldims (s_dm S)) x ->
    (forall y d, stored_at S y -> F1 r p (comp QE d) y = f (comp QE d) (yee S (glob S r p y) QE d)) ->
    div_at S QE F1 r p x = cdiv S (fun d => f (comp QE d)) (node S (glob S r p x)).
  Proof.
    intros V I H. unfold div_at, div_minus, cdiv.
    assert (K : forall d, dminus (invar_of (s_dim S)) (gen3 (fun d => get3 (s_len S) d / IZR (get3 (dm_gdims (s_dm S)) d))) d (fun i => F1 r p (comp QE d) i) x = cd S d (f (comp QE d)) (node S (glob S r p x))).
    { intros d. unfold dminus, cd. destruct (get3 (invar_of (s_dim S)) d) eqn:E; [reflexivity|]. rewrite !H by (first [apply shift_stored; [exact I|exact E|lia] | apply own_is_stored; exact I]).
      rewrite (glob_shift S r p x d (-1) V (has_info r p V)), yee_E_down, yee_E, get3_gen3. reflexivity. }
    rewrite !K. reflexivity.
  Qed.
End Facts.

(** * C71 *)

(** In exact arithmetic, whatever the domain, patches and processes: the setup never accesses an array outside; to
    every component of E, H and J, at every stored point of every patch, own or ghost, it adds the value of the function at the place of that component on
    Yee's grid; nothing else changes; and the version for the GPU does just the same. *)
Theorem C71_setup : forall S c np gdims per pr n f r F, a_domain S c np gdims per pr n -> (0 <= r < s_size S)%Z ->
  exists F1 F2, setup_fields S (fun x => x) f r F = Some F1 /\ setup_fields_cuda S (fun x => x) f r F = Some F2 /\
  (forall p m x, F2 p m x = F1 p m x) /\
  (forall p x q d, a_patch S r p -> stored_at S x -> F1 p (comp q d) x = F p (comp q d) x + f (comp q d) (yee S (glob S r p x) q d)) /\
  (forall p m x, ~ a_patch S r p \/ ~ stored_at S x \/ (forall q d, m <> comp q d) -> F1 p m x = F p m x).
Proof.
  intros S c np gdims per pr n f r F HD Hr. destruct (setup_val S c np gdims per pr n HD (fun x => x) f r F Hr) as (F1 & F2 & E1 & E2 & EQ & V & W). exists F1, F2.
  split; [exact E1|]. split; [exact E2|]. split; [exact EQ|]. split.
  - intros p x q d [_ Hp] Hx. destruct (infos S c np gdims per pr n HD r Hr p (proj2 (in_zrange _ _ _) Hp)) as (info & EI & _).
    rewrite (V p info x q d Hp EI), (pick_in S c np gdims per pr n HD _ x _ Hx), (pos_exact S r p info x q d Hr Hp EI). reflexivity.
  - intros p m x H. destruct (Z.le_gt_cases 0 p) as [P1|P1]; [|apply W; left; lia]. destruct (Z.lt_ge_cases p (patches_of (s_dm S) r)) as [P2|P2]; [|apply W; left; lia].
    destruct (Z.le_gt_cases 0 m) as [M1|M1]; [|apply W; right; lia]. destruct (Z.lt_ge_cases m 9) as [M2|M2]; [|apply W; right; lia].
    assert (C : exists q d, m = comp q d).
    { assert (m = comp QJ D0 \/ m = comp QJ D1 \/ m = comp QJ D2 \/ m = comp QE D0 \/ m = comp QE D1 \/ m = comp QE D2 \/ m = comp QH D0 \/ m = comp QH D1 \/ m = comp QH D2) as K by (cbn; lia).
      repeat (destruct K as [K|K]; [eexists; eexists; exact K|]). eexists; eexists; exact K. }
    destruct C as (q & d & ->). destruct H as [H|[H|H]]; [exfalso; apply H; repeat split; lia| |exfalso; exact (H q d eq_refl)].
    destruct (infos S c np gdims per pr n HD r Hr p (proj2 (in_zrange _ _ _) (conj P1 P2))) as (info & EI & _).
    rewrite (V p info x q d (conj P1 P2) EI), (pick_out S c np gdims per pr n HD _ x _ H). ring.
Qed.
Print Assumptions C71_setup.

(** scalar fields, at the nodes or in the middle of the cells; any other centering fails the assert *)
Theorem C71_scalar : forall S c np gdims per pr n n_comps k f r F, a_domain S c np gdims per pr n -> (0 <= r < s_size S)%Z -> (0 < n_comps)%Z ->
  (k = at_NC \/ k = at_CC -> exists F1, setup_scalar S (fun x => x) n_comps k f r F = Some F1 /\
    (forall p x, a_patch S r p -> stored_at S x -> F1 p 0%Z x = F p 0%Z x + f 0%Z (match k with at_CC => middle S (glob S r p x) | _ => node S (glob S r p x) end)) /\
    (forall p m x, ~ a_patch S r p \/ ~ stored_at S x \/ m <> 0%Z -> F1 p m x = F p m x)) /\
  (k = at_EC \/ k = at_FC -> (exists p, a_patch S r p) -> (exists x, stored_at S x) -> setup_scalar S (fun x => x) n_comps k f r F = None).
Proof.
  intros S c np gdims per pr n n_comps k f r F HD Hr Hc. split.
  - intros Hk. destruct (scalar_val S c np gdims per pr n HD (fun x => x) k n_comps f r F Hk Hc Hr) as (F1 & E1 & V & W). exists F1. split; [exact E1|].
    assert (PO : forall p info x, get_local_patch_info (s_dm S) r p = Some info ->
      gen3 (fun e => match k with at_CC => get_cc S (fun x => x) (pi_off info) (get3 x e) e | _ => get_nc S (fun x => x) (pi_off info) (get3 x e) e end) = match k with at_CC => middle S (glob S r p x) | _ => node S (glob S r p x) end).
    { intros p info x EI. apply v3_ext. intros e. unfold middle, node, glob, get_cc, get_nc, patch_xb, dom_dx, global_idx. rewrite EI. destruct Hk as [-> | ->]; rewrite !get3_gen3; fold (h_of S e); rewrite plus_IZR; ring. }
    split.
    + intros p x [_ Hp] Hx. destruct (infos S c np gdims per pr n HD r Hr p (proj2 (in_zrange _ _ _) Hp)) as (info & EI & _).
      rewrite (V p info x Hp EI), (pick_in S c np gdims per pr n HD _ x _ Hx), (PO p info x EI). reflexivity.
    + intros p m x H. destruct (Z.le_gt_cases 0 p) as [P1|P1]; [|apply W; left; lia]. destruct (Z.lt_ge_cases p (patches_of (s_dm S) r)) as [P2|P2]; [|apply W; left; lia].
      destruct (Z.eq_dec m 0) as [->|M]; [|apply W; right; exact M]. destruct H as [H|[H|H]]; [exfalso; apply H; repeat split; lia| |contradiction].
      destruct (infos S c np gdims per pr n HD r Hr p (proj2 (in_zrange _ _ _) (conj P1 P2))) as (info & EI & _).
      rewrite (V p info x (conj P1 P2) EI), (pick_out S c np gdims per pr n HD _ x _ H). ring.
  - intros Hk (p & _ & Hp) (x & Hx). pose proof (proj2 (points_in S c np gdims per pr n HD x) Hx) as HI. unfold setup_scalar. destruct (zrange 0 (patches_of (s_dm S) r)) as [|q l] eqn:EZ; [apply in_zrange in Hp; rewrite EZ in Hp; destruct Hp|].
    assert (Hq : In q (zrange 0 (patches_of (s_dm S) r))) by (rewrite EZ; left; reflexivity). destruct (infos S c np gdims per pr n HD r Hr q Hq) as (info & EI & _).
    cbn [setup_patches]. rewrite EI. unfold scalar_entries. destruct (setup_points S (fun x => x)) as [|y ys]; [destruct HI|]. cbn [map]. destruct Hk as [-> | ->]; reflexivity.
Qed.
Print Assumptions C71_scalar.

(** If the function is periodic as the domain is, the fields have one value at every point of space after the setup, and
    filling the ghost points before the first step changes nothing that is stored. *)
Theorem C71_ghosts : forall S c np gdims per pr n f F0 F1, a_domain S c np gdims per pr n -> f_periodic S f -> (forall q, single_valued S q F0) ->
  (forall r, (0 <= r < s_size S)%Z -> setup_fields S (fun x => x) f r (F0 r) = Some (F1 r)) ->
  (forall q, single_valued S q F1) /\
  (periodic_run S c np gdims per pr -> forall F', before_first_step S F1 F' -> forall r p x q d, a_patch S r p -> stored_at S x -> F' r p (comp q d) x = F1 r p (comp q d) x).
Proof.
  intros S c np gdims per pr n f F0 F1 HD HF H0 H1. assert (SV : forall q, single_valued S q F1) by (intros q; exact (setup_single S c np gdims per pr n HD f F0 F1 q HF (H0 q) H1)).
  split; [exact SV|]. intros HR F' HB r p x q d. exact (before_same S c np gdims per pr HR F1 F' q (SV q) HB r p x d).
Qed.
Print Assumptions C71_ghosts.

(** However positions are rounded, and for every function, periodic or not: what is done before the first step can be done, and
    then all fields have one value at every point of space (which is what C30 starts from); own points keep the values the setup gave them. *)
Theorem C71_start : forall S c np gdims per pr n rnd f F0, a_domain S c np gdims per pr n -> periodic_run S c np gdims per pr ->
  exists F1, (forall r, (0 <= r < s_size S)%Z -> setup_fields S rnd f r (F0 r) = Some (F1 r)) /\ (exists F', before_first_step S F1 F') /\
  forall F', before_first_step S F1 F' -> (forall q, single_valued S q F') /\
    forall r p x q d, a_patch S r p -> in_box (grid_ldims (s_dm S)) x -> F' r p (comp q d) x = F1 r p (comp q d) x.
Proof.
  intros S c np gdims per pr n rnd f F0 HD HR.
  exists (fun r => match setup_fields S rnd f r (F0 r) with Some G => G | None => F0 r end). split; [|split].
  - intros r Hr. destruct (setup_val S c np gdims per pr n HD rnd f r (F0 r) Hr) as (G & _ & E & _). rewrite E. reflexivity.
  - match goal with |- exists F', before_first_step S ?G F' => destruct (fill_ex S c np gdims per pr HR QH G) as (F2 & A2) end.
    destruct (fill_ex S c np gdims per pr HR QJ F2) as (F3 & A3). destruct (fill_ex S c np gdims per pr HR QE F3) as (F4 & A4). exists F4, F2, F3. repeat split; assumption.
  - intros F' HB. exact (before_val S c np gdims per pr HR _ F' HB).
Qed.
Print Assumptions C71_start.

(** Starting from zero fields, the discrete divergence of H in each cell, and that of E at each node, are the central differences of the function there; so
    div H is zero at the start if the function given for H is the discrete curl of some vector potential. *)
Theorem C71_div : forall S c np gdims per pr n f F0 F1, a_domain S c np gdims per pr n -> periodic_run S c np gdims per pr ->
  (forall r p m x, F0 r p m x = 0) -> (forall r, (0 <= r < s_size S)%Z -> setup_fields S (fun x => x) f r (F0 r) = Some (F1 r)) ->
  forall r p x, a_patch S r p -> in_box (grid_ldims (s_dm S)) x ->
  div_plus (invar_of (s_dim S)) (gen3 (h_of S)) (fun d i => F1 r p (comp QH d) i) x = cdiv S (fun d => f (comp QH d)) (middle S (glob S r p x)) /\
  div_at S QE F1 r p x = cdiv S (fun d => f (comp QE d)) (node S (glob S r p x)) /\
  forall A, (forall d y, f (comp QH d) y = ccurl S A d y) -> div_plus (invar_of (s_dim S)) (gen3 (h_of S)) (fun d i => F1 r p (comp QH d) i) x = 0.
Proof.
  intros S c np gdims per pr n f F0 F1 HD HR H0 H1 r p x V I.
  assert (K : forall q y d, stored_at S y -> F1 r p (comp q d) y = f (comp q d) (yee S (glob S r p y) q d)).
  { intros q y d Hy. rewrite (setup_exact S c np gdims per pr n HD f F0 F1 H1 r p y q d V Hy), H0. ring. }
  assert (DH := div_H S c np gdims per pr HR f F1 r p x V I (K QH)). split; [exact DH|]. split; [exact (div_E S c np gdims per pr HR f F1 r p x V I (K QE))|].
  intros A HA. rewrite DH, <- (cdiv_ccurl S A (middle S (glob S r p x))). unfold cdiv, cd. rewrite !HA. reflexivity.
Qed.
Print Assumptions C71_div.

(** Gauss's law from the initial conditions on: after any number of steps div E - rho at a node is what the function given for E and the particles at the start make it;
    if the function fulfils the discrete law, it holds forever. *)
Theorem C71_gauss : forall S c np gdims per pr n f F0 F1 F P F' P' rho rho', a_domain S c np gdims per pr n -> periodic_run S c np gdims per pr ->
  f_periodic S f -> (forall r p m x, F0 r p m x = 0) -> (forall r, (0 <= r < s_size S)%Z -> setup_fields S (fun x => x) f r (F0 r) = Some (F1 r)) ->
  before_first_step S F1 F -> particles_inside S P -> run S F P F' P' -> density S P rho -> density S P' rho' ->
  forall r p x, a_patch S r p -> in_box (grid_ldims (s_dm S)) x ->
  div_at S QE F' r p x - rho' r p x = cdiv S (fun d => f (comp QE d)) (node S (glob S r p x)) - rho r p x.
Proof.
  intros S c np gdims per pr n f F0 F1 F P F' P' rho rho' HD HR HF H0 H1 HB HP HRun D D' r p x V I.
  assert (S0 : forall q, single_valued S q F0) by (intros q ? ? ? ? ? ? ? _ _ _ _ _; rewrite !H0; reflexivity).
  destruct (C71_ghosts S c np gdims per pr n f F0 F1 HD HF S0 H1) as [_ SM]. specialize (SM HR F HB).
  rewrite (proj2 (C30_gauss S c np gdims per pr F P F' P' rho rho' HR (proj1 (before_val S c np gdims per pr HR F1 F HB) QE) HP HRun) D D' r p x V I).
  rewrite (div_E S c np gdims per pr HR f F r p x V I); [reflexivity|].
  intros y d Hy. rewrite (SM r p y QE d V Hy), (setup_exact S c np gdims per pr n HD f F0 F1 H1 r p y QE d V Hy), H0. ring.
Qed.
Print Assumptions C71_gauss.

(** * C72 *)

Lemma same_values S c np gdims per pr n f F0 F1 q : a_domain S c np gdims per pr n -> f_periodic S f -> single_valued S q F0 ->
  (forall r p x d, a_patch S r p -> stored_at S x -> F1 r p (comp q d) x = F0 r p (comp q d) x + f (comp q d) (yee S (glob S r p x) q d)) -> single_valued S q F1.
Proof.
  intros HD HF H0 H r p x r' p' x' d V I V' I' HS. rewrite !H by assumption. rewrite (H0 r p x r' p' x' d V I V' I' HS), (same_yee S c np gdims per pr n HD r p x r' p' x' q d f _ HF HS). reflexivity.
Qed.

(** The full statement, for doubles: for every domain, and every function that is periodic as the domain is, the setup gives the same value to a
    point of space in every patch that stores it.  It is false (below).  It holds, and the values are those of exact arithmetic, when the spacing and the corner are
    suitable multiples of a power of two, because then no position is rounded. *)
Theorem C72_doubles_partial : forall S c np gdims per pr n f F0 F1, a_domain S c np gdims per pr n -> double_grid S gdims n ->
  (forall r, (0 <= r < s_size S)%Z -> setup_fields S to_double f r (F0 r) = Some (F1 r)) ->
  (forall r p x q d, a_patch S r p -> stored_at S x -> F1 r p (comp q d) x = F0 r p (comp q d) x + f (comp q d) (yee S (glob S r p x) q d)) /\
  (f_periodic S f -> forall q, single_valued S q F0 -> single_valued S q F1).
Proof.
  intros S c np gdims per pr n f F0 F1 HD HX H. assert (K := setup_double S c np gdims per pr n HD HX f F0 F1 H). split; [exact K|].
  intros HF q H0. apply (same_values S c np gdims per pr n f F0 F1 q HD HF H0). intros r p x d. apply K.
Qed.
Print Assumptions C72_doubles_partial.

(** six cells on a length of one, in three patches, from -1/2 on; the sign of a wave of that length *)
Definition six_dm : domain := ltac:(let x := eval vm_compute in (domain_setup CURVE_BYDIM (v3 1 3 1)%Z (v3 1 6 6)%Z (v3 true true true) None 1) in match x with Some ?d => exact d end).
Definition six_S : setting := Setting six_dm 1 dim_yz (v3 0 2 2)%Z (v3 1 1 1) (v3 0 (- (1 / 2)) 0) (v3 PRT_PERIODIC PRT_PERIODIC PRT_PERIODIC) (v3 PRT_PERIODIC PRT_PERIODIC PRT_PERIODIC) (1 / 16) 1 sch_var1.
Definition six_f (m : Z) (x : V3 R) : R := if Rlt_dec (sin (2 * PI * c1 x)) 0 then -1 else 1.

Lemma six_domain : a_domain six_S CURVE_BYDIM (v3 1 3 1)%Z (v3 1 6 6)%Z (v3 true true true) None 2.
Proof. split; [split; [intros []; cbn; lia|split; [vm_compute; reflexivity|split; [cbn; lia|exact Logic.I]]]|]. split; [lia|]. intros []; cbn; lia. Qed.

Lemma six_run : periodic_run six_S CURVE_BYDIM (v3 1 3 1)%Z (v3 1 6 6)%Z (v3 true true true) None.
Proof.
  unfold periodic_run. cbv zeta. cbn [s_size s_dm s_dim s_lo s_hi s_len s_ibn s_dt s_sch six_S invar_of]. split; [exact (proj1 six_domain)|].
  split; [intros []; repeat split; reflexivity|]. split; [right; reflexivity|]. split; [|split; [lra|cbn; lia]]. intros []; cbn; repeat split; try lia; lra.
Qed.

Lemma six_periodic : f_periodic six_S six_f.
Proof.
  intros m x d _. unfold six_f. destruct x as [x0 x1 x2], d; cbn [set3 get3 c0 c1 c2 s_len six_S]; try reflexivity.
  replace (2 * PI * (x1 + 1)) with (2 * PI * x1 + 2 * PI) by ring. rewrite sin_plus, sin_2PI, cos_2PI. replace (sin (2 * PI * x1) * 1 + cos (2 * PI * x1) * 0) with (sin (2 * PI * x1)) by ring. reflexivity.
Qed.

Lemma six_pos0 : get_nc six_S to_double (v3 0 0 0)%Z 3 D1 = 0.
Proof.
  unfold get_nc, patch_xb. replace (dom_dx six_S to_double D1) with (IZR 6004799503160661 * bpow radix2 (-55)) by (symmetry; exact sixth).
  rewrite three_sixths. cbn [get3 c1 s_corner six_S].
  rewrite Rmult_0_l. replace 0 with (IZR 0 * bpow radix2 0) at 1 by ring. rewrite dbl_grid by lia. rewrite Rmult_0_l.
  replace (0 + - (1 / 2)) with (IZR (-1) * bpow radix2 (-1)) by (cbn; lra). rewrite dbl_grid by lia.
  replace (IZR (-1) * bpow radix2 (-1) + 1 / 2) with (IZR 0 * bpow radix2 0) by (cbn; lra). rewrite dbl_grid by lia. ring.
Qed.

Lemma six_pos1 : get_nc six_S to_double (v3 0 2 0)%Z 1 D1 = IZR (-1) * bpow radix2 (-55).
Proof.
  unfold get_nc, patch_xb. replace (dom_dx six_S to_double D1) with (IZR 6004799503160661 * bpow radix2 (-55)) by (symmetry; exact sixth). cbn [get3 c1 s_corner six_S].
  replace (1 * (IZR 6004799503160661 * bpow radix2 (-55))) with (IZR 6004799503160661 * bpow radix2 (-55)) by ring. rewrite (dbl_grid 6004799503160661) by lia.
  replace (2 * (IZR 6004799503160661 * bpow radix2 (-55))) with (IZR 6004799503160661 * bpow radix2 (-54)) by (cbn; lra). rewrite dbl_grid by lia.
  replace (IZR 6004799503160661 * bpow radix2 (-54) + - (1 / 2)) with (IZR (-6004799503160662) * bpow radix2 (-55)) by (cbn; lra). rewrite dbl_grid by lia.
  replace (IZR (-6004799503160662) * bpow radix2 (-55) + IZR 6004799503160661 * bpow radix2 (-55)) with (IZR (-1) * bpow radix2 (-55)) by (cbn; lra). apply dbl_grid; lia.
Qed.

(** In doubles the same point of space gets different values in two patches: the middle of the domain is at 0 as seen from the first patch, and at -2^-55 as
    seen from the second, which owns it; the function given is periodic and jumps there. *)
Theorem C72_doubles_refuted : exists S c np gdims per pr n f F1 r p x p' x', a_domain S c np gdims per pr n /\ periodic_run S c np gdims per pr /\ f_periodic S f /\
  (forall r, (0 <= r < s_size S)%Z -> setup_fields S to_double f r (fun _ _ _ => 0) = Some (F1 r)) /\
  a_patch S r p /\ stored_at S x /\ a_patch S r p' /\ stored_at S x' /\ same_point (s_dm S) (r, p, x) (r, p', x') /\
  F1 r p (comp QE D0) x = 1 /\ F1 r p' (comp QE D0) x' = -1.
Proof.
  destruct (setup_val six_S _ _ _ _ _ _ six_domain to_double six_f 0 (fun _ _ _ => 0)) as (G & _ & E & _ & _ & V & _); [cbn; lia|].
  assert (N : patches_of (s_dm six_S) 0 = 3%Z) by (vm_compute; reflexivity). rewrite N in V.
  assert (I0 : exists i, get_local_patch_info (s_dm six_S) 0 0 = Some i /\ pi_off i = (v3 0 0 0)%Z) by (eexists; split; vm_compute; reflexivity).
  assert (I1 : exists i, get_local_patch_info (s_dm six_S) 0 1 = Some i /\ pi_off i = (v3 0 2 0)%Z) by (eexists; split; vm_compute; reflexivity).
  destruct I0 as (i0 & E0 & O0), I1 as (i1 & E1 & O1).
  assert (ST0 : stored_at six_S (v3 0 3 0)%Z) by (intros []; vm_compute; intuition discriminate). assert (ST1 : stored_at six_S (v3 0 1 0)%Z) by (intros []; vm_compute; intuition discriminate).
  exists six_S, CURVE_BYDIM, (v3 1 3 1)%Z, (v3 1 6 6)%Z, (v3 true true true), None, 2%Z, six_f, (fun _ => G), 0%Z, 0%Z, (v3 0 3 0)%Z, 1%Z, (v3 0 1 0)%Z.
  split; [exact six_domain|]. split; [exact six_run|]. split; [exact six_periodic|].
  split; [intros r Hr; cbn in Hr; replace r with 0%Z by lia; exact E|]. split; [split; [cbn; lia|rewrite N; lia]|]. split; [exact ST0|]. split; [split; [cbn; lia|rewrite N; lia]|]. split; [exact ST1|].
  split; [vm_compute; reflexivity|]. split.
  - rewrite (V 0%Z i0 _ QE D0 ltac:(lia) E0), (pick_in six_S _ _ _ _ _ _ six_domain _ _ _ ST0), O0. unfold six_f, pos_of, gen3. cbn [c1 in_the_middle dim3_eqb get3]. rewrite six_pos0.
    rewrite Rmult_0_r, sin_0. destruct (Rlt_dec 0 0) as [H|_]; lra.
  - rewrite (V 1%Z i1 _ QE D0 ltac:(lia) E1), (pick_in six_S _ _ _ _ _ _ six_domain _ _ _ ST1), O1. unfold six_f, pos_of, gen3. cbn [c1 in_the_middle dim3_eqb get3]. rewrite six_pos1.
    destruct (Rlt_dec _ 0) as [_|H]; [lra|]. exfalso. apply H.
    replace (2 * PI * (IZR (-1) * bpow radix2 (-55))) with (- (2 * PI * bpow radix2 (-55))) by ring. rewrite sin_neg. assert (0 < sin (2 * PI * bpow radix2 (-55))); [|lra].
    assert (PP := PI_RGT_0). apply sin_gt_0; cbn; lra.
Qed.
Print Assumptions C72_doubles_refuted.

(** * Examples *)

(** a wave in y in all components of E and J, and the curl of one for H, on the domain of two patches of C30 *)
Definition ex_A (d : dim3) (x : V3 R) : R := match d with D0 => cos (2 * PI * c1 x / 8) | _ => 0 end.
Definition ex_f (m : Z) (x : V3 R) : R :=
  if (m =? 6)%Z then ccurl ex_S ex_A D0 x else if (m =? 7)%Z then ccurl ex_S ex_A D1 x else if (m =? 8)%Z then ccurl ex_S ex_A D2 x else IZR (m + 1) * cos (2 * PI * c1 x / 8).

Lemma wave_per y : cos (2 * PI * (y + 8) / 8) = cos (2 * PI * y / 8).
Proof. replace (2 * PI * (y + 8) / 8) with (2 * PI * y / 8 + 2 * PI) by field. rewrite cos_plus, sin_2PI, cos_2PI. ring. Qed.

Example ex_C71 : a_domain ex_S CURVE_BYDIM (v3 1 2 1)%Z (v3 1 8 8)%Z (v3 true true true) None 2 /\ periodic_run ex_S CURVE_BYDIM (v3 1 2 1)%Z (v3 1 8 8)%Z (v3 true true true) None /\
  f_periodic ex_S ex_f /\ (forall q, single_valued ex_S q (fun _ _ _ _ => 0)) /\ (forall d y, ex_f (comp QH d) y = ccurl ex_S ex_A d y) /\ ex_f (comp QH D2) (v3 0 2 0) <> 0.
Proof.
  assert (HR := proj1 ex_C30). split; [|split; [exact HR|]].
  - split; [exact (proj1 HR)|]. split; [lia|]. intros []; cbn; lia.
  - split.
    + assert (W2 : forall y a, cos (2 * PI * (y + 8 + a) / 8) = cos (2 * PI * (y + a) / 8)) by (intros; rewrite <- (wave_per (y + a)); do 2 f_equal; ring).
      assert (W3 : forall y a, cos (2 * PI * (y + 8 - a) / 8) = cos (2 * PI * (y - a) / 8)) by (intros; rewrite <- (wave_per (y - a)); do 2 f_equal; ring).
      intros m x d _. unfold ex_f, ccurl, cd, next, ex_A. destruct x as [x0 x1 x2]; destruct d; cbn [set3 get3 c0 c1 c2 s_len s_dim ex_S invar_of]; rewrite ?W2, ?W3, ?wave_per; reflexivity.
    + split; [intros q ? ? ? ? ? ? ? _ _ _ _ _; reflexivity|]. split; [intros [] y; reflexivity|].
      unfold ex_f, ccurl, cd, next, ex_A. cbn [comp Z.add Pos.add Pos.succ Z.eqb Pos.eqb get3 set3 c0 c1 c2 s_dim ex_S invar_of].
      unfold h_of. replace (get3 (dm_gdims (s_dm ex_S)) D1) with 8%Z by (vm_compute; reflexivity). cbn [s_len ex_S get3 c1].
      replace (2 * PI * (2 + 8 / 8 / 2) / 8) with (PI / 8 + PI / 2) by field. replace (2 * PI * (2 - 8 / 8 / 2) / 8) with (- (PI / 8) + PI / 2) by field.
      rewrite !cos_plus, cos_PI2, sin_PI2, sin_neg. assert (PP := PI_RGT_0). assert (0 < sin (PI / 8)) by (apply sin_gt_0; lra). lra.
Qed.

(** the ghost point below the second patch is at -1 there and 3 in the first patch; it gets the same value in both *)
Example ex_C71_values : exists F1, (forall r, (0 <= r < 2)%Z -> setup_fields ex_S (fun x => x) ex_f r (fun _ _ _ => 0) = Some (F1 r)) /\
  F1 1%Z 0%Z (comp QE D1) (v3 0 (-1) 2)%Z = 5 * cos (2 * PI * (7 / 2) / 8) /\ F1 0%Z 0%Z (comp QE D1) (v3 0 3 2)%Z = 5 * cos (2 * PI * (7 / 2) / 8) /\
  F1 1%Z 0%Z (comp QE D0) (v3 0 (-1) 2)%Z = 4 * cos (2 * PI * 3 / 8) /\
  div_plus (invar_of dim_yz) (gen3 (h_of ex_S)) (fun d i => F1 1%Z 0%Z (comp QH d) i) (v3 0 3 7)%Z = 0.
Proof.
  destruct ex_C71 as (HD & HR & HF & H0 & HA & _).
  destruct (C71_start _ _ _ _ _ _ _ (fun x => x) ex_f (fun _ _ _ _ => 0) HD HR) as (F1 & E1 & _). exists F1. split; [exact E1|].
  assert (ST1 : stored_at ex_S (v3 0 (-1) 2)%Z) by (intros []; vm_compute; intuition discriminate). assert (ST0 : stored_at ex_S (v3 0 3 2)%Z) by (intros []; vm_compute; intuition discriminate).
  assert (V0 : a_patch ex_S 0 0) by (split; vm_compute; intuition discriminate). assert (V1 : a_patch ex_S 1 0) by (split; vm_compute; intuition discriminate).
  assert (G0 : glob ex_S 0 0 (v3 0 3 2)%Z = (v3 0 3 2)%Z) by (vm_compute; reflexivity). assert (G1 : glob ex_S 1 0 (v3 0 (-1) 2)%Z = (v3 0 3 2)%Z) by (vm_compute; reflexivity).
  rewrite !(setup_exact _ _ _ _ _ _ _ HD ex_f _ F1 E1) by assumption. rewrite G0, G1.
  unfold ex_f. cbn [comp Z.add Pos.add Pos.succ Z.eqb Pos.eqb]. unfold yee, gen3. cbn [c1 get3 c0 c2 in_the_middle dim3_eqb s_corner ex_S].
  unfold h_of. replace (get3 (dm_gdims (s_dm ex_S)) D1) with 8%Z by (vm_compute; reflexivity). cbn [s_len ex_S get3 c1].
  replace (0 + (3 + 1 / 2) * (8 / 8)) with (7 / 2) by field. replace (0 + (3 + 0) * (8 / 8)) with 3 by field.
  split; [ring|]. split; [ring|]. split; [ring|].
  apply (proj2 (proj2 (C71_div _ _ _ _ _ _ _ _ _ _ HD HR (fun _ _ _ _ => eq_refl) E1 1%Z 0%Z (v3 0 3 7)%Z V1 ltac:(intros []; vm_compute; intuition discriminate))) ex_A HA).
Qed.

(** a density in the middle of the cells *)
Example ex_C71_scalar : exists F1, setup_scalar ex_S (fun x => x) 1 at_CC (fun _ x => c1 x) 1 (fun _ _ _ => 2) = Some F1 /\ F1 0%Z 0%Z (v3 0 (-2) 2)%Z = 2 + 5 / 2 /\
  setup_scalar ex_S (fun x => x) 1 at_EC (fun _ x => c1 x) 1 (fun _ _ _ => 2) = None.
Proof.
  destruct ex_C71 as (HD & HR & _). destruct (C71_scalar _ _ _ _ _ _ _ 1 at_CC (fun _ x => c1 x) 1 (fun _ _ _ => 2) HD ltac:(cbn; lia) ltac:(lia)) as [A _].
  destruct (C71_scalar _ _ _ _ _ _ _ 1 at_EC (fun _ x => c1 x) 1 (fun _ _ _ => 2) HD ltac:(cbn; lia) ltac:(lia)) as [_ B].
  assert (ST1 : stored_at ex_S (v3 0 (-2) 2)%Z) by (intros []; vm_compute; intuition discriminate). assert (V1 : a_patch ex_S 1 0) by (split; vm_compute; intuition discriminate).
  destruct (A (or_intror eq_refl)) as (F1 & E & K & _). exists F1. split; [exact E|]. split; [|apply B; [left; reflexivity|exists 0%Z; exact V1|eexists; exact ST1]].
  rewrite (K 0%Z _ V1 ST1). replace (glob ex_S 1 0 (v3 0 (-2) 2)%Z) with (v3 0 2 2)%Z by (vm_compute; reflexivity). unfold middle, gen3, h_of. replace (get3 (dm_gdims (s_dm ex_S)) D1) with 8%Z by (vm_compute; reflexivity).
  cbn [c1 get3 s_corner s_len ex_S]. field.
Qed.

(** a run from these initial conditions on *)
Example ex_C71_gauss : exists F1 F F' P' rho rho', (forall r, (0 <= r < 2)%Z -> setup_fields ex_S (fun x => x) ex_f r (fun _ _ _ => 0) = Some (F1 r)) /\ before_first_step ex_S F1 F /\
  step ex_S ex_us F ex_P F' P' /\ density ex_S ex_P rho /\ density ex_S P' rho' /\
  div_at ex_S QE F' 1 0 (v3 0 0 1)%Z - rho' 1%Z 0%Z (v3 0 0 1)%Z = cdiv ex_S (fun d => ex_f (comp QE d)) (v3 0 4 1) - rho 1%Z 0%Z (v3 0 0 1)%Z.
Proof.
  destruct ex_C71 as (HD & HR & HF & H0 & _). destruct ex_C30 as (_ & H2 & _ & H4 & H5 & _).
  destruct (C71_start _ _ _ _ _ _ _ (fun x => x) ex_f (fun _ _ _ _ => 0) HD HR) as (F1 & E1 & (F & HB) & HS). destruct (HS F HB) as [SV _]. specialize (SV QE).
  destruct (C30_progress _ _ _ _ _ _ _ _ _ HR H2 SV H4 H5) as [(F' & P' & Hs) [rho D]].
  assert (HRun : run ex_S F ex_P F' P') by (exact (run_step _ _ _ _ _ _ _ _ (run_refl _ _ _) Hs)).
  destruct (C30_gauss _ _ _ _ _ _ F ex_P F' P' rho rho HR SV H4 HRun) as [[G1 G2] _].
  destruct (C30_progress _ _ _ _ _ _ (fun r p => match aget (P' r) p with Some b => map p_u b | None => [] end) _ _ HR H2 G1 G2) as [_ [rho' D']].
  { intros r p b Eb. rewrite Eb. apply map_length. }
  exists F1, F, F', P', rho, rho'. repeat (split; [assumption|]).
  rewrite (C71_gauss _ _ _ _ _ _ _ _ _ F1 F ex_P F' P' rho rho' HD HR HF (fun _ _ _ _ => eq_refl) E1 HB H4 HRun D D' 1%Z 0%Z (v3 0 0 1)%Z).
  - replace (glob ex_S 1 0 (v3 0 0 1)%Z) with (v3 0 4 1)%Z by (vm_compute; reflexivity). do 2 f_equal. unfold node, gen3, h_of. replace (dm_gdims (s_dm ex_S)) with (v3 1 8 8)%Z by (vm_compute; reflexivity).
    cbn [get3 c0 c1 c2 s_corner s_len ex_S]. f_equal; field.
  - split; vm_compute; intuition discriminate.
  - intros []; vm_compute; intuition discriminate.
Qed.

Example ex_C72 : double_grid ex_S (v3 1 8 8)%Z 2.
Proof.
  intros e. exists (-1)%Z, 1%Z, 0%Z. split; [lia|]. unfold h_of. replace (dm_gdims (s_dm ex_S)) with (v3 1 8 8)%Z by (vm_compute; reflexivity). destruct e; cbn; (split; [lra|split; [lra|lia]]).
Qed.
