(** C33: radiating boundary. *)
From Coq Require Import Reals Lra.
From Verif Require Import Base DomainSpec FieldModel FieldSpec FieldProofs WallModel WallSpec RadiateProofs.
Local Open Scope R_scope.

(** where component c of E is, in units of length from the corner of the patch *)
Definition position (g : fgrid) (e : V3 Z) (c : dim3) : V3 R :=
  gen3 (fun a => (IZR (get3 e a) + (if dim3_eqb a c then / 2 else 0)) * get3 (dx g) a).

(** E at the wall, centered between two times; H at the wall, centered between the points on both sides *)
Definition mean_E (f f' : pf) (c : dim3) (e : V3 Z) : R := (f QE c e + f' QE c e) / 2.
Definition mean_H (f : pf) (d c : dim3) (e : V3 Z) : R := (f QH c (shift e d (-1)) + f QH c e) / 2.

(** waves which come in at the lower side go up, at the upper side down *)
Definition sense (s : side) : R := match s with Lo => 1 | Hi => -1 end.

(** the relation for the fields of incoming waves: s is the amplitude of E along the next direction, p of E along the one after *)
Definition one_way (s : side) (d : dim3) (be bh : V3 R) (f f' : pf) (e : V3 Z) (ps pp : R) : Prop :=
  (mean_E f f' (nxt d) e - get3 be (nxt d)) + sense s * (mean_H f d (nxt (nxt d)) e - get3 bh (nxt (nxt d))) = 2 * ps /\
  (mean_E f f' (nxt (nxt d)) e - get3 be (nxt (nxt d))) - sense s * (mean_H f d (nxt d) e - get3 bh (nxt d)) = 2 * pp.

Definition radiative (s : side) : fgrid -> V3 R -> V3 R -> pulses -> dim3 -> pf -> pf :=
  match s with Lo => radiative_H_lo | Hi => radiative_H_hi end.

(** the point at which the code evaluates the pulse *)
Definition pulse_point (s : side) (d : dim3) (e : V3 Z) : V3 Z := match s with Lo => e | Hi => shift e d (-1) end.

(** After the boundary condition and the step of E which follows: the one-way relation, with the pulse less half of dt J in
    the second polarization.  (Without this term it would be property C33.)  Only tangential H beyond the wall changes. *)
Theorem C33_partial : forall g be bh ps d s f e, wf_grid g -> get3 (invar g) d = false -> 0 < dt g -> 0 < get3 (dx g) d ->
  within g 1 2 e -> get3 e d = wall_at s (get3 (ldims g) d) ->
  let f' := radiative s g be bh ps d f in
  let f'' := push_E g 1 f' in
  one_way s d be bh f' f'' e (pulse_s ps d 0 (position g (pulse_point s d e) (nxt d)))
                             (pulse_p ps d 0 (position g (pulse_point s d e) (nxt (nxt d))) - dt g * f QJ (nxt (nxt d)) e / 2) /\
  (forall q c i, ~ (q = QH /\ c <> d /\ get3 i d = beyond true s (get3 (ldims g) d)) -> f' q c i = f q c i).
Proof.
  intros g be bh ps d s f e W Hd Hdt Hdx He Hw f' f''.
  destruct (d1_d2 d) as [N1 [N2 N3]].
  assert (P : forall a c, x3 g a c = position g a c).
  { intros a c. apply v3_ext. intros b. unfold x3, position. rewrite !get3_gen3. destruct (dim3_eqb b c); lra. }
  assert (T : forall c, dtdx g c = dt g / get3 (dx g) c) by (intros c; unfold dtdx; lra).
  assert (Tp : 0 < dtdx g d) by (rewrite T; apply Rdiv_lt_0_compat; assumption).
  assert (En : fnorm (invar g) e = e) by (apply (fnorm_id g 1 2); exact He).
  assert (DM : forall c (u : V3 Z -> R), dt g * dminus (invar g) (dx g) c (fun i => u (fnorm (invar g) i)) e = dtdx g c * (u (fnorm (invar g) e) - u (fnorm (invar g) (shift e c (-1))))).
  { intros c u. rewrite T. unfold dminus. destruct (W c) as [_ [Hx _]]. destruct (get3 (invar g) c) eqn:E.
    - replace (fnorm (invar g) (shift e c (-1))) with (fnorm (invar g) e); [field; exact Hx|]. apply v3_ext. intros b. unfold fnorm. rewrite !get3_gen3, get3_shift.
      destruct (dim3_eqb c b) eqn:Eb; [apply dim3_eqb_eq in Eb; subst b; rewrite E; reflexivity|reflexivity].
    - field. exact Hx. }
  assert (PE : forall c, f'' QE c e = f' QE c e + (dtdx g (nxt c) * (f' QH (nxt (nxt c)) e - fget (invar g) f' QH (nxt (nxt c)) (shift e (nxt c) (-1)))
                                        - dtdx g (nxt (nxt c)) * (f' QH (nxt c) e - fget (invar g) f' QH (nxt c) (shift e (nxt (nxt c)) (-1))) - dt g * f' QJ c e)).
  { intros c. unfold f''. rewrite push_E_in by assumption. f_equal. unfold deltaE, curl_minus, dth, vw.
    rewrite Rmult_1_l, !Rmult_minus_distr_l.
    rewrite (DM (nxt c) (fun j => f' QH (nxt (nxt c)) j)), (DM (nxt (nxt c)) (fun j => f' QH (nxt c) j)).
    unfold fget. rewrite En. ring. }
  assert (Hst : stored g e) by (apply (within_stored g 1 2); [exact W|lia|lia|exact He]).
  assert (NX : nxt (nxt (nxt d)) = d) by (destruct d; reflexivity).
  assert (Nd : d_1 d = nxt d) by (destruct d; reflexivity). assert (Nd2 : d_2 d = nxt (nxt d)) by (destruct d; reflexivity). rewrite Nd2, Nd in *.
  assert (FN : fnorm (invar g) (shift e d (-1)) = shift e d (-1)).
  { apply v3_ext. intros b. unfold fnorm. rewrite get3_gen3, get3_shift. pose proof (He b) as Hb. destruct (get3 (invar g) b) eqn:Eb; [|reflexivity].
    destruct (dim3_eqb d b) eqn:Ed; [apply dim3_eqb_eq in Ed; congruence|]. lia. }
  destruct s; cbn [wall_at beyond] in *.
  - (* lower *)
    destruct (radiative_lo_val g W be bh ps d Hd f) as [AG VL]. cbv zeta in AG, VL. fold f' in AG, VL.
    change (radiative_H_lo g be bh ps d f) with f' in AG, VL.
    set (i3 := shift e d (-1)) in *.
    assert (Hi3 : get3 i3 d = (-1)%Z) by (unfold i3; rewrite get3_shift, dim3_eqb_refl; lia).
    assert (Si3 : stored g i3).
    { intros b. unfold i3. rewrite get3_shift. destruct (dim3_eqb d b) eqn:Ed; [|apply Hst]. apply dim3_eqb_eq in Ed. subst b. destruct (W d) as [L [_ Wd]]. rewrite Hd in Wd. lia. }
    assert (Ei : shift i3 d 1 = e) by (unfold i3; apply shift_back; lia).
    destruct (VL i3 Hi3 Si3) as [V2 V1]. rewrite Nd2 in V2. rewrite Nd in V1. unfold lo2 in V2. unfold lo1 in V1. cbv zeta in V1, V2. rewrite Nd, Nd2, Ei, P in V1, V2.
    assert (K : forall q c j, ~ (q = QH /\ c <> d /\ get3 j d = (-1)%Z) -> fget (invar g) f' q c j = fget (invar g) f q c j).
    { intros q c j H. symmetry. apply (agree_get g d Hd (-1)); assumption. }
    assert (K' : forall q c j, ~ (q = QH /\ c <> d /\ get3 j d = (-1)%Z) -> f' q c j = f q c j) by (intros q c j H; symmetry; apply AG; exact H).
    split; [|intros q c i H; apply K'; exact H]. unfold pulse_point.
    assert (G : forall q c, fget (invar g) f q c e = f q c e) by (intros; unfold fget; rewrite En; reflexivity).
    rewrite !G in V1, V2.
    assert (F0 : forall c, f' QH c e = f QH c e) by (intros c; apply K'; intros [_ [_ Q]]; lia).
    assert (FE : forall c, f' QE c e = f QE c e) by (intros c; apply K'; intros [Q _]; discriminate).
    assert (FJ : f' QJ (nxt d) e = f QJ (nxt d) e /\ f' QJ (nxt (nxt d)) e = f QJ (nxt (nxt d)) e) by (split; apply K'; intros [Q _]; discriminate). destruct FJ as [FJ1 FJ2].
    assert (FD : forall c, fget (invar g) f' QH d (shift e c (-1)) = fget (invar g) f QH d (shift e c (-1))) by (intros c; apply K; intros [_ [Q _]]; congruence).
    assert (FI : forall c, fget (invar g) f' QH c i3 = f' QH c i3) by (intros c; unfold fget; rewrite FN; reflexivity).
    unfold one_way, mean_E, mean_H, sense. fold i3. rewrite !PE, !NX, FD, FD. fold i3. rewrite !FI, !FE, !F0, FJ1, FJ2, V1, V2.
    split; field; lra.
  - (* upper *)
    destruct (radiative_hi_val g W be bh ps d Hd f) as [AG VL]. cbv zeta in AG, VL.
    change (radiative_H_hi g be bh ps d f) with f' in AG, VL. set (n := get3 (ldims g) d) in *.
    set (i3 := shift e d (-1)) in *.
    assert (Hi3 : get3 i3 d = (n - 1)%Z) by (unfold i3; rewrite get3_shift, dim3_eqb_refl; lia).
    destruct (VL e Hw Hst) as [V2 V1]. rewrite Nd2 in V2. rewrite Nd in V1. unfold hi2 in V2. unfold hi1 in V1. cbv zeta in V1, V2. rewrite Nd, Nd2, P in V1, V2. fold i3 in V1, V2.
    assert (K : forall q c j, ~ (q = QH /\ c <> d /\ get3 j d = n) -> fget (invar g) f' q c j = fget (invar g) f q c j).
    { intros q c j H. symmetry. apply (agree_get g d Hd n); assumption. }
    assert (K' : forall q c j, ~ (q = QH /\ c <> d /\ get3 j d = n) -> f' q c j = f q c j) by (intros q c j H; symmetry; apply AG; exact H).
    split; [|intros q c i H; apply K'; exact H]. unfold pulse_point. fold i3.
    assert (G : forall q c, fget (invar g) f q c e = f q c e) by (intros; unfold fget; rewrite En; reflexivity).
    rewrite !G in V1, V2.
    assert (F0 : f' QH d e = f QH d e) by (apply K'; intros [_ [Q _]]; congruence).
    assert (FE : forall c, f' QE c e = f QE c e) by (intros c; apply K'; intros [Q _]; discriminate).
    assert (FJ : f' QJ (nxt d) e = f QJ (nxt d) e /\ f' QJ (nxt (nxt d)) e = f QJ (nxt (nxt d)) e) by (split; apply K'; intros [Q _]; discriminate). destruct FJ as [FJ1 FJ2].
    assert (FD : forall c, fget (invar g) f' QH d (shift e c (-1)) = fget (invar g) f QH d (shift e c (-1))) by (intros c; apply K; intros [_ [Q _]]; congruence).
    assert (FI : forall c, fget (invar g) f QH c i3 = f' QH c i3).
    { intros c. rewrite <- K by (intros [_ [_ Q]]; lia). unfold fget. rewrite FN. reflexivity. }
    assert (FI' : forall c, fget (invar g) f' QH c i3 = f' QH c i3) by (intros c; unfold fget; rewrite FN; reflexivity).
    unfold one_way, mean_E, mean_H, sense. fold i3. rewrite !PE, !NX, FD, FD. fold i3. rewrite !FI', !FE, !F0, FJ1, FJ2, V1, V2, !FI.
    split; field; lra.
Qed.
Print Assumptions C33_partial.

(** ** What does not hold *)

Definition rg : fgrid := FGrid (v3 4 4 4)%Z (v3 2 2 2)%Z (v3 1 1 1) (1 / 2) (v3 false false false).
Lemma rg_wf : wf_grid rg.
Proof. intros d. destruct d; cbn; repeat split; try lia; lra. Qed.
Definition no_pulse : pulses := Pulses (fun _ _ _ => 0) (fun _ _ _ => 0).

(** the contribution of the current has the wrong sign in the second polarization, at both sides and in all directions *)
Theorem C33_current_refuted : forall d s, exists g be bh ps f e, wf_grid g /\ get3 (invar g) d = false /\ 0 < dt g /\ 0 < get3 (dx g) d /\
  within g 1 2 e /\ get3 e d = wall_at s (get3 (ldims g) d) /\
  let f' := radiative s g be bh ps d f in
  ~ one_way s d be bh f' (push_E g 1 f') e (pulse_s ps d 0 (position g (pulse_point s d e) (nxt d))) (pulse_p ps d 0 (position g (pulse_point s d e) (nxt (nxt d)))).
Proof.
  intros d s. set (e := set3 (v3 0 0 0)%Z d (wall_at s 4)).
  exists rg, (v3 0 0 0), (v3 0 0 0), no_pulse, (fun q _ _ => match q with QJ => 1 | _ => 0 end), e.
  assert (He : within rg 1 2 e) by (intros a; destruct d, s, a; cbn; lia).
  assert (Hw : get3 e d = wall_at s (get3 (ldims rg) d)) by (destruct d, s; reflexivity).
  assert (Hi : get3 (invar rg) d = false) by (destruct d; reflexivity).
  assert (Ht : 0 < dt rg) by (cbn; lra). assert (Hx : 0 < get3 (dx rg) d) by (destruct d; cbn; lra).
  split; [exact rg_wf|]. split; [exact Hi|]. split; [exact Ht|]. split; [exact Hx|]. split; [exact He|]. split; [exact Hw|]. intros f' [_ Q].
  destruct (C33_partial rg (v3 0 0 0) (v3 0 0 0) no_pulse d s (fun q _ _ => match q with QJ => 1 | _ => 0 end) e rg_wf Hi Ht Hx He Hw) as [[_ Q'] _].
  fold f' in Q'. rewrite Q in Q'. cbn [no_pulse pulse_p dt rg] in Q'. lra.
Qed.
Print Assumptions C33_current_refuted.

Lemma wrong_patch g be bh ps d s f e p : wf_grid g -> get3 (invar g) d = false -> 0 < dt g -> 0 < get3 (dx g) d ->
  within g 1 2 e -> get3 e d = wall_at s (get3 (ldims g) d) ->
  pulse_s ps d 0 (position g (pulse_point s d e) (nxt d)) <> pulse_s ps d p (position g (pulse_point s d e) (nxt d)) ->
  let f' := radiative s g be bh ps d f in
  ~ one_way s d be bh f' (push_E g 1 f') e (pulse_s ps d p (position g (pulse_point s d e) (nxt d))) (pulse_p ps d p (position g (pulse_point s d e) (nxt (nxt d)))).
Proof.
  intros W Hd Ht Hx He Hw Hp f' [Q _].
  destruct (C33_partial g be bh ps d s f e W Hd Ht Hx He Hw) as [[Q' _] _]. fold f' in Q'. rewrite Q in Q'. apply Hp. lra.
Qed.

(** the pulse is always that of patch 0, so that it is wrong for every other patch p, whatever the side *)
Theorem C33_patch_refuted : forall p d s, p <> 0%Z -> exists g be bh ps f e, wf_grid g /\ get3 (invar g) d = false /\ 0 < dt g /\ 0 < get3 (dx g) d /\
  within g 1 2 e /\ get3 e d = wall_at s (get3 (ldims g) d) /\ (forall c i, f QJ c i = 0) /\
  let f' := radiative s g be bh ps d f in
  ~ one_way s d be bh f' (push_E g 1 f') e (pulse_s ps d p (position g (pulse_point s d e) (nxt d))) (pulse_p ps d p (position g (pulse_point s d e) (nxt (nxt d)))).
Proof.
  intros p d s Hp.
  exists rg, (v3 0 0 0), (v3 0 0 0), (Pulses (fun _ p _ => IZR p) (fun _ _ _ => 0)), (fun _ _ _ => 0), (set3 (v3 0 0 0)%Z d (wall_at s 4)).
  assert (He : within rg 1 2 (set3 (v3 0 0 0)%Z d (wall_at s 4))) by (intros a; destruct d, s, a; cbn; lia).
  assert (Hw : get3 (set3 (v3 0 0 0)%Z d (wall_at s 4)) d = wall_at s (get3 (ldims rg) d)) by (destruct d, s; reflexivity).
  assert (Hi : get3 (invar rg) d = false) by (destruct d; reflexivity).
  assert (Ht : 0 < dt rg) by (cbn; lra). assert (Hx : 0 < get3 (dx rg) d) by (destruct d; cbn; lra).
  split; [exact rg_wf|]. split; [exact Hi|]. split; [exact Ht|]. split; [exact Hx|]. split; [exact He|]. split; [exact Hw|]. split; [reflexivity|].
  apply wrong_patch; [exact rg_wf|exact Hi|exact Ht|exact Hx|exact He|exact Hw|]. cbn [pulse_s]. intros E. apply eq_IZR in E. congruence.
Qed.
Print Assumptions C33_patch_refuted.

Lemma wrong_position g be bh ps d f e : wf_grid g -> get3 (invar g) d = false -> 0 < dt g -> 0 < get3 (dx g) d ->
  within g 1 2 e -> get3 e d = get3 (ldims g) d ->
  pulse_s ps d 0 (position g (shift e d (-1)) (nxt d)) <> pulse_s ps d 0 (position g e (nxt d)) ->
  let f' := radiative_H_hi g be bh ps d f in
  ~ one_way Hi d be bh f' (push_E g 1 f') e (pulse_s ps d 0 (position g e (nxt d))) (pulse_p ps d 0 (position g e (nxt (nxt d)))).
Proof.
  intros W Hd Ht Hx He Hw Hp f' [Q _].
  destruct (C33_partial g be bh ps d Hi f e W Hd Ht Hx He Hw) as [[Q' _] _].
  change (radiative Hi g be bh ps d f) with f' in Q'. rewrite Q in Q'. cbn [pulse_point] in Q'. apply Hp. lra.
Qed.

(** at the upper side the pulse is evaluated one cell before the wall *)
Theorem C33_position_refuted : exists g be bh ps d f e, wf_grid g /\ get3 (invar g) d = false /\ 0 < dt g /\ 0 < get3 (dx g) d /\
  within g 1 2 e /\ get3 e d = get3 (ldims g) d /\ (forall c i, f QJ c i = 0) /\
  let f' := radiative_H_hi g be bh ps d f in
  ~ one_way Hi d be bh f' (push_E g 1 f') e (pulse_s ps d 0 (position g e (nxt d))) (pulse_p ps d 0 (position g e (nxt (nxt d)))).
Proof.
  exists rg, (v3 0 0 0), (v3 0 0 0), (Pulses (fun _ _ x => c0 x) (fun _ _ _ => 0)), D0, (fun _ _ _ => 0), (v3 4 0 0)%Z.
  assert (He : within rg 1 2 (v3 4 0 0)%Z) by (intros a; destruct a; cbn; lia).
  assert (Ht : 0 < dt rg) by (cbn; lra). assert (Hx : 0 < get3 (dx rg) D0) by (cbn; lra).
  split; [exact rg_wf|]. split; [reflexivity|]. split; [exact Ht|]. split; [exact Hx|]. split; [exact He|]. split; [reflexivity|]. split; [reflexivity|].
  apply wrong_position; [exact rg_wf|reflexivity|exact Ht|exact Hx|exact He|reflexivity|]. cbn. lra.
Qed.
Print Assumptions C33_position_refuted.

(** the loop includes points for which H is read at an index without storage *)
Theorem C33_index_refuted : forall g d, wf_grid g -> get3 (invar g) d = false -> get3 (invar g) (nxt (nxt d)) = false ->
  exists i3, In i3 (vec_range (set3 (ib g) d (-1)%Z) (set3 (ie g) d 0%Z)) /\ ~ stored g (shift (shift i3 d 1) (nxt (nxt d)) (-1)).
Proof.
  intros g d W Hd Hd2. exists (set3 (ib g) d (-1)%Z). split.
  - apply in_vec_range. intros e. destruct (dim3_eqb e d) eqn:E.
    + apply dim3_eqb_eq in E. subst e. rewrite !get3_set3_same. lia.
    + rewrite !get3_set3_other by (intros ->; rewrite dim3_eqb_refl in E; discriminate). unfold ib, ie. rewrite !get3_gen3. destruct (W e) as [L [_ We]]. destruct (get3 (invar g) e); lia.
  - intros H. specialize (H (nxt (nxt d))). rewrite !get3_shift, dim3_eqb_refl in H.
    assert (dim3_eqb d (nxt (nxt d)) = false) as K by (destruct d; reflexivity). rewrite K in H.
    rewrite get3_set3_other in H by (destruct d; discriminate). unfold ib in H. rewrite get3_gen3 in H. lia.
Qed.
Print Assumptions C33_index_refuted.

(** ** Example: a yz run with a pulse coming in at the lower y side *)
Definition ex_rg : fgrid := FGrid (v3 1 8 8)%Z (v3 0 2 2)%Z (v3 1 (1 / 4) (1 / 4)) (1 / 8) (v3 true false false).
Example ex_C33 : wf_grid ex_rg /\ get3 (invar ex_rg) D1 = false /\ 0 < dt ex_rg /\ 0 < get3 (dx ex_rg) D1 /\
  within ex_rg 1 2 (v3 0 0 3)%Z /\ get3 (v3 0 0 3)%Z D1 = wall_at Lo (get3 (ldims ex_rg) D1) /\
  position ex_rg (pulse_point Lo D1 (v3 0 0 3)%Z) (nxt D1) = v3 0 0 (7 / 8).
Proof.
  split; [intros d; destruct d; cbn; repeat split; try lia; lra|]. split; [reflexivity|]. split; [cbn; lra|]. split; [cbn; lra|].
  split; [intros a; destruct a; cbn; lia|]. split; [reflexivity|]. apply v3_ext. intros a. destruct a; cbn; lra.
Qed.
