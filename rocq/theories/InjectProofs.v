From Coq Require Import Reals Lra Psatz.
From Flocq Require Import Core.
From Verif Require Import Base Arr RSum IndexerModel RangeModel RangeProofs FieldModel FieldSpec BndPrtModel DepositModel DepositSpec DepositProofs CurrentModel CurrentProofs CurrentVar1Proofs DepositProps PushModel SetupModel GaussModel InjectModel InjectSpec.
Local Open Scope R_scope.

(** ** velocities and momenta *)
Lemma mag2_nonneg v : 0 <= mag2 v.
Proof. unfold mag2. nra. Qed.

Lemma sqrt_sq_inv m : 0 < m -> 0 < sqrt m /\ sqrt m * sqrt m = m /\ / sqrt m * / sqrt m = / m.
Proof.
  intros H. pose proof (sqrt_lt_R0 m H). pose proof (sqrt_sqrt m (Rlt_le _ _ H)). repeat split; auto.
  rewrite <- Rinv_mult, H1. reflexivity.
Qed.

Lemma calc_v_get u d : get3 (calc_v u) d = get3 u d / sqrt (1 + mag2 u).
Proof.
  unfold calc_v, rsqrt. cbv zeta. replace (1 + sqr (c0 u) + sqr (c1 u) + sqr (c2 u)) with (1 + mag2 u) by (unfold sqr, mag2; ring).
  destruct d; cbn [get3 c0 c1 c2]; reflexivity.
Qed.

Lemma mag2_scale v k : mag2 (gen3 (fun d => get3 v d * k)) = k * k * mag2 v.
Proof. unfold mag2. cbn [gen3 c0 c1 c2 get3]. ring. Qed.

(** the momentum of a velocity has that velocity *)
Lemma momentum_velocity v : mag2 v < 1 -> calc_v (gen3 (fun d => get3 v d / sqrt (1 - mag2 v))) = v.
Proof.
  intros H. apply v3_ext. intros d. rewrite calc_v_get, get3_gen3. unfold Rdiv. rewrite (mag2_scale v (/ sqrt (1 - mag2 v))).
  destruct (sqrt_sq_inv (1 - mag2 v)) as (P & E & E2); [lra|]. rewrite E2.
  replace (1 + / (1 - mag2 v) * mag2 v) with (/ (1 - mag2 v)) by (field; lra).
  replace (/ (1 - mag2 v)) with (1 / (1 - mag2 v)) by (field; lra). rewrite sqrt_div_alt by lra. rewrite sqrt_1. field. lra.
Qed.

(** and the other way round *)
Lemma velocity_momentum u : let v := calc_v u in mag2 v < 1 /\ gen3 (fun d => get3 v d / sqrt (1 - mag2 v)) = u.
Proof.
  intros v. pose proof (mag2_nonneg u) as N. destruct (sqrt_sq_inv (1 + mag2 u)) as (P & E & E2); [lra|].
  assert (M : mag2 v = mag2 u / (1 + mag2 u)).
  { replace v with (gen3 (fun d => get3 u d * / sqrt (1 + mag2 u))) by (apply v3_ext; intros; rewrite get3_gen3; symmetry; apply calc_v_get).
    rewrite mag2_scale, E2. field. lra. }
  assert (L : 1 - mag2 v = 1 / (1 + mag2 u)) by (rewrite M; field; lra). split.
  - assert (0 < 1 / (1 + mag2 u)) by (apply Rdiv_lt_0_compat; lra). lra.
  - apply v3_ext. intros d. rewrite get3_gen3, L, sqrt_div_alt, sqrt_1 by lra. unfold v. rewrite calc_v_get. field. lra.
Qed.

Lemma component_lt v d : mag2 v < 1 -> -1 < get3 v d < 1.
Proof. unfold mag2. intros H. destruct v as [a b c]. cbn [c0 c1 c2] in H. destruct d; cbn [get3 c0 c1 c2]; nra. Qed.

(** ** joining *)
Lemma all_some_in {A B} (f : A -> option B) l : (forall x, In x l -> exists y, f x = Some y) -> exists r, all_some (map f l) = Some r /\ Forall2 (fun x y => f x = Some y) l r.
Proof.
  induction l as [|a l IH]; intros H; [exists []; split; [reflexivity|constructor]|].
  destruct (H a (or_introl eq_refl)) as [y E]. destruct IH as (r & E2 & F); [intros x Hx; apply H; right; exact Hx|].
  exists (y :: r). split; [cbn [map all_some]; rewrite E, E2; reflexivity|constructor; assumption].
Qed.

Lemma join_ok {A B X} (Q : list A -> list B -> Prop) (want : X -> list A) (f : X -> option (list A * list B)) xs :
  Q [] [] -> (forall a b a' b', Q a b -> Q a' b' -> Q (a ++ a') (b ++ b')) ->
  (forall x, In x xs -> exists l, f x = Some (want x, l) /\ Q (want x) l) ->
  exists l, join (map f xs) = Some (flat_map want xs, l) /\ Q (flat_map want xs) l.
Proof.
  intros Q0 QA H. unfold join. induction xs as [|x xs IH]; [exists []; split; [reflexivity|exact Q0]|].
  destruct (H x (or_introl eq_refl)) as (l & E & HQ). destruct IH as (l' & E' & HQ'); [intros y Hy; apply H; right; exact Hy|].
  cbn [map all_some flat_map]. rewrite E. destruct (all_some (map f xs)) as [r|]; [|discriminate E']. cbn [option_map] in *. injection E' as E1 E2.
  exists (l ++ l'). cbn [map concat fst snd]. rewrite E1, E2. split; [reflexivity|]. apply QA; assumption.
Qed.

Section Run.
  Variable I : inj.
  Hypothesis HR : inject_run I.
  Let g := in_g I.
  Let dx := cg_dx g.
  Let inv := invar_of (in_dim I).

  Lemma dxp d : 0 < get3 dx d.
  Proof. exact (proj1 (proj2 (proj1 (proj2 HR) d))). Qed.
  Lemma dt_ok : 0 < cg_dt g < get3 dx D1.
  Proof. exact (proj1 (proj2 (proj2 HR))). Qed.
  Lemma dim_ok : in_dim I = dim_xyz \/ in_dim I = dim_yz.
  Proof. destruct HR as [H _]. destruct (in_sch I); auto; contradiction. Qed.
  Lemma inv_D1 : get3 inv D1 = false.
  Proof. unfold inv. destruct dim_ok as [E|E]; rewrite E; reflexivity. Qed.
  Lemma wfg : wf_cg g.
  Proof. intros d. pose proof (dxp d). unfold dx in *. lra. Qed.

  (** starts, particles and currents that balance *)
  Definition good (ps : list (particle R)) (l : list entry) : Prop :=
    Forall (in_first_row I) ps /\
    exists st, Forall2 (started I) st ps /\
      forall n, density_at I (map p_x ps) n - density_at I st n + cg_dt g * div_J I (jcur l) n = 0.

  Lemma density_app a b n : density_at I (a ++ b) n = density_at I a n + density_at I b n.
  Proof. unfold density_at. rewrite map_app, rsum_app. reflexivity. Qed.

  Lemma div_nil n : div_J I (jcur []) n = 0.
  Proof. unfold div_J, div_minus, dminus, jcur. cbn [map rsum fold_right]. unfold Rdiv. repeat match goal with |- context [if ?b then _ else _] => destruct b end; ring. Qed.

  Lemma div_app l l' n : div_J I (jcur (l ++ l')) n = div_J I (jcur l) n + div_J I (jcur l') n.
  Proof. unfold div_J. rewrite <- div_minus_plus. apply div_minus_ext. intros. apply jcur_app. Qed.

  Lemma good_nil : good [] [].
  Proof. split; [constructor|]. exists []. split; [constructor|]. intros n. rewrite div_nil. unfold density_at. cbn. ring. Qed.

  Lemma good_app a l a' l' : good a l -> good a' l' -> good (a ++ a') (l ++ l').
  Proof.
    intros [H1 (s & H2 & H3)] [H1' (s' & H2' & H3')]. split; [apply Forall_app; auto|]. exists (s ++ s'). split; [apply Forall2_app; assumption|].
    intros n. rewrite map_app, !density_app, div_app. specialize (H3 n). specialize (H3' n). lra.
  Qed.

  (** *** the current of one particle *)
  Definition scale (x : V3 R) : V3 R := gen3 (fun d => get3 x d / get3 dx d).

  Lemma current_ok q xm xp lf lg v : (forall d, get3 inv d = false -> Rabs (get3 (scale xp) d - get3 (scale xm) d) <= 1) ->
    (forall d, get3 inv d = false -> get3 lg d = fint (get3 (scale xm) d) /\ get3 lf d = fint (get3 (scale xp) d)) -> mag2 v < 1 ->
    exists l, calc_j_1vb (in_sch I) (in_dim I) g q (scale xm) (scale xp) lf lg v = Some l /\
      balances inv dx (qdt g q) l (scale xm) (scale xp) /\ Forall (touches inv (scale xm) (scale xp)) l.
  Proof.
    intros HS CL HV. set (a := scale xm) in *. set (b := scale xp) in *.
    assert (HC : crossing inv a b) by (apply short_near; exact HS).
    assert (SL : match in_sch I with sch_split | sch_zigzag => forall e, get3 inv e = true -> Rabs (invar_step g v e) < / 2 | _ => True end).
    { assert (D : match in_sch I with sch_split | sch_zigzag => forall e, get3 inv e = true -> 2 * cg_dt g <= get3 dx e | _ => True end).
      { destruct HR as (_ & H & _). destruct (in_sch I); try exact Logic.I; intros e E; specialize (H e); fold inv in H; rewrite E in H; apply H. }
      assert (K : (forall e, get3 inv e = true -> 2 * cg_dt g <= get3 dx e) -> forall e, get3 inv e = true -> Rabs (invar_step g v e) < / 2).
      { intros D' e E. specialize (D' e E). unfold invar_step. pose proof (dxp e) as P. pose proof (component_lt v e HV) as W. pose proof dt_ok as T. change (cg_dx g) with dx.
        assert (0 < / get3 dx e) by (apply Rinv_0_lt_compat; lra).
        assert (cg_dt g * / get3 dx e <= / 2). { apply (Rmult_le_reg_r (get3 dx e)); [lra|]. rewrite Rmult_assoc, Rinv_l by lra. lra. }
        set (k := cg_dt g * / get3 dx e) in *. replace (get3 v e * cg_dt g / get3 dx e) with (k * get3 v e) by (unfold k, Rdiv; ring).
        assert (0 < k) by (apply Rmult_lt_0_compat; lra). apply Rabs_def1; nra. }
      destruct (in_sch I); try exact Logic.I; apply K; exact D. }
    pose proof (proj1 HR) as HD. unfold calc_j_1vb. pose proof wfg as WF. unfold inv in *. clearbody a b.
    destruct (in_sch I); [destruct HD as [E|E]|destruct HD as [E|E]| | |contradiction|contradiction]; try (rename HD into E); rewrite E in *; eexists; (split; [reflexivity|]).
    - exact (calc_j_split_run g vb_xyz q a b v WF SL HC).
    - exact (calc_j_split_run g vb_yz q a b v WF SL HC).
    - exact (calc_j_zigzag_run g vb_xyz q a b v WF SL HC).
    - exact (calc_j_zigzag_run g vb_yz q a b v WF SL HC).
    - exact (calc_j_var1_run g q a b lf lg v WF HC CL).
    - exact (calc_j_2d_run g q a b lf lg WF HC CL).
  Qed.

  Definition in_row (idx : V3 Z) : Prop := (0 <= c0 idx < c0 (in_ld I) /\ c1 idx = -1 /\ 0 <= c2 idx < c2 (in_ld I))%Z.
  Definition draw_ok (r : draw) : Prop := (forall d, 0 <= get3 (dr_x r) d < 1) /\ (in_correct I = true -> mag2 (dr_u r) < 1).

  Definition vel (r : draw) : V3 R := v3 (velocity I r D0) (velocity I r D1) (velocity I r D2).

  Lemma drawn_momentum r : draw_ok r -> exists u, (if in_correct I then vel_to_4vel (dr_u r) else Some (dr_u r)) = Some u /\
    u = gen3 (fun d => get3 (vel r) d / sqrt (1 - mag2 (vel r))) /\ calc_v u = vel r /\ mag2 (vel r) < 1.
  Proof.
    intros [_ H]. unfold vel, velocity. destruct (in_correct I).
    - specialize (H eq_refl). set (w := dr_u r) in *. replace (v3 (get3 w D0) (get3 w D1) (get3 w D2)) with w by (destruct w; reflexivity).
      unfold vel_to_4vel. cbv zeta. change (sqr (c0 w) + sqr (c1 w) + sqr (c2 w)) with (mag2 w).
      destruct (Rlt_dec 0 (1 - mag2 w)) as [_|N]; [|exfalso; lra]. eexists. split; [reflexivity|].
      assert (E : gen3 (fun d => get3 w d * (1 / sqrt (1 - mag2 w))) = gen3 (fun d => get3 w d / sqrt (1 - mag2 w))).
      { apply v3_ext. intros d. rewrite !get3_gen3. unfold Rdiv. ring. }
      rewrite E. split; [reflexivity|]. split; [|exact H]. apply momentum_velocity. exact H.
    - exists (dr_u r). split; [reflexivity|]. replace (v3 _ _ _) with (calc_v (dr_u r)).
      + destruct (velocity_momentum (dr_u r)) as [L E]. split; [symmetry; exact E|]. split; [reflexivity|exact L].
      + apply v3_ext. intros d. rewrite calc_v_get. destruct d; reflexivity.
  Qed.

  Definition begins (idx : V3 Z) (r : draw) : V3 R := gen3 (fun d => IZR (get3 idx d) * get3 dx d + get3 (dr_x r) d * get3 dx d).

  Lemma begins_cell idx r d : draw_ok r -> fint (get3 (scale (begins idx r)) d) = get3 idx d.
  Proof.
    intros [H _]. specialize (H d). unfold scale, begins. rewrite !get3_gen3. pose proof (dxp d).
    replace ((IZR (get3 idx d) * get3 dx d + get3 (dr_x r) d * get3 dx d) / get3 dx d) with (IZR (get3 idx d) + get3 (dr_x r) d) by (field; lra).
    unfold fint. apply Zfloor_imp. rewrite plus_IZR. lra.
  Qed.

  Lemma moved_get idx r u d : draw_ok r -> calc_v u = vel r ->
    get3 (push_x (v3 true false true) (cg_dt g) 1 (begins idx r) (calc_v u)) d = if dim3_eqb d D1 then get3 (begins idx r) D1 + cg_dt g * velocity I r D1 else get3 (begins idx r) d.
  Proof. intros _ ->. unfold push_x, vel. cbn [c0 c1 c2]. destruct d; cbn [get3 c0 c1 c2 dim3_eqb]; ring. Qed.

  Definition want (idx : V3 Z) (r : draw) : list (particle R) :=
    if Rlt_dec (c1 (arrives I (c0 idx) (c2 idx) r)) 0 then [] else [arrived I (c0 idx) (c2 idx) r].

  Lemma arrives_moved idx r u : in_row idx -> draw_ok r -> calc_v u = vel r -> push_x (v3 true false true) (cg_dt g) 1 (begins idx r) (calc_v u) = arrives I (c0 idx) (c2 idx) r.
  Proof.
    intros (_ & H1 & _) H E. apply v3_ext. intros d. rewrite (moved_get idx r u d H E). unfold begins. rewrite !get3_gen3. unfold arrives. cbv zeta. fold g dx.
    destruct idx as [i0 i1 i2]. cbn [c0 c1 c2] in *. subst i1. destruct d; cbn [get3 c0 c1 c2 dim3_eqb]; ring.
  Qed.

  Lemma arrives_in idx r : in_row idx -> draw_ok r -> mag2 (vel r) < 1 -> 0 <= c1 (arrives I (c0 idx) (c2 idx) r) -> in_first_row I (arrived I (c0 idx) (c2 idx) r).
  Proof.
    intros (H0 & H1 & H2) [HX _] HV HP. pose proof (component_lt (vel r) D1 HV) as W. cbn [vel get3 c1] in W. pose proof dt_ok as T.
    assert (Y : c1 (arrives I (c0 idx) (c2 idx) r) < c1 dx).
    { unfold arrives. cbv zeta. fold g dx. cbn [c1]. pose proof (HX D1) as X. cbn [get3] in X, T. pose proof (dxp D1) as P. cbn [get3] in P. nra. }
    split; [|exact Y]. intros d. unfold arrived. cbn [p_x]. fold g dx. destruct d; cbn [get3].
    - unfold arrives. cbn [c0]. fold g dx. pose proof (HX D0) as X. pose proof (dxp D0) as P. cbn [get3] in X, P.
      assert (0 <= IZR (c0 idx)) by (apply IZR_le; lia). assert (IZR (c0 idx) + 1 <= IZR (c0 (in_ld I))) by (rewrite <- plus_IZR; apply IZR_le; lia). split; [apply Rmult_le_pos; lra|apply Rmult_lt_compat_r; lra].
    - split; [exact HP|]. assert (1 <= IZR (c1 (in_ld I))). { apply IZR_le. pose proof (proj1 (proj1 (proj2 HR) D1)) as Q. cbn [get3] in Q. lia. } pose proof (dxp D1) as P. cbn [get3] in P. nra.
    - unfold arrives. cbn [c2]. fold g dx. pose proof (HX D2) as X. pose proof (dxp D2) as P. cbn [get3] in X, P.
      assert (0 <= IZR (c2 idx)) by (apply IZR_le; lia). assert (IZR (c2 idx) + 1 <= IZR (c2 (in_ld I))) by (rewrite <- plus_IZR; apply IZR_le; lia). split; [apply Rmult_le_pos; lra|apply Rmult_lt_compat_r; lra].
  Qed.

  Lemma inject_one_ok idx r : in_row idx -> draw_ok r -> exists l, inject_one I idx r = Some (want idx r, l) /\ good (want idx r) l.
  Proof.
    intros Hi Hr. destruct (drawn_momentum r Hr) as (u & E1 & E2 & E3 & HV). unfold inject_one, generate. cbv zeta. rewrite E1.
    change (cg_dx (in_g I)) with dx. change (in_g I) with g.
    replace (gen3 (fun d => get3 (gen3 (fun d0 => IZR (get3 idx d0) * get3 dx d0)) d + get3 (dr_x r) d * get3 dx d)) with (begins idx r)
      by (apply v3_ext; intros d; unfold begins; rewrite !get3_gen3; reflexivity).
    rewrite (arrives_moved idx r u Hi Hr E3). unfold want. set (y := arrives I (c0 idx) (c2 idx) r). change (get3 y D1) with (c1 y).
    destruct (Rlt_dec (c1 y) 0) as [L|L]; [exists []; split; [reflexivity|apply good_nil]|]. assert (HP : 0 <= c1 y) by lra.
    pose proof (arrives_in idx r Hi Hr HV HP) as HIN. pose proof HIN as [IN1 IN2]. cbn [p_x arrived] in IN1, IN2. fold y in IN1, IN2.
    assert (EI : inject_at I (gen3 (fun d => get3 y d + get3 (in_xb I) d)) u = Some (arrived I (c0 idx) (c2 idx) r)).
    { unfold inject_at. replace (forallb _ dims3) with true.
      - f_equal. unfold arrived. cbv zeta. fold (vel r). rewrite <- E2. f_equal; [|ring]. apply v3_ext. intros d. rewrite !get3_gen3. fold y. ring.
      - symmetry. rewrite forallb_forall. intros d _. rewrite get3_gen3. specialize (IN1 d). destruct (proj1 (proj2 HR) d) as (_ & _ & XE & _). rewrite XE. fold g dx. fold g dx in IN1.
        apply andb_true_intro. split; apply Rle_bool_true; lra. }
    rewrite EI. change (gen3 (fun d => get3 (begins idx r) d / get3 dx d)) with (scale (begins idx r)). change (gen3 (fun d => get3 y d / get3 dx d)) with (scale y). rewrite E3.
    assert (BY : forall d, get3 y d = if dim3_eqb d D1 then get3 (begins idx r) D1 + cg_dt g * velocity I r D1 else get3 (begins idx r) d).
    { intros d. rewrite <- (moved_get idx r u d Hr E3). f_equal. symmetry. apply arrives_moved; assumption. }
    pose proof (component_lt (vel r) D1 HV) as W. cbn [vel get3 c1] in W. pose proof dt_ok as T.
    assert (SH : forall d, get3 inv d = false -> Rabs (get3 (scale y) d - get3 (scale (begins idx r)) d) <= 1).
    { intros d _. unfold scale. rewrite !get3_gen3, BY. pose proof (dxp d) as P. destruct d; cbn [dim3_eqb]; try (rewrite Rminus_eq_0, Rabs_R0; lra).
      match goal with |- Rabs ?a <= 1 => replace a with (cg_dt g * / get3 dx D1 * velocity I r D1) by (field; lra) end.
      assert (0 < / get3 dx D1) by (apply Rinv_0_lt_compat; lra). assert (cg_dt g * / get3 dx D1 <= 1). { apply (Rmult_le_reg_r (get3 dx D1)); [lra|]. rewrite Rmult_assoc, Rinv_l by lra. lra. }
      set (k := cg_dt g * / get3 dx D1) in *. assert (0 < k) by (apply Rmult_lt_0_compat; lra). apply Rabs_le. split; nra. }
    assert (CB : forall d, get3 idx d = fint (get3 (scale (begins idx r)) d)) by (intros d; symmetry; apply begins_cell; exact Hr).
    destruct (current_ok (in_q I * 1) (begins idx r) y (gen3 (fun d => fint (get3 (scale y) d))) idx (vel r) SH) as (l & EJ & BAL & TOU); [intros d _; rewrite get3_gen3; split; [apply CB|reflexivity]|exact HV|].
    rewrite EJ. exists l.
    assert (FY : forall d, get3 inv d = false -> (fint (get3 (scale y) d) = if dim3_eqb d D1 then 0 else get3 idx d)%Z).
    { intros d _. destruct d; cbn [dim3_eqb].
      - rewrite CB. f_equal. unfold scale. rewrite !get3_gen3, BY. reflexivity.
      - unfold scale, fint. rewrite get3_gen3. pose proof (dxp D1) as P. apply Zfloor_imp. change (get3 y D1) with (c1 y). change (get3 dx D1) with (c1 dx) in *. assert (0 < / c1 dx) by (apply Rinv_0_lt_compat; exact P). fold g dx in IN2. split; [unfold Rdiv; apply Rmult_le_pos; lra|].
        change (IZR (0 + 1)) with 1. apply (Rmult_lt_reg_r (c1 dx)); [lra|]. unfold Rdiv. rewrite Rmult_assoc, Rinv_l, Rmult_1_l, Rmult_1_r by lra. exact IN2.
      - rewrite CB. f_equal. unfold scale. rewrite !get3_gen3, BY. reflexivity. }
    assert (ST : forallb (j_stored I) l = true).
    { rewrite forallb_forall. intros e He. rewrite Forall_forall in TOU. specialize (TOU e He). unfold j_stored. rewrite forallb_forall. intros d _. specialize (TOU d). cbv zeta in TOU.
      destruct (proj1 (proj2 HR) d) as (LD & _ & _ & IB). fold inv in IB. destruct Hi as (H0 & H1 & H2). destruct (get3 inv d) eqn:EV.
      - destruct IB as (B1 & B2 & _). rewrite TOU, B1, B2. reflexivity.
      - rewrite (FY d EV), <- CB in TOU. clear - LD IB TOU H0 H1 H2. destruct idx as [i0 i1 i2]. cbn [c0 c1 c2] in *. subst i1.
        apply andb_true_intro. split; [apply Z.leb_le|apply Z.ltb_lt]; destruct d; cbn [dim3_eqb get3 c0 c1 c2] in *; lia. }
    rewrite ST. split; [reflexivity|]. split; [constructor; [exact HIN|constructor]|].
    exists [begins idx r]. split.
    - constructor; [|constructor]. unfold started, arrived. cbn [p_x]. fold y. pose proof (BY D0) as B0. pose proof (BY D2) as B2. cbn [dim3_eqb get3] in B0, B2. split; [symmetry; exact B0|]. split; [symmetry; exact B2|].
      unfold begins. cbn [gen3 c1]. destruct Hi as (_ & H1 & _). change (get3 idx D1) with (c1 idx). rewrite H1. pose proof (proj1 Hr D1) as X. pose proof (dxp D1) as P. fold g dx. cbn [get3] in *. split; nra.
    - intros n. specialize (BAL n). unfold density_at, div_J. cbn [map rsum fold_right p_x arrived]. fold y. fold g dx inv. change (gen3 (fun d => get3 y d / get3 dx d)) with (scale y).
      change (gen3 (fun d => get3 (begins idx r) d / get3 dx d)) with (scale (begins idx r)). unfold qdt in BAL. set (a := share hat inv (scale y) n) in *. set (b := share hat inv (scale (begins idx r)) n) in *.
      apply (Rmult_eq_reg_l (/ cg_dt g)); [|apply Rinv_neq_0_compat; lra]. rewrite Rmult_0_r, <- BAL. field. lra.
  Qed.

  (** *** a cell, and the patch *)
  Lemma n_ok f : 0 <= f < 1 -> n_in_cell 1 (in_ppud I) true f = Some (Zfloor (in_ppud I + f)).
  Proof.
    intros H. unfold n_in_cell. destruct (Req_EM_T 1 0) as [E|_]; [exfalso; lra|]. rewrite Rmult_1_l. destruct (proj2 (proj2 (proj2 HR))) as [P1 P2].
    unfold to_int, int_op. rewrite Ztrunc_floor by lra. pose proof (Zfloor_lub 0 (in_ppud I + f)) as L. pose proof (Zfloor_lb (in_ppud I + f)) as U.
    assert (0 <= Zfloor (in_ppud I + f))%Z by (apply L; lra).
    assert (Zfloor (in_ppud I + f) < 2147483648)%Z by (apply lt_IZR; lra).
    replace (is_int _) with true; [reflexivity|]. symmetry. unfold is_int. lia.
  Qed.

  Variables (frac : V3 Z -> R) (dr : V3 Z -> Z -> draw).
  Hypothesis HU : uniform_ok frac dr.
  Hypothesis HL : slower_than_light I dr.

  Lemma dr_ok i k : draw_ok (dr i k).
  Proof. split; [intros d; apply HU|intros E; apply HL; exact E]. Qed.

  Definition want_cell (idx : V3 Z) : list (particle R) := flat_map (fun k => want idx (dr idx k)) (zrange 0 (Zfloor (in_ppud I + frac idx))).

  Lemma inject_cell_ok idx : in_row idx -> exists l, inject_cell I frac dr idx = Some (want_cell idx, l) /\ good (want_cell idx) l.
  Proof.
    intros H. unfold inject_cell. rewrite n_ok by apply HU. apply (join_ok good (fun k => want idx (dr idx k))); [exact good_nil|exact good_app|].
    intros k _. apply inject_one_ok; [exact H|apply dr_ok].
  Qed.

  Lemma row_cells : vr_visits (Z.to_nat (c0 (in_ld I) * c2 (in_ld I))) [0; -1; 0]%Z [c0 (in_ld I); 0; c2 (in_ld I)]%Z =
    Some (flat_map (fun i => map (fun k => [i; -1; k]%Z) (zrange 0 (c2 (in_ld I)))) (zrange 0 (c0 (in_ld I)))).
  Proof.
    pose proof (proj1 (proj1 (proj2 HR) D0)) as P0. pose proof (proj1 (proj1 (proj2 HR) D2)) as P2. cbn [get3] in P0, P2.
    assert (E : nested_loops [0; -1; 0]%Z [c0 (in_ld I); 0; c2 (in_ld I)]%Z = flat_map (fun i => map (fun k => [i; -1; k]%Z) (zrange 0 (c2 (in_ld I)))) (zrange 0 (c0 (in_ld I)))).
    { cbn [nested_loops]. change (zrange (-1) 0) with [-1]%Z. cbn [flat_map]. rewrite !flat_map_concat_map. f_equal. apply map_ext. intros i. rewrite app_nil_r, map_map.
      rewrite <- (map_map (fun k => [k]) (fun x => i :: -1 :: x)%Z). f_equal. cbn [map]. rewrite <- flat_map_concat_map. generalize (zrange 0 (c2 (in_ld I))). intros l. induction l as [|a l IH]; cbn [flat_map map app]; [reflexivity|]. rewrite IH. reflexivity. }
    rewrite <- E. apply vr_visits_nested; [discriminate|repeat constructor; lia|]. rewrite E.
    assert (L : forall (l : list Z) n, length (flat_map (fun i => map (fun k => [i; -1; k]%Z) (zrange 0 n)) l) = (length l * Z.to_nat n)%nat).
    { intros l n. induction l as [|a l IH]; [reflexivity|]. cbn [flat_map length]. rewrite app_length, map_length, zrange_length, IH. lia. }
    rewrite L, zrange_length. rewrite Z2Nat.inj_mul by lia. lia.
  Qed.

  Lemma flat_map_flat_map {A B C} (f : B -> list C) (h : A -> list B) l : flat_map f (flat_map h l) = flat_map (fun a => flat_map f (h a)) l.
  Proof. induction l as [|a l IH]; [reflexivity|]. cbn [flat_map]. rewrite flat_map_app, IH. reflexivity. Qed.
  Lemma flat_map_map {A B C} (f : B -> list C) (h : A -> B) l : flat_map f (map h l) = flat_map (fun a => f (h a)) l.
  Proof. induction l as [|a l IH]; [reflexivity|]. cbn [flat_map map]. rewrite IH. reflexivity. Qed.

  Lemma inject_patch_ok : exists l, inject_patch I true frac dr = Some (arrivals I frac dr, l) /\ good (arrivals I frac dr) l.
  Proof.
    unfold inject_patch. rewrite row_cells.
    assert (E : arrivals I frac dr = flat_map (fun l => want_cell (idx3 l)) (flat_map (fun i => map (fun k => [i; -1; k]%Z) (zrange 0 (c2 (in_ld I)))) (zrange 0 (c0 (in_ld I))))).
    { rewrite flat_map_flat_map. unfold arrivals. rewrite !flat_map_concat_map. f_equal. apply map_ext. intros i. rewrite flat_map_map. rewrite !flat_map_concat_map. f_equal. }
    rewrite E. apply (join_ok good (fun l => want_cell (idx3 l)) (fun l => inject_cell I frac dr (idx3 l))); [exact good_nil|exact good_app|].
    intros x Hx. apply in_flat_map in Hx. destruct Hx as (i & Hi & Hx). apply in_map_iff in Hx. destruct Hx as (k & <- & Hk). apply in_zrange in Hi, Hk.
    apply inject_cell_ok. unfold in_row, idx3. cbn [nth c0 c1 c2]. lia.
  Qed.

  (** nothing of where the particles started reaches the points inside *)
  Lemma starts_outside st ps n : Forall2 (started I) st ps -> (1 <= c1 n)%Z -> density_at I st n = 0.
  Proof.
    intros H Hn. unfold density_at. apply rsum_zero. intros x Hx.
    assert (Y : c1 x < 0). { clear - H Hx. induction H as [|a p st ps H F IH]; [contradiction|]. destruct Hx as [<-|Hx]; [apply H|apply IH; exact Hx]. }
    unfold share. cbv zeta. fold inv. rewrite inv_D1. rewrite !get3_gen3. fold g dx. change (get3 x D1) with (c1 x). change (get3 n D1) with (c1 n).
    assert (E : hat (c1 x / get3 dx D1 - IZR (c1 n)) = 0).
    { pose proof (dxp D1). assert (0 < / get3 dx D1) by (apply Rinv_0_lt_compat; lra). assert (c1 x / get3 dx D1 < 0) by (unfold Rdiv; nra). assert (1 <= IZR (c1 n)) by (apply IZR_le; lia).
      unfold hat. rewrite Rabs_left by lra. apply Rmax_left. lra. }
    cbn [get3] in E. cbn [get3]. rewrite E. ring.
  Qed.
End Run.
