(** Proofs about one binary collision. *)
From Coq Require Import Reals Lra Psatz.
From Verif Require Import Base Arr CollisionModel BinColModel.
Local Open Scope R_scope.

Lemma rdiv_some x y : y <> 0 -> rdiv x y = Some (x / y).
Proof. intros H. unfold rdiv. destruct (Req_EM_T y 0); [contradiction|reflexivity]. Qed.

Lemma rsqrt_some x : 0 <= x -> rsqrt x = Some (sqrt x).
Proof. intros H. unfold rsqrt. destruct (Rlt_dec x 0); [lra|reflexivity]. Qed.

Lemma vdiv_some a s : s <> 0 -> vdiv a s = Some (v3 (c0 a / s) (c1 a / s) (c2 a / s)).
Proof. intros H. unfold vdiv. rewrite !rdiv_some by exact H. reflexivity. Qed.

Lemma sq_pos x : 0 <= x * x.
Proof. nra. Qed.

Lemma dot_pos a : 0 <= dot a a.
Proof. unfold dot. pose proof (sq_pos (c0 a)). pose proof (sq_pos (c1 a)). pose proof (sq_pos (c2 a)). lra. Qed.

(** ** the coordinate system *)
Definition orthonormal (n1 n2 n3 : V3 R) : Prop :=
  dot n1 n1 = 1 /\ dot n2 n2 = 1 /\ dot n3 n3 = 1 /\ dot n1 n2 = 0 /\ dot n1 n3 = 0 /\ dot n2 n3 = 0.

Lemma axes_ok pc : exists n1 n2 n3, axes pc = Some (n1, n2, n3) /\ orthonormal n1 n2 n3.
Proof.
  unfold axes. destruct pc as [x y z]. cbn [c0 c1 c2].
  assert (A : 0 <= dot (v3 x y z) (v3 x y z)) by apply dot_pos. rewrite (rsqrt_some _ A). cbn [bind].
  assert (B : 0 <= x * x + y * y) by nra. rewrite (rsqrt_some _ B). cbn [bind].
  destruct (Req_EM_T (sqrt (x * x + y * y)) 0) as [E|E].
  - eexists _, _, _. split; [reflexivity|]. unfold orthonormal, dot. cbn. repeat split; ring.
  - set (s := sqrt (x * x + y * y)) in *. set (r := sqrt (dot (v3 x y z) (v3 x y z))).
    assert (S2 : s * s = x * x + y * y) by (apply sqrt_sqrt; exact B).
    assert (R2 : r * r = x * x + y * y + z * z) by (unfold r; rewrite sqrt_sqrt by exact A; reflexivity).
    assert (SP : 0 < s) by (pose proof (sqrt_pos (x * x + y * y)); fold s in H; lra).
    assert (RP : 0 < r). { pose proof (sqrt_pos (dot (v3 x y z) (v3 x y z))) as H. fold r in H. destruct (Req_dec r 0) as [E0|]; [|lra]. rewrite E0 in R2. nra. }
    assert (RS : r * s <> 0) by nra.
    rewrite vdiv_some by lra. cbn [bind c0 c1 c2]. rewrite !(rdiv_some _ s) by lra. cbn [bind]. rewrite !(rdiv_some _ (r * s)) by exact RS. cbn [bind].
    eexists _, _, _. split; [reflexivity|]. unfold orthonormal, dot. cbn [c0 c1 c2].
    assert (S3 : y * y = s * s - x * x) by lra. assert (R3 : z * z = r * r - s * s) by lra.
    repeat split.
    + replace (x / r * (x / r) + y / r * (y / r) + z / r * (z / r)) with ((x * x + y * y + z * z) / (r * r)) by (field; lra). rewrite <- R2. field. lra.
    + replace (y / s * (y / s) + - x / s * (- x / s) + 0 * 0) with ((x * x + y * y) / (s * s)) by (field; lra). rewrite <- S2. field. lra.
    + replace (- x * z / (r * s) * (- x * z / (r * s)) + - y * z / (r * s) * (- y * z / (r * s)) + s * s / (r * s) * (s * s / (r * s)))
        with (((x * x + y * y) * (z * z) + (s * s) * (s * s)) / ((r * r) * (s * s))) by (field; lra). rewrite <- S2, R3. field. lra.
    + field. lra.
    + replace (x / r * (- x * z / (r * s)) + y / r * (- y * z / (r * s)) + z / r * (s * s / (r * s)))
        with ((z * (s * s - (x * x + y * y))) / (r * r * s)) by (field; lra). rewrite S2. field. lra.
    + field. lra.
Qed.

(** ** boosts *)
Lemma boost gam bet n p e : (dot n n = 1 \/ (bet = 0 /\ gam = 1)) -> gam * gam * (1 - bet * bet) = 1 ->
  let p' := to_lab gam (dot p n) e n (scal bet n) p in
  dot p' p' = dot p p - e * e + (gam * (e + bet * dot p n)) * (gam * (e + bet * dot p n)).
Proof.
  intros H G p'.
  assert (E : dot p' p' = dot p p + 2 * (gam - 1) * (dot p n * dot p n) + (gam - 1) * (gam - 1) * (dot p n * dot p n) * dot n n
     + 2 * gam * bet * e * dot p n + 2 * (gam - 1) * gam * bet * e * dot p n * dot n n + gam * gam * bet * bet * e * e * dot n n).
  { unfold p', to_lab, scal, dot. cbn [c0 c1 c2]. ring. }
  rewrite E. destruct H as [H|[-> ->]]; [rewrite H|ring].
  assert (GB : gam * gam * bet * bet = gam * gam - 1) by lra.
  replace (gam * gam * bet * bet * e * e * 1) with ((gam * gam * bet * bet) * (e * e)) by ring. rewrite GB.
  replace (gam * (e + bet * dot p n) * (gam * (e + bet * dot p n))) with (gam * gam * (e * e) + 2 * gam * gam * bet * e * dot p n + (gam * gam * bet * bet) * (dot p n * dot p n)) by ring.
  rewrite GB. ring.
Qed.

Lemma to_cm_lab gam pn e n vc p : to_cm gam pn e n vc p = to_lab gam pn e n (scal (-1) vc) p.
Proof. unfold to_cm, to_lab, scal. cbn [c0 c1 c2]. f_equal; ring. Qed.

Lemma cauchy a b : dot a b * dot a b <= dot a a * dot b b.
Proof.
  unfold dot. destruct a as [a0 a1 a2], b as [b0 b1 b2]. cbn [c0 c1 c2].
  pose proof (sq_pos (a0 * b1 - a1 * b0)). pose proof (sq_pos (a0 * b2 - a2 * b0)). pose proof (sq_pos (a1 * b2 - a2 * b1)). nra.
Qed.

Lemma abs_le_of_sq x y : 0 <= y -> x * x <= y * y -> - y <= x <= y.
Proof. intros. split; nra. Qed.

Lemma sqrt_of x y : 0 <= y -> y * y = x -> sqrt x = y.
Proof. intros H <-. apply sqrt_square. exact H. Qed.

Lemma relative_ok pc1 pc2 e1 e2 : 0 < e1 -> 0 < e2 -> dot pc1 pc1 < e1 * e1 -> dot pc2 pc2 < e2 * e2 -> exists vcr, relative pc1 pc2 e1 e2 = Some vcr /\ 0 < vcr.
Proof.
  intros H1 H2 D1 D2. unfold relative. rewrite !vdiv_some by lra. cbn [bind c0 c1 c2].
  match goal with |- context [rdiv 1 (1 - dot ?x ?y)] => set (v1 := x); set (v2 := y) end.
  assert (V : dot v1 v2 * (e1 * e2) = dot pc1 pc2) by (unfold v1, v2, dot; cbn [c0 c1 c2]; field; lra).
  assert (L : dot v1 v2 < 1).
  { pose proof (cauchy pc1 pc2) as C. pose proof (dot_pos pc1). pose proof (dot_pos pc2).
    assert (P : 0 < e1 * e2) by nra.
    assert (dot pc1 pc1 * dot pc2 pc2 < (e1 * e2) * (e1 * e2)) by nra.
    assert (dot pc1 pc2 < e1 * e2) by nra. rewrite <- V in H4. nra. }
  rewrite rdiv_some by lra. cbn [bind]. rewrite rsqrt_some by apply dot_pos. cbn [bind].
  eexists. split; [reflexivity|]. destruct (Rlt_dec _ _) as [l|l]; lra.
Qed.

Lemma angle_ok nudt ran2 : 0 < nudt -> 0 < ran2 <= 1 -> exists psi, scatter_angle nudt ran2 = Some psi.
Proof.
  intros HN HR. unfold scatter_angle.
  set (r := if Rlt_dec ran2 (/ 100000000000000000000) then / 100000000000000000000 else ran2).
  assert (B : 0 < r <= 1) by (unfold r; destruct (Rlt_dec ran2 _); lra).
  destruct (Rlt_dec nudt 1) as [L|L].
  - destruct (Req_EM_T r 1) as [E|E]; [destruct (Rlt_dec 0 nudt); [eexists; reflexivity|lra]|]. destruct (Rlt_dec 1 r); [lra|].
    assert (LN : ln (1 - r) <= 0). { rewrite <- ln_1. apply Rlt_le. apply ln_increasing; lra. }
    rewrite rsqrt_some by nra. cbn [bind]. eexists. reflexivity.
  - destruct (Rlt_dec 1 r); [lra|]. eexists. reflexivity.
Qed.

Lemma unit_of V b : 0 < b -> b * b = dot V V -> dot (v3 (c0 V / b) (c1 V / b) (c2 V / b)) (v3 (c0 V / b) (c1 V / b) (c2 V / b)) = 1.
Proof. intros L B. transitivity (dot V V / (b * b)); [unfold dot; cbn [c0 c1 c2]; field; lra|]. rewrite <- B. field. lra. Qed.

Lemma scal_of V b : 0 < b -> V = scal b (v3 (c0 V / b) (c1 V / b) (c2 V / b)).
Proof. intros L. apply v3_ext. intros []; unfold scal; cbn [get3 c0 c1 c2]; field; lra. Qed.

(** ** the collision *)
Definition mom (m : R) (u : V3 R) (d : dim3) : R := m * get3 u d.
Definition energy (m : R) (u : V3 R) : R := sqrt (m * m + mom m u D0 * mom m u D0 + mom m u D1 * mom m u D1 + mom m u D2 * mom m u D2).

Section Collide.
  Variables (m1 m2 q1 q2 : R) (u1 u2 : V3 R) (nudt1 ran1 ran2 : R).
  Hypothesis Hm1 : 0 < m1.
  Hypothesis Hm2 : 0 < m2.
  Hypothesis Hq : q1 * q2 <> 0.
  Hypothesis Hnu : 0 < nudt1.
  Hypothesis Hran2 : 0 < ran2 <= 1.
  Let p1 := scal m1 u1.
  Let p2 := scal m2 u2.
  Let E1 := sqrt (m1 * m1 + dot p1 p1).
  Let E2 := sqrt (m2 * m2 + dot p2 p2).

  Lemma e1sq : E1 * E1 = m1 * m1 + dot p1 p1 /\ 0 < E1.
  Proof. assert (0 < m1 * m1 + dot p1 p1) by (pose proof (dot_pos p1); nra). split; [apply sqrt_sqrt; lra|apply sqrt_lt_R0; exact H]. Qed.
  Lemma e2sq : E2 * E2 = m2 * m2 + dot p2 p2 /\ 0 < E2.
  Proof. assert (0 < m2 * m2 + dot p2 p2) by (pose proof (dot_pos p2); nra). split; [apply sqrt_sqrt; lra|apply sqrt_lt_R0; exact H]. Qed.

  Lemma h1_ge : m1 * m2 <= E1 * E2 - dot p1 p2.
  Proof.
    destruct e1sq as [S1 P1], e2sq as [S2 P2].
    assert ((m1 * m2 + dot p1 p2) * (m1 * m2 + dot p1 p2) <= (E1 * E2) * (E1 * E2)).
    { replace (E1 * E2 * (E1 * E2)) with ((E1 * E1) * (E2 * E2)) by ring. rewrite S1, S2.
      unfold dot. destruct p1 as [a0 a1 a2], p2 as [b0 b1 b2]. cbn [c0 c1 c2].
      pose proof (sq_pos (a0 * b1 - a1 * b0)). pose proof (sq_pos (a0 * b2 - a2 * b0)). pose proof (sq_pos (a1 * b2 - a2 * b1)).
      pose proof (sq_pos (m1 * b0 - m2 * a0)). pose proof (sq_pos (m1 * b1 - m2 * a1)). pose proof (sq_pos (m1 * b2 - m2 * a2)). nra. }
    apply abs_le_of_sq in H; [lra|nra].
  Qed.

  Let ss := m1 * m1 + m2 * m2 + 2 * (E1 * E2 - dot p1 p2).
  Let P := v3 (c0 p1 + c0 p2) (c1 p1 + c1 p2) (c2 p1 + c2 p2).

  Lemma ss_eq : ss = (E1 + E2) * (E1 + E2) - dot P P.
  Proof.
    destruct e1sq as [S1 _], e2sq as [S2 _]. unfold ss. replace ((E1 + E2) * (E1 + E2)) with (E1 * E1 + E2 * E2 + 2 * (E1 * E2)) by ring. rewrite S1, S2.
    unfold P, dot. cbn [c0 c1 c2]. ring.
  Qed.

  Lemma ss_ge : (m1 + m2) * (m1 + m2) <= ss.
  Proof. pose proof h1_ge. unfold ss. nra. Qed.

  Lemma ss_pos : 0 < ss.
  Proof. pose proof ss_ge. nra. Qed.

  Let h3 := ((ss - m1 * m1 - m2 * m2) * (ss - m1 * m1 - m2 * m2) - 4 * m1 * m1 * m2 * m2) / (4 * ss).

  Lemma h3_nonneg : 0 <= h3.
  Proof.
    pose proof ss_pos. pose proof h1_ge. unfold h3. apply Rmult_le_pos; [|apply Rlt_le, Rinv_0_lt_compat; lra].
    replace (ss - m1 * m1 - m2 * m2) with (2 * (E1 * E2 - dot p1 p2)) by (unfold ss; ring).
    assert (0 < m1 * m2) by nra. nra.
  Qed.

  Let rs := sqrt ss.
  Lemma rs_sq : rs * rs = ss /\ 0 < rs.
  Proof. pose proof ss_pos. split; [apply sqrt_sqrt; lra|apply sqrt_lt_R0; exact H]. Qed.

  (** energies in the center of mass frame *)
  Let e1c := (ss + m1 * m1 - m2 * m2) / (2 * rs).
  Let e2c := (ss + m2 * m2 - m1 * m1) / (2 * rs).

  Lemma e1c_ok : 0 < e1c /\ e1c * e1c = m1 * m1 + h3.
  Proof.
    destruct rs_sq as [R2 RP]. pose proof ss_ge. pose proof ss_pos. split.
    - apply Rdiv_lt_0_compat; [nra|lra].
    - unfold e1c, h3. replace ((ss + m1 * m1 - m2 * m2) / (2 * rs) * ((ss + m1 * m1 - m2 * m2) / (2 * rs))) with ((ss + m1 * m1 - m2 * m2) * (ss + m1 * m1 - m2 * m2) / (4 * (rs * rs))) by (field; lra).
      rewrite R2. field. lra.
  Qed.
  Lemma e2c_ok : 0 < e2c /\ e2c * e2c = m2 * m2 + h3.
  Proof.
    destruct rs_sq as [R2 RP]. pose proof ss_ge. pose proof ss_pos. split.
    - apply Rdiv_lt_0_compat; [nra|lra].
    - unfold e2c, h3. replace ((ss + m2 * m2 - m1 * m1) / (2 * rs) * ((ss + m2 * m2 - m1 * m1) / (2 * rs))) with ((ss + m2 * m2 - m1 * m1) * (ss + m2 * m2 - m1 * m1) / (4 * (rs * rs))) by (field; lra).
      rewrite R2. field. lra.
  Qed.
  Lemma ec_sum : e1c + e2c = rs.
  Proof. destruct rs_sq as [R2 RP]. unfold e1c, e2c. rewrite <- R2. field. lra. Qed.

  Let E := E1 + E2.
  Let V := v3 (c0 P / E) (c1 P / E) (c2 P / E).
  Let bet := sqrt (dot V V).
  Let gam := 1 / sqrt (1 - bet * bet).

  Lemma E_pos : 0 < E.
  Proof. destruct e1sq, e2sq. unfold E. lra. Qed.

  Lemma bet_sq : bet * bet = dot P P / (E * E).
  Proof.
    pose proof E_pos. unfold bet. rewrite sqrt_sqrt by apply dot_pos. unfold V, dot. cbn [c0 c1 c2]. field. lra.
  Qed.

  Lemma one_minus : 1 - bet * bet = ss / (E * E).
  Proof. pose proof E_pos. rewrite bet_sq, ss_eq. fold E. field. lra. Qed.

  Lemma gam_eq : sqrt (1 - bet * bet) = rs / E /\ gam = E / rs.
  Proof.
    pose proof E_pos. destruct rs_sq as [R2 RP]. assert (S : sqrt (1 - bet * bet) = rs / E).
    { apply sqrt_of; [apply Rlt_le, Rdiv_lt_0_compat; assumption|]. rewrite one_minus, <- R2. field. lra. }
    split; [exact S|]. unfold gam. rewrite S. field. lra.
  Qed.

  Lemma gam_bet : gam * gam * (1 - bet * bet) = 1.
  Proof. pose proof E_pos. destruct rs_sq as [R2 RP]. rewrite one_minus. destruct gam_eq as [_ ->]. rewrite <- R2. field. lra. Qed.

  Section Dir.
    Variable n : V3 R.
    Hypothesis Hn : (dot n n = 1 \/ (bet = 0 /\ gam = 1)).
    Hypothesis HV : V = scal bet n.

    Lemma Vdot p : bet * dot p n = dot p V.
    Proof. rewrite HV. unfold scal, dot. cbn [c0 c1 c2]. ring. Qed.

    Lemma cm_norm p e : dot (to_cm gam (dot p n) e n V p) (to_cm gam (dot p n) e n V p) = dot p p - e * e + (gam * (e - dot p V)) * (gam * (e - dot p V)).
    Proof.
      rewrite to_cm_lab. replace (scal (-1) V) with (scal (- bet) n) by (rewrite HV; unfold scal; cbn [c0 c1 c2]; f_equal; ring).
      pose proof (boost gam (- bet) n p e) as B. cbv zeta in B. rewrite B.
      - rewrite <- Vdot. ring.
      - destruct Hn as [H|[H1 H2]]; [now left|right; split; [lra|exact H2]].
      - pose proof gam_bet. lra.
    Qed.

    Lemma pc1_norm : dot (to_cm gam (dot p1 n) E1 n V p1) (to_cm gam (dot p1 n) E1 n V p1) = h3.
    Proof.
      rewrite cm_norm. destruct e1sq as [S1 P1]. destruct e1c_ok as [_ Q]. pose proof E_pos. destruct rs_sq as [R2 RP].
      assert (G : gam * (E1 - dot p1 V) = e1c).
      { destruct gam_eq as [_ ->]. unfold V, dot. cbn [c0 c1 c2].
        replace (E / rs * (E1 - (c0 p1 * (c0 P / E) + c1 p1 * (c1 P / E) + c2 p1 * (c2 P / E)))) with ((E1 * E - dot p1 P) / rs) by (unfold dot; field; lra).
        unfold e1c. replace (E1 * E - dot p1 P) with ((ss + m1 * m1 - m2 * m2) / 2); [field; lra|].
        unfold ss, E. replace (E1 * (E1 + E2)) with (E1 * E1 + E1 * E2) by ring. rewrite S1. unfold P, dot. cbn [c0 c1 c2]. field. }
      rewrite G, Q, S1. ring.
    Qed.
    Lemma pc2_norm : dot (to_cm gam (dot p2 n) E2 n V p2) (to_cm gam (dot p2 n) E2 n V p2) = h3.
    Proof.
      rewrite cm_norm. destruct e2sq as [S2 P2]. destruct e2c_ok as [_ Q]. pose proof E_pos. destruct rs_sq as [R2 RP].
      assert (G : gam * (E2 - dot p2 V) = e2c).
      { destruct gam_eq as [_ ->]. unfold V, dot. cbn [c0 c1 c2].
        replace (E / rs * (E2 - (c0 p2 * (c0 P / E) + c1 p2 * (c1 P / E) + c2 p2 * (c2 P / E)))) with ((E2 * E - dot p2 P) / rs) by (unfold dot; field; lra).
        unfold e2c. replace (E2 * E - dot p2 P) with ((ss + m2 * m2 - m1 * m1) / 2); [field; lra|].
        unfold ss, E. replace (E2 * (E1 + E2)) with (E2 * E2 + E1 * E2) by ring. rewrite S2. unfold P, dot. cbn [c0 c1 c2]. field. }
      rewrite G, Q, S2. ring.
    Qed.

    (** energy of a momentum transformed back *)
    Lemma lab_energy p m e : 0 < m -> 0 < e -> e * e = m * m + dot p p ->
      let p' := to_lab gam (dot p n) e n V p in sqrt (m * m + dot p' p') = gam * (e + dot p V).
    Proof.
      intros Hm He Q p'. unfold p'. rewrite HV. pose proof (boost gam bet n p e Hn gam_bet) as B. cbv zeta in B. rewrite B, Vdot.
      rewrite <- HV. pose proof E_pos. destruct rs_sq as [R2 RP]. apply sqrt_of; [|lra].
      assert (G : 0 < gam) by (destruct gam_eq as [_ ->]; apply Rdiv_lt_0_compat; assumption).
      assert (0 <= e + dot p V); [|nra].
      assert (C := cauchy p V). assert (VV : dot V V <= 1).
      { replace (dot V V) with (bet * bet) by (unfold bet; apply sqrt_sqrt, dot_pos). pose proof one_minus. pose proof ss_pos.
        assert (0 < ss / (E * E)) by (apply Rdiv_lt_0_compat; nra). lra. }
      assert (K : dot p V * dot p V <= e * e). { pose proof (dot_pos p). pose proof (dot_pos V). assert (dot p p * dot V V <= dot p p * 1) by (apply Rmult_le_compat_l; lra). nra. }
      apply abs_le_of_sq in K; lra.
    Qed.
  End Dir.

  Lemma n_ok : exists n, (if Rlt_dec 0 bet then vdiv V bet else Some (v3 0 0 0)) = Some n /\ (dot n n = 1 \/ (bet = 0 /\ gam = 1)) /\ V = scal bet n.
  Proof.
    destruct (Rlt_dec 0 bet) as [L|L].
    - rewrite vdiv_some by lra. eexists. split; [reflexivity|]. split.
      + left. apply unit_of; [exact L|]. unfold bet. apply sqrt_sqrt, dot_pos.
      + apply scal_of. exact L.
    - assert (B0 : bet = 0) by (pose proof (sqrt_pos (dot V V)) as H; fold bet in H; lra).
      assert (VV : dot V V = 0). { pose proof (sqrt_sqrt (dot V V) (dot_pos V)) as H. fold bet in H. rewrite B0 in H. lra. }
      eexists. split; [reflexivity|]. split.
      + right. split; [exact B0|]. unfold gam. rewrite B0. replace (1 - 0 * 0) with 1 by ring. rewrite sqrt_1. field.
      + unfold dot in VV. pose proof (sq_pos (c0 V)). pose proof (sq_pos (c1 V)). pose proof (sq_pos (c2 V)).
        apply v3_ext. intros []; unfold scal; cbn [get3 c0 c1 c2]; rewrite B0; [assert (c0 V = 0) by nra|assert (c1 V = 0) by nra|assert (c2 V = 0) by nra]; lra.
  Qed.

  Lemma collide_ok : exists u1' u2' nudt, collide m1 m2 q1 q2 u1 u2 nudt1 ran1 ran2 = Some (u1', u2', nudt) /\ 0 < nudt /\
    (forall d, mom m1 u1' d + mom m2 u2' d = mom m1 u1 d + mom m2 u2 d) /\
    energy m1 u1' + energy m2 u2' = energy m1 u1 + energy m2 u2.
  Proof.
    pose proof ss_pos as SS. pose proof h3_nonneg as H3. destruct e1sq as [S1 P1], e2sq as [S2 P2]. pose proof E_pos as EP. destruct rs_sq as [R2 RP].
    destruct n_ok as [n [En [Hn HV]]]. destruct e1c_ok as [C1 D1], e2c_ok as [C2 D2].
    unfold collide. destruct (Req_EM_T (q1 * q2) 0) as [QZ|_]; [contradiction|]. fold p1 p2.
    replace (m1 * m1 + c0 p1 * c0 p1 + c1 p1 * c1 p1 + c2 p1 * c2 p1) with (m1 * m1 + dot p1 p1) by (unfold dot; ring).
    replace (m2 * m2 + c0 p2 * c0 p2 + c1 p2 * c1 p2 + c2 p2 * c2 p2) with (m2 * m2 + dot p2 p2) by (unfold dot; ring).
    rewrite rsqrt_some by nra. cbn [bind]. fold E1. rewrite rsqrt_some by nra. cbn [bind]. fold E2.
    replace (E1 * E2 - c0 p1 * c0 p2 - c1 p1 * c1 p2 - c2 p1 * c2 p2) with (E1 * E2 - dot p1 p2) by (unfold dot; ring). fold ss. cbv zeta.
    rewrite rdiv_some by lra. cbn [bind]. fold h3. destruct (Rlt_dec h3 0) as [HL|_]; [lra|]. rewrite (rsqrt_some h3 H3). cbn [bind].
    fold P. fold E. rewrite (vdiv_some P E) by lra. cbn [bind]. fold V. rewrite (rsqrt_some (dot V V)) by apply dot_pos. cbn [bind]. fold bet. rewrite En. cbn [bind].
    assert (OM : 0 < 1 - bet * bet) by (rewrite one_minus; apply Rdiv_lt_0_compat; nra).
    rewrite rsqrt_some by lra. cbn [bind]. rewrite rdiv_some by (apply Rgt_not_eq, sqrt_lt_R0; exact OM). cbn [bind]. fold gam.
    set (k := sqrt h3). assert (K : k * k = h3) by (apply sqrt_sqrt; exact H3).
    rewrite !K. rewrite <- D1, <- D2. rewrite !rsqrt_some by nra. cbn [bind]. rewrite !sqrt_square by lra.
    destruct (axes_ok (to_cm gam (dot p1 n) E1 n V p1)) as [n1 [n2 [n3 [EA ON]]]]. rewrite EA. cbn [bind].
    destruct (relative_ok (to_cm gam (dot p1 n) E1 n V p1) (to_cm gam (dot p2 n) E2 n V p2) e1c e2c C1 C2) as [vcr [ER VR]].
    { rewrite (pc1_norm n Hn HV). nra. } { rewrite (pc2_norm n Hn HV). nra. }
    rewrite ER. cbn [bind]. rewrite rdiv_some by lra. cbn [bind].
    set (m12 := m1 * m2 / (m1 + m2)). assert (M12 : 0 < m12) by (unfold m12; apply Rdiv_lt_0_compat; nra). clearbody m12.
    assert (DEN : 0 < m12 * m12 * vcr * vcr * vcr) by (repeat apply Rmult_lt_0_compat; assumption).
    rewrite rdiv_some by lra. cbn [bind]. set (nudt := nudt1 * (q1 * q2) * (q1 * q2) / (m12 * m12 * vcr * vcr * vcr)).
    assert (ND : 0 < nudt). { unfold nudt. apply Rdiv_lt_0_compat; [|exact DEN]. assert (0 < (q1 * q2) * (q1 * q2)) by nra. rewrite Rmult_assoc. apply Rmult_lt_0_compat; assumption. }
    destruct (angle_ok nudt ran2 ND Hran2) as [psi EPs]. rewrite EPs. cbn [bind].
    match goal with |- context [to_lab gam (dot ?x n) e1c n V ?x] => set (pc3 := x) end.
    assert (N3 : dot pc3 pc3 = h3).
    { unfold pc3. generalize (2 * PI * ran1). intros nu. destruct ON as [O1 [O2 [O3 [O4 [O5 O6]]]]].
      transitivity (k * k * (cos psi * cos psi * dot n1 n1 + sin psi * sin psi * (sin nu * sin nu * dot n2 n2 + cos nu * cos nu * dot n3 n3)
        + 2 * (cos psi * sin psi * sin nu) * dot n1 n2 + 2 * (cos psi * sin psi * cos nu) * dot n1 n3 + 2 * (sin psi * sin psi * sin nu * cos nu) * dot n2 n3)).
      { unfold dot. cbn [c0 c1 c2]. ring. }
      rewrite O1, O2, O3, O4, O5, O6, K. pose proof (sin2_cos2 psi) as T1. pose proof (sin2_cos2 nu) as T2. unfold Rsqr in T1, T2.
      transitivity (h3 * (cos psi * cos psi + sin psi * sin psi * (sin nu * sin nu + cos nu * cos nu))); [ring|]. rewrite T2. transitivity (h3 * (sin psi * sin psi + cos psi * cos psi)); [ring|]. rewrite T1. ring. }
    rewrite !vdiv_some by lra. cbn [bind]. eexists _, _, nudt. split; [reflexivity|]. split; [exact ND|].
    set (pc4 := v3 (- c0 pc3) (- c1 pc3) (- c2 pc3)).
    assert (N4 : dot pc4 pc4 = h3) by (rewrite <- N3; unfold pc4, dot; cbn [c0 c1 c2]; ring).
    split.
    - assert (GE : gam * rs = E) by (destruct gam_eq as [_ ->]; field; lra).
      assert (X : forall d, get3 (to_lab gam (dot pc3 n) e1c n V pc3) d + get3 (to_lab gam (dot pc4 n) e2c n V pc4) d = get3 P d).
      { intros d. assert (D4 : dot pc4 n = - dot pc3 n) by (unfold pc4, dot; cbn [c0 c1 c2]; ring). rewrite D4.
        transitivity (gam * (e1c + e2c) * get3 V d); [destruct d; unfold to_lab, pc4; cbn [get3 c0 c1 c2]; ring|].
        rewrite ec_sum, GE. destruct d; unfold V; cbn [get3 c0 c1 c2]; field; lra. }
      intros d. specialize (X d). destruct d; unfold mom, P, p1, p2, scal in *; cbn [get3 c0 c1 c2] in *; rewrite <- X; field; lra.
    - assert (EN : forall m p, 0 < m -> energy m (v3 (c0 p / m) (c1 p / m) (c2 p / m)) = sqrt (m * m + dot p p)).
      { intros m p Hm. unfold energy, mom. cbn [get3 c0 c1 c2]. f_equal. unfold dot. field. lra. }
      rewrite !EN by assumption.
      assert (L3 : e1c * e1c = m1 * m1 + dot pc3 pc3) by (rewrite N3; exact D1).
      assert (L4 : e2c * e2c = m2 * m2 + dot pc4 pc4) by (rewrite N4; exact D2).
      pose proof (lab_energy n Hn HV pc3 m1 e1c Hm1 C1 L3) as LE3. pose proof (lab_energy n Hn HV pc4 m2 e2c Hm2 C2 L4) as LE4. cbv zeta in LE3, LE4. rewrite LE3, LE4.
      assert (EI : energy m1 u1 = E1) by (unfold energy, E1, p1, mom, scal, dot; cbn [get3 c0 c1 c2]; f_equal; ring).
      assert (EJ : energy m2 u2 = E2) by (unfold energy, E2, p2, mom, scal, dot; cbn [get3 c0 c1 c2]; f_equal; ring).
      rewrite EI, EJ. replace (dot pc4 V) with (- dot pc3 V) by (unfold pc4, dot; cbn [c0 c1 c2]; ring).
      transitivity (gam * (e1c + e2c)); [ring|]. rewrite ec_sum. destruct gam_eq as [_ GG]. rewrite GG. unfold E. field. lra.
  Qed.

End Collide.
