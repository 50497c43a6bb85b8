From Coq Require Import Reals Lra Psatz.
From Flocq Require Import Core.
From Coquelicot Require Import Coquelicot.
From Verif Require Import Base RSum FieldModel FieldSpec DepositModel DepositSpec DepositProofs CurrentModel CurrentProofs CurrentVar1Proofs AvgSpec.
Local Open Scope R_scope.

Ltac eqR := match goal with |- ?a = ?b => change (@eq R a b) end.

(** ** The predicate in the form used here *)

Definition avg (inv : V3 bool) (h : V3 R) (Q : R) (l : list entry) (x v : V3 R) (d : dim3) : Prop :=
  forall n, is_RInt (fun t => Q * get3 h d * get3 v d * weight inv d n (path x v t)) 0 1 (jcur l d n).

Lemma avg_averages g q inv l x v d : avg inv (cg_dx g) (qdt g q) l x v d -> averages g q inv x v l d.
Proof.
  intros H n. exists (jcur l d n). split; [|intros J; apply cadd_all_get].
  apply (is_RInt_ext (fun t => qdt g q * get3 (cg_dx g) d * get3 v d * weight inv d n (path x v t))); [|apply H].
  intros t _. unfold current_at, qdt, Rdiv. eqR. ring.
Qed.

Lemma weight_ext inv d n x y : (forall e, get3 inv e = false -> get3 x e = get3 y e) -> weight inv d n x = weight inv d n y.
Proof.
  intros H. unfold weight. cbv zeta. f_equal; [f_equal|]; (destruct (get3 inv _) eqn:E; [reflexivity|]); rewrite (H _ E); reflexivity.
Qed.

Lemma path_get x v t e : get3 (path x v t) e = get3 x e + t * get3 v e.
Proof. unfold path. rewrite get3_gen3. reflexivity. Qed.

Lemma avg_ext inv h Q l l' x x' v v' d : (forall n, jcur l' d n = jcur l d n) -> (forall e, get3 inv e = false -> get3 x e = get3 x' e) ->
  (forall e, get3 v e = get3 v' e) -> avg inv h Q l x v d -> avg inv h Q l' x' v' d.
Proof.
  intros Hl Hx Hv H n. rewrite Hl. apply (is_RInt_ext (fun t => Q * get3 h d * get3 v d * weight inv d n (path x v t))); [|apply H].
  intros t _. rewrite <- Hv. f_equal. apply weight_ext. intros e He. rewrite !path_get, Hv, (Hx e He). reflexivity.
Qed.

Lemma zero_mid K L : K * 0 * L = 0.
Proof. ring. Qed.
Lemma one_less x : (1 - 1) * x = 0.
Proof. ring. Qed.

Lemma int_zero (g : R -> R) (L : R) : (forall t, g t = 0) -> is_RInt g 0 1 L -> L = 0.
Proof.
  intros Hg HL. pose proof (@is_RInt_const R_NormedModule 0 1 0) as Y.
  apply (@is_RInt_ext R_NormedModule _ g) in Y; [|intros; symmetry; apply Hg].
  pose proof (is_RInt_unique _ _ _ _ HL) as U. rewrite (is_RInt_unique _ _ _ _ Y) in U. rewrite <- U. unfold scal. cbn. unfold mult. cbn. ring.
Qed.

(** two parts of the way *)
Lemma avg_app inv h Q l1 l2 x v s x' d : 0 <= s <= 1 -> (forall e, get3 inv e = false -> get3 x' e = get3 x e + s * get3 v e) ->
  avg inv h Q l1 x (gen3 (fun e => s * get3 v e)) d -> avg inv h Q l2 x' (gen3 (fun e => (1 - s) * get3 v e)) d -> avg inv h Q (l1 ++ l2) x v d.
Proof.
  intros Hs Hx H1 H2 n. specialize (H1 n). specialize (H2 n). rewrite jcur_app.
  set (f := fun t => Q * get3 h d * get3 v d * weight inv d n (path x v t)).
  change (is_RInt f 0 1 (plus (jcur l1 d n) (jcur l2 d n))). apply (is_RInt_Chasles f 0 s 1).
  - destruct (Req_dec s 0) as [E|E].
    + subst s. rewrite (int_zero _ _ (fun t => eq_trans (f_equal (fun z => Q * get3 h d * z * weight inv d n (path x (gen3 (fun e => 0 * get3 v e)) t)) (eq_trans (get3_gen3 _ _) (Rmult_0_l _))) (zero_mid _ _)) H1). apply (is_RInt_point f 0).
    + pose proof (is_RInt_comp_lin (fun t => Q * get3 h d * get3 (gen3 (fun e => s * get3 v e)) d * weight inv d n (path x (gen3 (fun e => s * get3 v e)) t)) (/ s) 0 0 s (jcur l1 d n)) as C.
      replace (/ s * 0 + 0) with 0 in C by ring. replace (/ s * s + 0) with 1 in C by (field; exact E). specialize (C H1).
      refine (is_RInt_ext _ _ _ _ _ (fun t _ => _) C). unfold scal; cbn; unfold mult; cbn. unfold f. rewrite get3_gen3.
      rewrite (weight_ext inv d n (path x (gen3 (fun e => s * get3 v e)) (/ s * t + 0)) (path x v t)).
      * field. exact E.
      * intros e _. rewrite !path_get, get3_gen3. field. exact E.
  - destruct (Req_dec s 1) as [E|E].
    + subst s. rewrite (int_zero _ _ (fun t => eq_trans (f_equal (fun z => Q * get3 h d * z * weight inv d n (path x' (gen3 (fun e => (1 - 1) * get3 v e)) t)) (eq_trans (get3_gen3 _ _) (one_less _))) (zero_mid _ _)) H2). apply (is_RInt_point f 1).
    + pose proof (is_RInt_comp_lin (fun t => Q * get3 h d * get3 (gen3 (fun e => (1 - s) * get3 v e)) d * weight inv d n (path x' (gen3 (fun e => (1 - s) * get3 v e)) t)) (/ (1 - s)) (- s / (1 - s)) s 1 (jcur l2 d n)) as C.
      replace (/ (1 - s) * s + - s / (1 - s)) with 0 in C by (field; lra). replace (/ (1 - s) * 1 + - s / (1 - s)) with 1 in C by (field; lra). specialize (C H2).
      refine (is_RInt_ext _ _ _ _ _ (fun t _ => _) C). unfold scal; cbn; unfold mult; cbn. unfold f. rewrite get3_gen3.
      rewrite (weight_ext inv d n (path x' (gen3 (fun e => (1 - s) * get3 v e)) (/ (1 - s) * t + - s / (1 - s))) (path x v t)).
      * field. lra.
      * intros e He. rewrite !path_get, get3_gen3, (Hx e He). field. lra.
Qed.

(** ** One cell *)

Lemma poly_int A B C D : is_RInt (fun t => (A + t * B) * (C + t * D)) 0 1 (A * C + (A * D + C * B) / 2 + B * D / 3).
Proof.
  replace (A * C + (A * D + C * B) / 2 + B * D / 3) with
    (minus ((fun t => A * C * t + (A * D + C * B) / 2 * t ^ 2 + B * D / 3 * t ^ 3) 1) ((fun t => A * C * t + (A * D + C * B) / 2 * t ^ 2 + B * D / 3 * t ^ 3) 0)).
  - apply (is_RInt_derive (fun t => A * C * t + (A * D + C * B) / 2 * t ^ 2 + B * D / 3 * t ^ 3)).
    + intros t _. auto_derive; [exact Logic.I|]. field.
    + intros t _. apply (ex_derive_continuous (fun t => (A + t * B) * (C + t * D))). auto_derive. exact Logic.I.
  - unfold minus, plus, opp. cbn. field.
Qed.

Lemma inside_delta k n a v t : 0 < t < 1 -> v <> 0 -> IZR k <= a <= IZR k + 1 -> IZR k <= a + v <= IZR k + 1 -> inside n (a + t * v) = delta k n.
Proof.
  intros Ht Hv Ha Hb. assert (P : IZR k < a + t * v < IZR k + 1).
  { destruct (Rlt_dec 0 v).
    - assert (0 < t * v) by (apply Rmult_lt_0_compat; lra). assert (0 < (1 - t) * v) by (apply Rmult_lt_0_compat; lra). lra.
    - assert (0 < t * - v) by (apply Rmult_lt_0_compat; lra). assert (0 < (1 - t) * - v) by (apply Rmult_lt_0_compat; lra). lra. }
  unfold inside, delta. destruct (Rle_dec (IZR n) (a + t * v)) as [A|A]; [destruct (Rlt_dec (a + t * v) (IZR n + 1)) as [B|B]|]; destruct (Z.eqb_spec k n) as [E|E]; try reflexivity; exfalso.
  - assert (IZR n < IZR (k + 1)) by (rewrite plus_IZR; lra). assert (IZR k < IZR (n + 1)) by (rewrite plus_IZR; lra). apply lt_IZR in H, H0. lia.
  - subst n. lra.
  - subst n. lra.
Qed.

Lemma cell_mid k a v t : 0 <= t <= 1 -> IZR k <= a <= IZR k + 1 -> IZR k <= a + v <= IZR k + 1 -> IZR k <= a + t * v <= IZR k + 1.
Proof.
  intros Ht Ha Hb. assert (0 <= t * (a + v - IZR k)) by (apply Rmult_le_pos; lra). assert (0 <= t * (IZR k + 1 - (a + v))) by (apply Rmult_le_pos; lra).
  assert (0 <= (1 - t) * (a - IZR k)) by (apply Rmult_le_pos; lra). assert (0 <= (1 - t) * (IZR k + 1 - a)) by (apply Rmult_le_pos; lra). lra.
Qed.

(** the hat function along a path in the closed cell k *)
Definition lA (k n : Z) (a : R) : R := (1 - (a - IZR k)) * delta k n + (a - IZR k) * delta (k + 1) n.
Definition lB (k n : Z) (v : R) : R := v * (delta (k + 1) n - delta k n).

Lemma hat_lin k n a v t : 0 < t < 1 -> IZR k <= a <= IZR k + 1 -> IZR k <= a + v <= IZR k + 1 -> hat (a + t * v - IZR n) = lA k n a + t * lB k n v.
Proof. intros Ht Ha Hb. rewrite (hat_cell _ k n) by (apply cell_mid; lra). unfold lA, lB. ring. Qed.

Lemma is_RInt_poly K A B C D f J : (forall t, 0 < t < 1 -> f t = K * ((A + t * B) * (C + t * D))) -> J = K * (A * C + (A * D + C * B) / 2 + B * D / 3) -> is_RInt f 0 1 J.
Proof.
  intros Hf ->. apply (is_RInt_ext (fun t => scal K ((A + t * B) * (C + t * D)))).
  - intros t. rewrite Rmin_left, Rmax_right by lra. intros Ht. symmetry. apply Hf. exact Ht.
  - apply (is_RInt_scal (fun t => (A + t * B) * (C + t * D))). apply poly_int.
Qed.

Lemma delta0 z : (if (z =? 0)%Z then 1 else 0) = delta 0 z.
Proof. unfold delta. destruct (Z.eqb_spec z 0), (Z.eqb_spec 0 z); try lia; reflexivity. Qed.

Ltac dep_value := unfold jcur, dep1vb, gen3, add, z3; cbn [get3 c0 c1 c2 map fst snd dim3_eqb]; unfold rsum; cbn [fold_right];
  unfold delta3, lA, lB; cbn [c0 c1 c2]; unfold Rdiv; try field.
Ltac dep_at kd :=
  let t := fresh "t" in let T := fresh "T" in let E := fresh "E" in
  intros t T; unfold weight, path, gen3; cbn [get3 c0 c1 c2 dim3_eqb]; rewrite ?delta0;
  match goal with |- _ * ?v * _ = _ => destruct (Req_dec v 0) as [E|E]; [rewrite E; ring|] end;
  rewrite (inside_delta kd) by tauto.

Lemma dep1vb_avg d F h k q a v s :
  (forall e, if get3 (invar_of (vb_dim_t d)) e then get3 k e = 0%Z else in_cell (get3 k e) (get3 a e) (get3 a e + get3 v e)) ->
  avg (invar_of (vb_dim_t d)) h (q * F)
    (dep1vb d (gen3 (fun e => F * get3 h e)) k q v (gen3 (fun e => get3 a e + / 2 * get3 v e - IZR (get3 k e)))) a v s.
Proof.
  intros Hk n. pose proof (Hk D0) as k0. pose proof (Hk D1) as k1. pose proof (Hk D2) as k2. clear Hk.
  destruct h as [hx hy hz], k as [kx ky kz], a as [ax ay az], v as [vx vy vz], n as [nx ny nz].
  unfold in_cell in *.
  destruct d; cbn [vb_dim_t invar_of get3 c0 c1 c2] in *; [| subst ky | subst kx]; destruct s.
  - apply (is_RInt_poly (q * F * hx * vx * delta kx nx) (lA ky ny ay) (lB ky ny vy) (lA kz nz az) (lB kz nz vz)); [|dep_value].
    dep_at kx. rewrite (hat_lin ky), (hat_lin kz) by tauto. ring.
  - apply (is_RInt_poly (q * F * hy * vy * delta ky ny) (lA kx nx ax) (lB kx nx vx) (lA kz nz az) (lB kz nz vz)); [|dep_value].
    dep_at ky. rewrite (hat_lin kx), (hat_lin kz) by tauto. ring.
  - apply (is_RInt_poly (q * F * hz * vz * delta kz nz) (lA kx nx ax) (lB kx nx vx) (lA ky ny ay) (lB ky ny vy)); [|dep_value].
    dep_at kz. rewrite (hat_lin kx), (hat_lin ky) by tauto. ring.
  - apply (is_RInt_poly (q * F * hx * vx * delta kx nx * delta 0 ny) 1 0 (lA kz nz az) (lB kz nz vz)); [|dep_value].
    dep_at kx. rewrite (hat_lin kz) by tauto. ring.
  - apply (is_RInt_poly (q * F * hy * vy * delta 0 ny) (lA kx nx ax) (lB kx nx vx) (lA kz nz az) (lB kz nz vz)); [|dep_value].
    intros t T. unfold weight, path, gen3; cbn [get3 c0 c1 c2 dim3_eqb]; rewrite ?delta0. rewrite (hat_lin kx), (hat_lin kz) by tauto. ring.
  - apply (is_RInt_poly (q * F * hz * vz * delta kz nz * delta 0 ny) 1 0 (lA kx nx ax) (lB kx nx vx)); [|dep_value].
    dep_at kz. rewrite (hat_lin kx) by tauto. ring.
  - apply (is_RInt_poly (q * F * hx * vx * delta 0 nx) (lA ky ny ay) (lB ky ny vy) (lA kz nz az) (lB kz nz vz)); [|dep_value].
    intros t T. unfold weight, path, gen3; cbn [get3 c0 c1 c2 dim3_eqb]; rewrite ?delta0. rewrite (hat_lin ky), (hat_lin kz) by tauto. ring.
  - apply (is_RInt_poly (q * F * hy * vy * delta ky ny * delta 0 nx) 1 0 (lA kz nz az) (lB kz nz vz)); [|dep_value].
    dep_at ky. rewrite (hat_lin kz) by tauto. ring.
  - apply (is_RInt_poly (q * F * hz * vz * delta kz nz * delta 0 nx) 1 0 (lA ky ny ay) (lB ky ny vy)); [|dep_value].
    dep_at kz. rewrite (hat_lin ky) by tauto. ring.
Qed.

(** ** The split scheme *)

Section SplitAvg.
  Variables (g : cgrid) (d : vb_dim) (q : R) (A B : V3 R).
  Let inv := invar_of (vb_dim_t d).
  Hypothesis Hinv : forall e, get3 inv e = true -> 0 <= get3 A e < 1 /\ 0 <= get3 B e < 1.

  Definition good_avg (done : dim3 -> bool) (f : V3 R -> V3 R -> list entry) : Prop :=
    forall xm xp, seg d A B done xm xp -> forall s, avg inv (cg_dx g) (qdt g q) (f xm xp) xm (gen3 (fun e => get3 xp e - get3 xm e)) s.

  Lemma one_cell_avg : good_avg (fun _ => true) (one_cell g d q).
  Proof.
    intros xm xp H s. pose proof (fun e => cell_index d A B Hinv xm xp e H) as C. unfold one_cell.
    set (v := gen3 (fun e => get3 xp e - get3 xm e)).
    rewrite (v3_ext (gen3 (fun e => get3 (gen3 (fun e0 => 1 / 2 * (get3 xp e0 + get3 xm e0))) e - IZR (get3 (gen3 (fun e0 => fint (get3 (gen3 (fun e1 => 1 / 2 * (get3 xp e1 + get3 xm e1))) e0))) e)))
       (gen3 (fun e => get3 xm e + / 2 * get3 v e - IZR (get3 (gen3 (fun e0 => fint (get3 (gen3 (fun e1 => 1 / 2 * (get3 xp e1 + get3 xm e1))) e0))) e)))).
    - change (vb_fnqs g) with (gen3 (fun e => cg_fnqs g / cg_dt g * get3 (cg_dx g) e)). apply dep1vb_avg. intros e. specialize (C e). fold inv.
      unfold v. rewrite !get3_gen3. fold inv in C. destruct (get3 inv e); [exact C|]. replace (get3 xm e + (get3 xp e - get3 xm e)) with (get3 xp e) by ring. exact C.
    - intros e. unfold v. rewrite !get3_gen3. field.
  Qed.

  Lemma split_avg done dim next : good_avg (fun e => done e || dim3_eqb e dim)%bool next -> done dim = false -> good_avg done (split_dim d dim next).
  Proof.
    intros Hn Hd xm xp H. unfold split_dim. fold inv. set (m := IZR (Z.max (fint (get3 xm dim)) (fint (get3 xp dim)))).
    destruct (get3 inv dim) eqn:Ei; cbn [orb].
    - apply Hn. intros e. destruct (H e) as (Hm & Hp & Hc). split; [exact Hm|]. split; [exact Hp|]. intros Ee.
      destruct (dim3_eqb e dim) eqn:E; [apply dim3_eqb_eq in E; subst e; fold inv in Ee; congruence|]. rewrite orb_false_r. apply Hc. exact Ee.
    - destruct (Z.eqb_spec (fint (get3 xp dim)) (fint (get3 xm dim))) as [E|E].
      + apply Hn. intros e. destruct (H e) as (Hm & Hp & Hc). split; [exact Hm|]. split; [exact Hp|]. intros Ee.
        destruct (dim3_eqb e dim) eqn:E'; [apply dim3_eqb_eq in E'; subst e; rewrite orb_true_r; apply near_same; lia|].
        rewrite orb_false_r. apply Hc. exact Ee.
      + destruct (H dim) as (Hmd & Hpd & Hcd). specialize (Hcd Ei). rewrite Hd in Hcd.
        destruct (near_split _ _ Hcd E) as (C1 & C2 & Bm & Nab). fold m in C1, C2, Bm.
        pose proof (frac_01 _ _ _ Bm Nab) as Fr. set (t := (m - get3 xm dim) / (get3 xp dim - get3 xm dim)) in *.
        assert (Tm : m = get3 xm dim + t * (get3 xp dim - get3 xm dim)) by (unfold t; field; lra).
        assert (X1 : forall e, get3 (split_x1 dim (fint (get3 xm dim)) (fint (get3 xp dim)) xm xp) e =
           if dim3_eqb e dim then m else get3 xm e + t * (get3 xp e - get3 xm e)) by (intros e; unfold split_x1; rewrite get3_gen3; reflexivity).
        set (x1 := split_x1 dim (fint (get3 xm dim)) (fint (get3 xp dim)) xm xp) in *. clearbody x1 t.
        assert (L1 : forall e, get3 x1 e = get3 xm e + t * (get3 xp e - get3 xm e)).
        { intros e. rewrite X1. destruct (dim3_eqb e dim) eqn:E'; [apply dim3_eqb_eq in E'; subst e; exact Tm|reflexivity]. }
        assert (Bx : forall e, btw (get3 xm e) (get3 x1 e) (get3 xp e)).
        { intros e. rewrite X1. destruct (dim3_eqb e dim) eqn:E'; [apply dim3_eqb_eq in E'; subst e; exact Bm|apply btw_frac; exact Fr]. }
        intros s. apply (avg_app _ _ _ _ _ _ _ t x1 _ Fr); [intros e _; rewrite get3_gen3; apply L1| |].
        * apply (avg_ext _ _ _ (next xm x1) _ xm _ (gen3 (fun e => get3 x1 e - get3 xm e))); [reflexivity|reflexivity|intros e; rewrite !get3_gen3, L1; ring|]. apply Hn.
          intros e. destruct (H e) as (Hm & Hp & Hc). split; [exact Hm|]. split; [exact (btw_trans _ _ _ _ _ Hm Hp (Bx e))|].
          intros Ee. specialize (Hc Ee). destruct (dim3_eqb e dim) eqn:E'.
          -- apply dim3_eqb_eq in E'. subst e. rewrite orb_true_r. rewrite X1, dim3_eqb_refl. exact C1.
          -- rewrite orb_false_r. destruct (done e).
             ++ apply (closed_sub _ _ _ _ Hc); [apply btw_refl_l|apply Bx].
             ++ apply (near_sub _ _ _ _ Hc); [apply btw_refl_l|apply Bx].
        * apply (avg_ext _ _ _ (next x1 xp) _ x1 _ (gen3 (fun e => get3 xp e - get3 x1 e))); [reflexivity|reflexivity|intros e; rewrite !get3_gen3, L1; ring|]. apply Hn.
          intros e. destruct (H e) as (Hm & Hp & Hc). split; [exact (btw_trans _ _ _ _ _ Hm Hp (Bx e))|]. split; [exact Hp|].
          intros Ee. specialize (Hc Ee). destruct (dim3_eqb e dim) eqn:E'.
          -- apply dim3_eqb_eq in E'. subst e. rewrite orb_true_r. rewrite X1, dim3_eqb_refl. exact C2.
          -- rewrite orb_false_r. destruct (done e).
             ++ apply (closed_sub _ _ _ _ Hc); [apply Bx|apply btw_refl_r].
             ++ apply (near_sub _ _ _ _ Hc); [apply Bx|apply btw_refl_r].
  Qed.

  Lemma good_avg_ext done done' f : (forall e, done e = done' e) -> good_avg done f -> good_avg done' f.
  Proof. intros E H xm xp S. apply H. intros e. rewrite E. apply S. Qed.

  Hypothesis Hnear : forall e, get3 inv e = false -> near (get3 A e) (get3 B e).

  Lemma split_z_avg s : avg inv (cg_dx g) (qdt g q) (split_dim_z g d q A B) A (gen3 (fun e => get3 B e - get3 A e)) s.
  Proof.
    assert (G : good_avg (fun _ => false) (split_dim_z g d q)).
    { unfold split_dim_z, split_dim_y, split_dim_x. apply split_avg; [|reflexivity]. apply split_avg; [|reflexivity]. apply split_avg; [|reflexivity].
      apply (good_avg_ext (fun _ => true)); [intros []; reflexivity|]. apply one_cell_avg. }
    apply G. intros e. split; [apply btw_refl_l|]. split; [apply btw_refl_r|]. exact (Hnear e).
  Qed.
End SplitAvg.

Lemma calc_j_split_avg g d q xm xp v s : let inv := invar_of (vb_dim_t d) in wf_cg g ->
  (forall e, get3 inv e = true -> Rabs (invar_step g v e) < / 2) -> crossing inv xm xp ->
  avg inv (cg_dx g) (qdt g q) (calc_j_split g d q xm xp v) xm (displacement g inv v xm xp) s.
Proof.
  intros inv Hg Hv Hc. unfold calc_j_split. fold inv. destruct (invar_pos g inv v xm xp) as [A B] eqn:E. unfold invar_pos in E.
  assert (HA : forall e, get3 A e = if get3 inv e then / 2 else get3 xm e) by (injection E as <- _; intros; rewrite get3_gen3; reflexivity).
  assert (HB : forall e, get3 B e = if get3 inv e then / 2 + invar_step g v e else get3 xp e).
  { injection E as _ <-. intros e. rewrite get3_gen3. destruct (get3 inv e); [|reflexivity]. unfold invar_step, Rdiv. ring. }
  clear E. apply (avg_ext _ _ _ (split_dim_z g d q A B) _ A _ (gen3 (fun e => get3 B e - get3 A e))); [reflexivity| | |].
  - intros e He. rewrite HA, He. reflexivity.
  - intros e. unfold displacement. rewrite !get3_gen3, HA, HB. destruct (get3 inv e); [unfold invar_step; ring|reflexivity].
  - apply split_z_avg.
    + intros e Ei. fold inv in Ei. rewrite HA, HB, Ei. specialize (Hv e Ei). apply Rabs_def2 in Hv. lra.
    + intros e Ei. fold inv in Ei. rewrite HA, HB, Ei. apply Hc. exact Ei.
Qed.

(** ** Current1vbVar1 *)

Lemma vb_cell_jcur g i x dx q d n : jcur (curr_3d_vb_cell g (v3 0%Z (c1 i) (c2 i)) x dx q) d n =
  jcur (dep1vb vb_yz (gen3 (fun e => cg_fnqs g / cg_dt g * get3 (cg_dx g) e)) (v3 0%Z (c1 i) (c2 i)) q dx
    (gen3 (fun e => get3 (gen3 (fun e => IZR (get3 (v3 0%Z (c1 i) (c2 i)) e) + / 2 + get3 x e)) e + / 2 * get3 dx e - IZR (get3 (v3 0%Z (c1 i) (c2 i)) e)))) d n.
Proof.
  destruct i as [i0 i1 i2], x as [x0 x1 x2], dx as [y0 y1 y2]. unfold jcur, curr_3d_vb_cell, dep1vb, var1_fnqs, gen3, add, z3. cbn [get3 c0 c1 c2 map fst snd].
  destruct d; cbn [dim3_eqb]; unfold rsum; cbn [fold_right]; unfold Rdiv; set (T := / cg_dt g); clearbody T; field.
Qed.

Lemma vb_cell_avg g i x dx q d : c0 i = 0%Z -> half (c1 x) -> half (c2 x) -> half (c1 x + c1 dx) -> half (c2 x + c2 dx) ->
  avg inv_yz (cg_dx g) (qdt g q) (curr_3d_vb_cell g i x dx q) (gen3 (fun e => IZR (get3 i e) + / 2 + get3 x e)) dx d.
Proof.
  intros Hi x1 x2 y1 y2. destruct i as [i0 i1 i2]. cbn [c0] in Hi. subst i0.
  refine (avg_ext _ _ _ _ _ _ _ _ _ d (fun n => vb_cell_jcur g (v3 0%Z i1 i2) x dx q d n) (fun e _ => eq_refl) (fun e => eq_refl) _).
  apply (dep1vb_avg vb_yz). intros e. unfold half in *. destruct e; cbn [vb_dim_t invar_of get3 c0 c1 c2]; [reflexivity| |]; unfold in_cell, gen3; cbn [get3 c0 c1 c2]; lra.
Qed.

(** a step to the boundary and the rest *)
Lemma vb_chain g q l1 l2 s dx1 off t d : 0 <= t <= 1 -> (forall e, get3 dx1 e = t * get3 (vs_dx s) e) ->
  avg inv_yz (cg_dx g) (qdt g q) l1 (vpos s) dx1 d -> avg inv_yz (cg_dx g) (qdt g q) l2 (vpos (vb_upd s dx1 off)) (vs_dx (vb_upd s dx1 off)) d ->
  avg inv_yz (cg_dx g) (qdt g q) (l1 ++ l2) (vpos s) (vs_dx s) d.
Proof.
  intros Ht Hd H1 H2. pose proof (Hd D0) as E0. pose proof (Hd D1) as E1. pose proof (Hd D2) as E2. cbn [get3] in *.
  apply (avg_app _ _ _ _ _ _ _ t (vpos (vb_upd s dx1 off)) _ Ht).
  - intros [] He; [discriminate He| |]; unfold vpos, vb_upd; rewrite !get3_gen3; cbn [get3 vs_i vs_x c0 c1 c2]; rewrite plus_IZR; rewrite ?E1, ?E2; ring.
  - refine (avg_ext _ _ _ _ _ _ _ _ _ d (fun n => eq_refl) (fun e _ => eq_refl) _ H1). intros e. rewrite get3_gen3. apply Hd.
  - refine (avg_ext _ _ _ _ _ _ _ _ _ d (fun n => eq_refl) (fun e _ => eq_refl) _ H2). intros e. rewrite get3_gen3.
    unfold vb_upd. destruct e; cbn [get3 vs_dx c0 c1 c2]; rewrite ?E0, ?E1, ?E2; ring.
Qed.

Lemma calc_3d_dx1_frac x dx dir o e : dir = D1 \/ dir = D2 -> half (get3 x dir) -> beyond o (get3 x dir + get3 dx dir) ->
  get3 (calc_3d_dx1 x dx (set3 (v3 0%Z 0%Z 0%Z) dir o)) e = frac o (get3 x dir) (get3 dx dir) * get3 dx e.
Proof.
  intros Hd Hx Hy. destruct (frac_facts _ _ _ Hx Hy) as [_ F]. destruct (beyond_o _ _ Hy) as [Ho _]. unfold calc_3d_dx1, frac in *.
  destruct Hd as [-> | ->]; cbn [set3 c0 c1 c2 get3] in *.
  - cbn [Z.eqb]. destruct (Req_EM_T (c1 dx) 0) as [E|E]; destruct e; cbn [get3 c0 c1 c2]; try exact F; unfold Rdiv; ring.
  - replace (o =? 0)%Z with false by lia. destruct (Req_EM_T (c2 dx) 0) as [E|E]; destruct e; cbn [get3 c0 c1 c2]; try exact F; unfold Rdiv; ring.
Qed.

Section RunsAvg.
  Variables (g : cgrid) (q : R) (idiff : V3 Z) (d : dim3).
  Hypothesis Hg : wf_cg g.

  Definition run_avg (dirs : list dim3) (s : vstate) : Prop := avg inv_yz (cg_dx g) (qdt g q) (vb_run g q idiff dirs s) (vpos s) (vs_dx s) d.

  Lemma ravg0 s : c0 (vs_i s) = 0%Z -> halfs s -> half (c1 (vs_x s) + c1 (vs_dx s)) -> half (c2 (vs_x s) + c2 (vs_dx s)) -> run_avg [] s.
  Proof. intros Hi [H1 H2] H3 H4. apply vb_cell_avg; assumption. Qed.

  Lemma ravg_step dir dirs s : let o := get3 idiff dir in dir = D1 \/ dir = D2 -> c0 (vs_i s) = 0%Z -> halfs s -> beyond o (get3 (vs_x s) dir + get3 (vs_dx s) dir) ->
    half (get3 (vs_x s) (oth dir) + frac o (get3 (vs_x s) dir) (get3 (vs_dx s) dir) * get3 (vs_dx s) (oth dir)) ->
    (forall s', c0 (vs_i s') = 0%Z -> halfs s' -> half (get3 (vs_x s') dir + get3 (vs_dx s') dir) ->
       get3 (vs_x s') (oth dir) + get3 (vs_dx s') (oth dir) = get3 (vs_x s) (oth dir) + get3 (vs_dx s) (oth dir) -> run_avg dirs s') ->
    run_avg (dir :: dirs) s.
  Proof.
    intros o Hd Hi Hs Hb Ht K. pose proof (vb_step_ok g q idiff dir s Hg Hd Hs Hb Ht) as St.
    unfold run_avg. cbn [vb_run]. unfold vb_step in *. destruct St as (_ & _ & Hs' & _ & Ei & Hh & Ho & _).
    assert (Hxd : half (get3 (vs_x s) dir)) by (destruct Hs; destruct Hd as [-> | ->]; assumption).
    pose proof (fun e => calc_3d_dx1_frac (vs_x s) (vs_dx s) dir o e Hd Hxd Hb) as F. unfold o in F.
    apply (vb_chain g q _ _ s _ (set3 (v3 0%Z 0%Z 0%Z) dir (get3 idiff dir)) _ d (proj1 (frac_facts _ _ _ Hxd Hb)) F).
    - destruct (frac_facts _ _ _ Hxd Hb) as [_ Fx]. destruct (beyond_o _ _ Hb) as [Ho' _].
      change (if Req_EM_T (get3 (vs_dx s) dir) 0 then 0 else (/ 2 * IZR o - get3 (vs_x s) dir) / get3 (vs_dx s) dir) with (frac o (get3 (vs_x s) dir) (get3 (vs_dx s) dir)) in Fx.
      assert (Ho2 : half (/ 2 * IZR o)) by (unfold half; destruct Ho' as [E|E]; rewrite E; lra).
      pose proof (F D1) as F1. pose proof (F D2) as F2. cbn [get3] in F1, F2.
      set (t := frac o (get3 (vs_x s) dir) (get3 (vs_dx s) dir)) in *. change (frac (get3 idiff dir) (get3 (vs_x s) dir) (get3 (vs_dx s) dir)) with t in F1, F2.
      clearbody t. clear F K Hh Ho Ei Hs'. destruct Hs as [Hx1 Hx2].
      apply vb_cell_avg; [exact Hi|exact Hx1|exact Hx2| |]; rewrite ?F1, ?F2; clear F1 F2;
        (destruct Hd as [Ed|Ed]; rewrite Ed in Ht, Fx; cbn [get3 oth] in Ht, Fx; [|]); try exact Ht;
        match goal with |- half ?a => replace a with (/ 2 * IZR o) by lra end; exact Ho2.
    - apply K; [|exact Hs'|exact Hh|exact Ho]. rewrite Ei. destruct Hd as [-> | ->]; exact Hi.
  Qed.

  Lemma ravg1 dir s : dir = D1 \/ dir = D2 -> c0 (vs_i s) = 0%Z -> halfs s -> beyond (get3 idiff dir) (get3 (vs_x s) dir + get3 (vs_dx s) dir) ->
    half (get3 (vs_x s) (oth dir) + get3 (vs_dx s) (oth dir)) -> run_avg [dir] s.
  Proof.
    intros Hd Hi Hs Hb Ho. apply ravg_step; try assumption.
    - apply half_mid; [apply halfs_get; [apply oth_dir; exact Hd|exact Hs]|exact Ho|].
      apply (frac_facts (get3 idiff dir) (get3 (vs_x s) dir) (get3 (vs_dx s) dir)); [apply halfs_get; assumption|exact Hb].
    - intros s' Hi' Hs' Hh Eo. rewrite <- Eo in Ho. destruct Hd as [Ed|Ed]; rewrite Ed in *; cbn [get3 oth] in *; apply ravg0; assumption.
  Qed.

  Lemma ravg2 dir s : dir = D1 \/ dir = D2 -> c0 (vs_i s) = 0%Z -> halfs s -> beyond (get3 idiff dir) (get3 (vs_x s) dir + get3 (vs_dx s) dir) ->
    beyond (get3 idiff (oth dir)) (get3 (vs_x s) (oth dir) + get3 (vs_dx s) (oth dir)) ->
    half (get3 (vs_x s) (oth dir) + frac (get3 idiff dir) (get3 (vs_x s) dir) (get3 (vs_dx s) dir) * get3 (vs_dx s) (oth dir)) -> run_avg [dir; oth dir] s.
  Proof.
    intros Hd Hi Hs Hb Hbo Ho. apply ravg_step; try assumption.
    intros s' Hi' Hs' Hh Eo. apply ravg1; try assumption.
    - apply oth_dir. exact Hd.
    - rewrite Eo. exact Hbo.
    - rewrite (oth_oth dir Hd). exact Hh.
  Qed.

  Lemma vb_dirs_avg s : halfs s -> c0 (vs_i s) = 0%Z ->
    (if (c1 idiff =? 0)%Z then half (c1 (vs_x s) + c1 (vs_dx s)) else beyond (c1 idiff) (c1 (vs_x s) + c1 (vs_dx s))) ->
    (if (c2 idiff =? 0)%Z then half (c2 (vs_x s) + c2 (vs_dx s)) else beyond (c2 idiff) (c2 (vs_x s) + c2 (vs_dx s))) ->
    run_avg (vb_dirs idiff (vs_x s) (vs_dx s)) s.
  Proof.
    intros Hs Ei B1 B2. unfold vb_dirs.
    destruct (c1 idiff =? 0)%Z eqn:Z1, (c2 idiff =? 0)%Z eqn:Z2; cbn [andb].
    - apply ravg0; assumption.
    - apply ravg1; cbn [get3 oth]; tauto.
    - apply ravg1; cbn [get3 oth]; tauto.
    - assert (E : (if Req_EM_T (c1 (vs_dx s)) 0 then 0 else c2 (vs_dx s) / c1 (vs_dx s) * (/ 2 * IZR (c1 idiff) - c1 (vs_x s))) =
        frac (c1 idiff) (c1 (vs_x s)) (c1 (vs_dx s)) * c2 (vs_dx s)).
      { unfold frac. destruct (Req_EM_T (c1 (vs_dx s)) 0); [ring|]. unfold Rdiv. ring. }
      rewrite E. destruct (Rgt_dec _ _) as [G|G].
      + apply (ravg2 D2); cbn [get3 oth]; try tauto. apply first_z; assumption.
      + apply (ravg2 D1); cbn [get3 oth]; try tauto. apply Rnot_gt_le in G. unfold half. apply Rabs_le_inv. exact G.
  Qed.
End RunsAvg.

(** the state calc_j of Current1vbVar1 starts from *)
Definition start_yz (g : cgrid) (xm xp v : V3 R) (lg : V3 Z) : vstate :=
  {| vs_i := v3 0%Z (c1 lg) (c2 lg); vs_x := v3 0 (c1 xm - (IZR (c1 lg) + / 2)) (c2 xm - (IZR (c2 lg) + / 2));
     vs_dx := v3 (c0 v * cg_dt g * (1 / c0 (cg_dx g))) (c1 xp - c1 xm) (c2 xp - c2 xm) |}.

Lemma start_avg g Q l xm xp v lg d : avg inv_yz (cg_dx g) Q l (vpos (start_yz g xm xp v lg)) (vs_dx (start_yz g xm xp v lg)) d ->
  avg inv_yz (cg_dx g) Q l xm (displacement g inv_yz v xm xp) d.
Proof.
  intros H. refine (avg_ext _ _ _ _ _ _ _ _ _ d (fun n => eq_refl) _ _ H).
  - intros [] He; [discriminate He| |]; unfold vpos, start_yz; rewrite get3_gen3; cbn [get3 vs_i vs_x c0 c1 c2]; ring.
  - intros e. unfold displacement, start_yz. rewrite get3_gen3. destruct e; cbn [inv_yz get3 vs_dx c0 c1 c2]; [|reflexivity|reflexivity]. unfold Rdiv. ring.
Qed.

Lemma calc_j_var1_avg g q xm xp lf lg v d : wf_cg g -> crossing inv_yz xm xp ->
  (forall e, get3 inv_yz e = false -> get3 lg e = fint (get3 xm e) /\ get3 lf e = fint (get3 xp e)) ->
  avg inv_yz (cg_dx g) (qdt g q) (calc_j_var1 g q xm xp lf lg v) xm (displacement g inv_yz v xm xp) d.
Proof.
  intros Hg Hc Hl. destruct (Hl D1 eq_refl) as [G1 F1]. destruct (Hl D2 eq_refl) as [G2 F2]. cbn [get3] in *.
  destruct (near_beyond _ _ (Hc D1 eq_refl)) as [X1 Y1]. destruct (near_beyond _ _ (Hc D2 eq_refl)) as [X2 Y2]. cbn [get3] in *. rewrite <- ?G1, <- ?F1, <- ?G2, <- ?F2 in *.
  apply (start_avg g _ _ xm xp v lg). apply (vb_dirs_avg g q (v3 0%Z (c1 lf - c1 lg)%Z (c2 lf - c2 lg)%Z) d Hg (start_yz g xm xp v lg)); [split; assumption|reflexivity|exact Y1|exact Y2].
Qed.

Lemma calc_j_2d_avg g q xm xp lf lg v d : wf_cg g -> crossing inv_yz xm xp -> d <> D0 ->
  (forall e, get3 inv_yz e = false -> get3 lg e = fint (get3 xm e) /\ get3 lf e = fint (get3 xp e)) ->
  avg inv_yz (cg_dx g) (qdt g q) (calc_j_2d g q xm xp lf lg) xm (displacement g inv_yz v xm xp) d.
Proof.
  intros Hg Hc Hd Hl. pose proof (calc_j_var1_avg g q xm xp lf lg v d Hg Hc Hl) as B.
  refine (avg_ext _ _ _ _ _ _ _ _ _ d _ (fun e _ => eq_refl) (fun e => eq_refl) B). intros n. clear B.
  unfold calc_j_var1, calc_j_2d in *. cbn [c0 c1 c2 fst snd] in *.
  set (idiff := v3 0%Z (c1 lf - c1 lg)%Z (c2 lf - c2 lg)%Z) in *.
  set (x := v3 0 (c1 xm - (IZR (c1 lg) + / 2)) (c2 xm - (IZR (c2 lg) + / 2))) in *.
  set (dx := v3 (c0 v * cg_dt g * (1 / c0 (cg_dx g))) (c1 xp - c1 xm) (c2 xp - c2 xm)) in *.
  set (s := {| vs_i := v3 0%Z (c1 lg) (c2 lg); vs_x := x; vs_dx := dx |}) in *.
  set (s2 := {| v2_i := (c1 lg, c2 lg); v2_x := (c1 xm - (IZR (c1 lg) + / 2), c2 xm - (IZR (c2 lg) + / 2)); v2_dx := (c1 xp - c1 xm, c2 xp - c2 xm) |}).
  change (c1 lf - c1 lg, c2 lf - c2 lg)%Z with (c1 idiff, c2 idiff).
  change (v2_dirs (c1 idiff, c2 idiff) _ _) with (v2_dirs (c1 idiff, c2 idiff) (c1 x, c2 x) (c1 dx, c2 dx)).
  destruct (sim_run g q (c1 idiff, c2 idiff) idiff eq_refl (v2_dirs (c1 idiff, c2 idiff) (c1 x, c2 x) (c1 dx, c2 dx)) s2 s) as [J _].
  - repeat split.
  - intros dir Hdir. apply v2_dirs_nonzero in Hdir. destruct dir; exact Hdir.
  - rewrite v2_dirs_map in J. exact (J d n Hd).
Qed.
