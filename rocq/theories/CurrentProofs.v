From Coq Require Import Reals Lra Psatz.
From Flocq Require Import Core.
From Verif Require Import Base RSum FieldModel FieldSpec DepositModel DepositSpec DepositProofs CurrentModel.
Local Open Scope R_scope.

(** ** What a list of adds amounts to *)

Definition jcur (l : list entry) (d : dim3) (n : V3 Z) : R :=
  rsum (map (fun e => if dim3_eqb (fst (fst e)) d then snd e * delta3 (snd (fst e)) n else 0) l).

Lemma cadd_all_get l : forall J d n, cadd_all J l d n = J d n + jcur l d n.
Proof.
  induction l as [|e l IH]; intros J d n; [unfold jcur; cbn; ring|].
  unfold cadd_all in *. cbn [fold_left]. rewrite IH. unfold jcur. cbn [map]. rewrite rsum_cons. unfold cadd.
  rewrite <- v3_eqb_delta. destruct (dim3_eqb (fst (fst e)) d), (v3_eqb (snd (fst e)) n); cbn [andb]; ring.
Qed.

Lemma jcur_app l1 l2 d n : jcur (l1 ++ l2) d n = jcur l1 d n + jcur l2 d n.
Proof. unfold jcur. rewrite map_app. apply rsum_app. Qed.

Lemma dminus_ext inv h d u v n : (forall m, u m = v m) -> dminus inv h d u n = dminus inv h d v n.
Proof. intros H. unfold dminus. rewrite !H. reflexivity. Qed.

Lemma dminus_plus inv h d u v n : dminus inv h d (fun m => u m + v m) n = dminus inv h d u n + dminus inv h d v n.
Proof. unfold dminus. destruct (get3 inv d); [ring|]. unfold Rdiv. ring. Qed.

Lemma div_minus_plus inv h (u v : dim3 -> V3 Z -> R) n : div_minus inv h (fun d m => u d m + v d m) n = div_minus inv h u n + div_minus inv h v n.
Proof. unfold div_minus. rewrite !dminus_plus. ring. Qed.

Lemma div_minus_ext inv h (u v : dim3 -> V3 Z -> R) n : (forall d m, u d m = v d m) -> div_minus inv h u n = div_minus inv h v n.
Proof. intros H. unfold div_minus. rewrite (dminus_ext inv h D0 (u D0) (v D0)), (dminus_ext inv h D1 (u D1) (v D1)), (dminus_ext inv h D2 (u D2) (v D2)) by (intros; apply H). reflexivity. Qed.

(** ** Continuity for a list of adds *)

(** q is the particle's charge times weight times fnqs / dt *)
Definition balances (inv : V3 bool) (h : V3 R) (q : R) (l : list entry) (a b : V3 R) : Prop :=
  forall n, q * (share hat inv b n - share hat inv a n) + div_minus inv h (jcur l) n = 0.

Lemma balances_app inv h q l1 l2 a b c : balances inv h q l1 a b -> balances inv h q l2 b c -> balances inv h q (l1 ++ l2) a c.
Proof.
  intros H1 H2 n. specialize (H1 n). specialize (H2 n).
  rewrite (div_minus_ext inv h _ (fun d m => jcur l1 d m + jcur l2 d m)) by (intros; apply jcur_app). rewrite div_minus_plus. lra.
Qed.

Lemma balances_ext inv h q l a a' b b' : (forall d, get3 inv d = false -> get3 a d = get3 a' d) -> (forall d, get3 inv d = false -> get3 b d = get3 b' d) ->
  balances inv h q l a b -> balances inv h q l a' b'.
Proof. intros Ha Hb H n. rewrite <- (share_ext hat inv b b' n Hb), <- (share_ext hat inv a a' n Ha). apply H. Qed.

Lemma delta_prev a n : delta a (n + -1) = delta (a + 1) n.
Proof. unfold delta. destruct (Z.eqb_spec a (n + -1)), (Z.eqb_spec (a + 1) n); try lia; reflexivity. Qed.

(** both ends lie in the closed cell k *)
Definition in_cell (k : Z) (a b : R) : Prop := IZR k <= a <= IZR k + 1 /\ IZR k <= b <= IZR k + 1.

Lemma div3 h0 F q X Y : h0 <> 0 -> (q * (F * h0) * X - q * (F * h0) * Y) / h0 = q * F * (X - Y).
Proof. intros H. field. exact H. Qed.

Lemma dep1vb_balances d F h k q a b :
  (forall e, get3 h e <> 0) ->
  (forall e, if get3 (invar_of (vb_dim_t d)) e then get3 k e = 0%Z else in_cell (get3 k e) (get3 a e) (get3 b e)) ->
  balances (invar_of (vb_dim_t d)) h (q * F)
    (dep1vb d (gen3 (fun e => F * get3 h e)) k q (gen3 (fun e => get3 b e - get3 a e)) (gen3 (fun e => 1 / 2 * (get3 b e + get3 a e) - IZR (get3 k e)))) a b.
Proof.
  intros Hh Hk n. pose proof (Hh D0) as h0. pose proof (Hh D1) as h1. pose proof (Hh D2) as h2.
  pose proof (Hk D0) as k0. pose proof (Hk D1) as k1. pose proof (Hk D2) as k2. clear Hh Hk.
  destruct h as [hx hy hz], k as [kx ky kz], a as [ax ay az], b as [bx by_ bz], n as [nx ny nz]. cbn [get3 c0 c1 c2] in *.
  unfold div_minus, dminus. rewrite !share_get.
  destruct d; cbn [vb_dim_t invar_of get3 c0 c1 c2] in *; unfold jcur, dep1vb, gen3, shift, set3, add, z3; cbn [get3 c0 c1 c2 map fst snd dim3_eqb];
    unfold rsum; cbn [fold_right]; unfold delta3; cbn [c0 c1 c2]; rewrite ?delta_prev.
  - destruct k0 as [a0 b0], k1 as [a1 b1], k2 as [a2 b2].
    rewrite (hat_cell ax kx nx a0), (hat_cell bx kx nx b0), (hat_cell ay ky ny a1), (hat_cell by_ ky ny b1), (hat_cell az kz nz a2), (hat_cell bz kz nz b2).
    field. auto.
  - destruct k0 as [a0 b0], k2 as [a2 b2]. subst ky.
    rewrite (hat_cell ax kx nx a0), (hat_cell bx kx nx b0), (hat_cell az kz nz a2), (hat_cell bz kz nz b2), (delta_sym ny 0).
    field. auto.
  - destruct k1 as [a1 b1], k2 as [a2 b2]. subst kx.
    rewrite (hat_cell ay ky ny a1), (hat_cell by_ ky ny b1), (hat_cell az kz nz a2), (hat_cell bz kz nz b2), (delta_sym nx 0).
    field. auto.
Qed.

(** ** Segments *)

Definition btw (a x b : R) : Prop := Rmin a b <= x <= Rmax a b.
Definition closed (a b : R) : Prop := exists j, in_cell j a b.
Definition near (a b : R) : Prop := (Z.abs (fint a - fint b) <= 1)%Z.

Lemma fint_le a b : a <= b -> (fint a <= fint b)%Z.
Proof. intros H. apply fint_bounds. pose proof (floor_spec a). lra. Qed.

Lemma btw_fint a x b : btw a x b -> (Z.min (fint a) (fint b) <= fint x <= Z.max (fint a) (fint b))%Z.
Proof.
  intros [H1 H2]. unfold Rmin, Rmax in *. destruct (Rle_dec a b).
  - pose proof (fint_le a x H1). pose proof (fint_le x b H2). lia.
  - pose proof (fint_le b x H1). pose proof (fint_le x a H2). lia.
Qed.

Lemma btw_refl_l a b : btw a a b.
Proof. unfold btw. split; [apply Rmin_l|apply Rmax_l]. Qed.
Lemma btw_refl_r a b : btw a b b.
Proof. unfold btw. split; [apply Rmin_r|apply Rmax_r]. Qed.

Lemma btw_trans a b x y z : btw a x b -> btw a z b -> btw x y z -> btw a y b.
Proof. unfold btw, Rmin, Rmax. destruct (Rle_dec a b), (Rle_dec x z); lra. Qed.

Lemma btw_mid a b : btw a (1 / 2 * (b + a)) b.
Proof. unfold btw, Rmin, Rmax. destruct (Rle_dec a b); lra. Qed.

Lemma btw_frac a b t : 0 <= t <= 1 -> btw a (a + t * (b - a)) b.
Proof.
  intros H. unfold btw, Rmin, Rmax. destruct (Rle_dec a b).
  - assert (0 <= t * (b - a)) by (apply Rmult_le_pos; lra). assert (0 <= (1 - t) * (b - a)) by (apply Rmult_le_pos; lra). lra.
  - assert (0 <= t * (a - b)) by (apply Rmult_le_pos; lra). assert (0 <= (1 - t) * (a - b)) by (apply Rmult_le_pos; lra). lra.
Qed.

Lemma closed_sub a b x y : closed a b -> btw a x b -> btw a y b -> closed x y.
Proof. intros [j [H1 H2]] X Y. exists j. unfold in_cell, btw, Rmin, Rmax in *. destruct (Rle_dec a b); lra. Qed.

Lemma near_sub a b x y : near a b -> btw a x b -> btw a y b -> near x y.
Proof. unfold near. intros H X Y. apply btw_fint in X. apply btw_fint in Y. lia. Qed.

Lemma near_same a b : fint a = fint b -> closed a b.
Proof. intros H. exists (fint a). pose proof (floor_spec a). pose proof (floor_spec b). rewrite <- H in *. unfold in_cell. lra. Qed.

(** the boundary between neighbouring cells *)
Lemma near_split a b : near a b -> fint b <> fint a -> let m := IZR (Z.max (fint a) (fint b)) in
  closed a m /\ closed m b /\ btw a m b /\ a <> b.
Proof.
  intros H N m. pose proof (floor_spec a). pose proof (floor_spec b). unfold near in H. unfold m. clear m.
  destruct (Z_lt_dec (fint a) (fint b)).
  - rewrite Z.max_r by lia. assert (E : fint b = (fint a + 1)%Z) by lia. rewrite E, plus_IZR in *.
    repeat split; [exists (fint a)|exists (fint a + 1)%Z| | |]; unfold in_cell, btw, Rmin, Rmax; rewrite ?plus_IZR; destruct (Rle_dec a b); lra.
  - rewrite Z.max_l by lia. assert (E : fint a = (fint b + 1)%Z) by lia. rewrite E, plus_IZR in *.
    repeat split; [exists (fint b + 1)%Z|exists (fint b)| | |]; unfold in_cell, btw, Rmin, Rmax; rewrite ?plus_IZR; destruct (Rle_dec a b); lra.
Qed.

Lemma frac_01 a b m : btw a m b -> a <> b -> 0 <= (m - a) / (b - a) <= 1.
Proof.
  intros H N. unfold btw, Rmin, Rmax in H. destruct (Rle_dec a b).
  - assert (0 < b - a) by lra. pose proof (Rinv_0_lt_compat _ H0). unfold Rdiv. split; [apply Rmult_le_pos; lra|].
    apply Rmult_le_reg_r with (b - a); [lra|]. rewrite Rmult_assoc, Rinv_l by lra. lra.
  - assert (0 < a - b) by lra. pose proof (Rinv_0_lt_compat _ H0). replace ((m - a) / (b - a)) with ((a - m) * / (a - b)) by (field; lra).
    split; [apply Rmult_le_pos; lra|]. apply Rmult_le_reg_r with (a - b); [lra|]. rewrite Rmult_assoc, Rinv_l by lra. lra.
Qed.

(** the cell calc_j2_one_cell chooses *)
Lemma closed_cell a b : closed a b -> in_cell (fint (1 / 2 * (b + a))) a b.
Proof.
  intros [j [H1 H2]]. unfold in_cell. destruct (Rlt_dec (1 / 2 * (b + a)) (IZR j + 1)).
  - rewrite (fint_unique _ j) by lra. lra.
  - assert (a = IZR j + 1) by lra. assert (b = IZR j + 1) by lra. rewrite (fint_unique _ (j + 1)); rewrite plus_IZR; lra.
Qed.

(** ** Which indices are touched *)

Definition touches (inv : V3 bool) (A B : V3 R) (e : entry) : Prop :=
  forall d, let i := get3 (snd (fst e)) d in
    if get3 inv d then i = 0%Z
    else (Z.min (fint (get3 A d)) (fint (get3 B d)) <= i <= Z.max (fint (get3 A d)) (fint (get3 B d)) + 1)%Z.

Lemma dep1vb_touch d fnqs k q dx xa e : In e (dep1vb d fnqs k q dx xa) ->
  forall s, let i := get3 (snd (fst e)) s in if get3 (invar_of (vb_dim_t d)) s then i = get3 k s else (get3 k s <= i <= get3 k s + 1)%Z.
Proof.
  intros H s i. unfold i. clear i. destruct k as [k0 k1 k2], dx as [x0 x1 x2], xa as [y0 y1 y2].
  destruct d; cbn [dep1vb In] in H;
    repeat match type of H with _ \/ _ => destruct H as [<-|H] | False => contradiction end;
    destruct s; cbn [add fst snd get3 z3 c0 c1 c2 vb_dim_t invar_of]; lia.
Qed.

(** ** One cell *)

Definition wf_cg (g : cgrid) : Prop := forall e, get3 (cg_dx g) e <> 0.

Definition qdt (g : cgrid) (q : R) : R := q * (cg_fnqs g / cg_dt g).

Section Split.
  Variables (g : cgrid) (d : vb_dim) (q : R) (A B : V3 R).
  Let inv := invar_of (vb_dim_t d).
  Hypothesis Hg : wf_cg g.
  (** the average position stays in cell 0 of the invariant directions *)
  Hypothesis Hinv : forall e, get3 inv e = true -> 0 <= get3 A e < 1 /\ 0 <= get3 B e < 1.

  Definition seg (done : dim3 -> bool) (xm xp : V3 R) : Prop :=
    forall e, btw (get3 A e) (get3 xm e) (get3 B e) /\ btw (get3 A e) (get3 xp e) (get3 B e) /\
      (get3 inv e = false -> if done e then closed (get3 xm e) (get3 xp e) else near (get3 xm e) (get3 xp e)).

  Definition good (done : dim3 -> bool) (f : V3 R -> V3 R -> list entry) : Prop :=
    forall xm xp, seg done xm xp -> balances inv (cg_dx g) (qdt g q) (f xm xp) xm xp /\ Forall (touches inv A B) (f xm xp).

  Lemma cell_index xm xp e : seg (fun _ => true) xm xp -> if get3 inv e then fint (1 / 2 * (get3 xp e + get3 xm e)) = 0%Z
    else in_cell (fint (1 / 2 * (get3 xp e + get3 xm e))) (get3 xm e) (get3 xp e).
  Proof.
    intros H. destruct (H e) as (Hm & Hp & Hc). destruct (get3 inv e) eqn:E.
    - destruct (Hinv e E) as [HA HB]. apply fint_unique. unfold btw, Rmin, Rmax in *. destruct (Rle_dec (get3 A e) (get3 B e)); lra.
    - apply closed_cell. apply Hc. reflexivity.
  Qed.

  Lemma one_cell_good : good (fun _ => true) (one_cell g d q).
  Proof.
    intros xm xp H. pose proof (fun e => cell_index xm xp e H) as C. unfold one_cell. split.
    - unfold qdt. change (vb_fnqs g) with (gen3 (fun e => cg_fnqs g / cg_dt g * get3 (cg_dx g) e)).
      apply (dep1vb_balances d (cg_fnqs g / cg_dt g) (cg_dx g) (gen3 (fun e => fint (1 / 2 * (get3 xp e + get3 xm e)))) q xm xp Hg).
      intros e. rewrite get3_gen3. exact (C e).
    - apply Forall_forall. intros en Hen s. pose proof (dep1vb_touch _ _ _ _ _ _ _ Hen s) as T. rewrite !get3_gen3 in T.
      specialize (C s). fold inv in T. cbv zeta in *. destruct (get3 inv s); [congruence|].
      destruct (H s) as (Hm & Hp & _).
      pose proof (btw_fint _ _ _ (btw_trans _ _ _ _ _ Hm Hp (btw_mid (get3 xm s) (get3 xp s)))) as X. lia.
  Qed.

  Lemma split_good done dim next : good (fun e => done e || dim3_eqb e dim)%bool next -> done dim = false -> good done (split_dim d dim next).
  Proof.
    intros Hn Hd xm xp H. unfold split_dim. fold inv. set (m := IZR (Z.max (fint (get3 xm dim)) (fint (get3 xp dim)))).
    destruct (get3 inv dim) eqn:Ei; cbn [orb].
    - apply Hn. intros e. destruct (H e) as (Hm & Hp & Hc). split; [exact Hm|]. split; [exact Hp|]. intros Ee.
      destruct (dim3_eqb e dim) eqn:E; [apply dim3_eqb_eq in E; congruence|]. rewrite orb_false_r. apply Hc. exact Ee.
    - destruct (Z.eqb_spec (fint (get3 xp dim)) (fint (get3 xm dim))) as [E|E].
      + apply Hn. intros e. destruct (H e) as (Hm & Hp & Hc). split; [exact Hm|]. split; [exact Hp|]. intros Ee.
        destruct (dim3_eqb e dim) eqn:E'; [apply dim3_eqb_eq in E'; subst e; rewrite orb_true_r; apply near_same; lia|].
        rewrite orb_false_r. apply Hc. exact Ee.
      + destruct (H dim) as (Hmd & Hpd & Hcd). specialize (Hcd Ei). rewrite Hd in Hcd.
        destruct (near_split _ _ Hcd E) as (C1 & C2 & Bm & Nab). fold m in C1, C2, Bm.
        pose proof (frac_01 _ _ _ Bm Nab) as Fr. set (t := (m - get3 xm dim) / (get3 xp dim - get3 xm dim)) in *.
        assert (X1 : forall e, get3 (split_x1 dim (fint (get3 xm dim)) (fint (get3 xp dim)) xm xp) e =
           if dim3_eqb e dim then m else get3 xm e + t * (get3 xp e - get3 xm e)) by (intros e; unfold split_x1; rewrite get3_gen3; reflexivity).
        set (x1 := split_x1 dim (fint (get3 xm dim)) (fint (get3 xp dim)) xm xp) in *. clearbody x1 t.
        assert (Bx : forall e, btw (get3 xm e) (get3 x1 e) (get3 xp e)).
        { intros e. rewrite X1. destruct (dim3_eqb e dim) eqn:E'; [apply dim3_eqb_eq in E'; subst e; exact Bm|apply btw_frac; exact Fr]. }
        destruct (Hn xm x1) as [P1 Q1]; [|destruct (Hn x1 xp) as [P2 Q2]].
        * intros e. destruct (H e) as (Hm & Hp & Hc). split; [exact Hm|]. split; [exact (btw_trans _ _ _ _ _ Hm Hp (Bx e))|].
          intros Ee. specialize (Hc Ee). destruct (dim3_eqb e dim) eqn:E'.
          -- apply dim3_eqb_eq in E'. subst e. rewrite orb_true_r. rewrite X1, dim3_eqb_refl. exact C1.
          -- rewrite orb_false_r. destruct (done e).
             ++ apply (closed_sub _ _ _ _ Hc); [apply btw_refl_l|apply Bx].
             ++ apply (near_sub _ _ _ _ Hc); [apply btw_refl_l|apply Bx].
        * intros e. destruct (H e) as (Hm & Hp & Hc). split; [exact (btw_trans _ _ _ _ _ Hm Hp (Bx e))|]. split; [exact Hp|].
          intros Ee. specialize (Hc Ee). destruct (dim3_eqb e dim) eqn:E'.
          -- apply dim3_eqb_eq in E'. subst e. rewrite orb_true_r. rewrite X1, dim3_eqb_refl. exact C2.
          -- rewrite orb_false_r. destruct (done e).
             ++ apply (closed_sub _ _ _ _ Hc); [apply Bx|apply btw_refl_r].
             ++ apply (near_sub _ _ _ _ Hc); [apply Bx|apply btw_refl_r].
        * split; [exact (balances_app _ _ _ _ _ _ _ _ P1 P2)|apply Forall_app; split; assumption].
  Qed.

  Lemma good_ext done done' f : (forall e, done e = done' e) -> good done f -> good done' f.
  Proof. intros E H xm xp S. apply H. intros e. rewrite E. apply S. Qed.

  Lemma split_z_good : good (fun _ => false) (split_dim_z g d q).
  Proof.
    unfold split_dim_z, split_dim_y, split_dim_x. apply split_good; [|reflexivity]. apply split_good; [|reflexivity]. apply split_good; [|reflexivity].
    apply (good_ext (fun _ => true)); [intros []; reflexivity|]. apply one_cell_good.
  Qed.

  Hypothesis Hnear : forall e, get3 inv e = false -> near (get3 A e) (get3 B e).

  Lemma split_run : balances inv (cg_dx g) (qdt g q) (split_dim_z g d q A B) A B /\ Forall (touches inv A B) (split_dim_z g d q A B).
  Proof. apply split_z_good. intros e. split; [apply btw_refl_l|]. split; [apply btw_refl_r|]. exact (Hnear e). Qed.

  Lemma zigzag_run :
    let l := if zigzag_crossed A B then one_cell g d q A (zigzag_xr A B) ++ one_cell g d q (zigzag_xr A B) B else one_cell g d q A B in
    balances inv (cg_dx g) (qdt g q) l A B /\ Forall (touches inv A B) l.
  Proof.
    intros l. unfold l. clear l.
    assert (X : forall e, get3 (zigzag_xr A B) e = if (fint (get3 A e) =? fint (get3 B e))%Z then / 2 * (get3 A e + get3 B e) else IZR (Z.max (fint (get3 A e)) (fint (get3 B e))))
      by (intros e; unfold zigzag_xr; rewrite get3_gen3; reflexivity).
    assert (I0 : forall e, get3 inv e = true -> fint (get3 A e) = 0%Z /\ fint (get3 B e) = 0%Z).
    { intros e E. destruct (Hinv e E). split; apply fint_unique; lra. }
    destruct (zigzag_crossed A B) eqn:Cr.
    - assert (Bx : forall e, btw (get3 A e) (get3 (zigzag_xr A B) e) (get3 B e)).
      { intros e. rewrite X. destruct (Z.eqb_spec (fint (get3 A e)) (fint (get3 B e))) as [E|E].
        - replace (/ 2 * (get3 A e + get3 B e)) with (1 / 2 * (get3 B e + get3 A e)) by field. apply btw_mid.
        - destruct (get3 inv e) eqn:Ei; [destruct (I0 e Ei); congruence|].
          destruct (near_split _ _ (Hnear e Ei) (not_eq_sym E)) as (_ & _ & Bm & _). exact Bm. }
      destruct (one_cell_good A (zigzag_xr A B)) as [P1 Q1]; [|destruct (one_cell_good (zigzag_xr A B) B) as [P2 Q2]].
      + intros e. split; [apply btw_refl_l|]. split; [apply Bx|]. intros Ei. cbv beta iota. rewrite X. destruct (Z.eqb_spec (fint (get3 A e)) (fint (get3 B e))) as [E|E].
        * apply (closed_sub _ _ _ _ (near_same _ _ E)); [apply btw_refl_l|]. replace (/ 2 * (get3 A e + get3 B e)) with (1 / 2 * (get3 B e + get3 A e)) by field. apply btw_mid.
        * apply (near_split _ _ (Hnear e Ei) (not_eq_sym E)).
      + intros e. split; [apply Bx|]. split; [apply btw_refl_r|]. intros Ei. cbv beta iota. rewrite X. destruct (Z.eqb_spec (fint (get3 A e)) (fint (get3 B e))) as [E|E].
        * apply (closed_sub _ _ _ _ (near_same _ _ E)); [|apply btw_refl_r]. replace (/ 2 * (get3 A e + get3 B e)) with (1 / 2 * (get3 B e + get3 A e)) by field. apply btw_mid.
        * apply (near_split _ _ (Hnear e Ei) (not_eq_sym E)).
      + split; [exact (balances_app _ _ _ _ _ _ _ _ P1 P2)|apply Forall_app; split; assumption].
    - apply one_cell_good. intros e. split; [apply btw_refl_l|]. split; [apply btw_refl_r|]. intros Ei. cbv beta iota. apply near_same.
      unfold zigzag_crossed, dims3 in Cr. cbn [existsb] in Cr. rewrite !orb_false_iff, !negb_false_iff, !Z.eqb_eq in Cr. destruct Cr as (Z0 & Z1 & Z2 & _).
      destruct e; assumption.
  Qed.
End Split.

(** ** The two schemes with calc_j2_one_cell *)

(** displacement in the invariant directions, in cells *)
Definition invar_step (g : cgrid) (vxi : V3 R) (e : dim3) : R := get3 vxi e * cg_dt g / get3 (cg_dx g) e.

Definition crossing (inv : V3 bool) (xm xp : V3 R) : Prop := forall e, get3 inv e = false -> near (get3 xm e) (get3 xp e).

Lemma touches_ext inv A B A' B' l : (forall e, get3 inv e = false -> get3 A e = get3 A' e) -> (forall e, get3 inv e = false -> get3 B e = get3 B' e) ->
  Forall (touches inv A B) l -> Forall (touches inv A' B') l.
Proof.
  intros HA HB H. rewrite Forall_forall in *. intros e He d. specialize (H e He d). cbv zeta in *.
  destruct (get3 inv d) eqn:E; [exact H|]. rewrite <- (HA d E), <- (HB d E). exact H.
Qed.

Lemma calc_j_split_run g d q xm xp v : let inv := invar_of (vb_dim_t d) in wf_cg g ->
  (forall e, get3 inv e = true -> Rabs (invar_step g v e) < / 2) -> crossing inv xm xp ->
  balances inv (cg_dx g) (qdt g q) (calc_j_split g d q xm xp v) xm xp /\ Forall (touches inv xm xp) (calc_j_split g d q xm xp v).
Proof.
  intros inv Hg Hv Hc. unfold calc_j_split. fold inv. destruct (invar_pos g inv v xm xp) as [A B] eqn:E. unfold invar_pos in E.
  assert (HA : forall e, get3 A e = if get3 inv e then / 2 else get3 xm e) by (injection E as <- _; intros; rewrite get3_gen3; reflexivity).
  assert (HB : forall e, get3 B e = if get3 inv e then / 2 + invar_step g v e else get3 xp e).
  { injection E as _ <-. intros e. rewrite get3_gen3. destruct (get3 inv e); [|reflexivity]. unfold invar_step, Rdiv. ring. }
  clear E. destruct (split_run g d q A B Hg) as [P Q].
  - intros e Ei. fold inv in Ei. rewrite HA, HB, Ei. specialize (Hv e Ei). apply Rabs_def2 in Hv. lra.
  - intros e Ei. fold inv in Ei. rewrite HA, HB, Ei. apply Hc. exact Ei.
  - fold inv in P, Q. split.
    + apply (balances_ext _ _ _ _ A xm B xp); [| |exact P]; intros e Ei; rewrite ?HA, ?HB, Ei; reflexivity.
    + apply (touches_ext _ A B); [| |exact Q]; intros e Ei; rewrite ?HA, ?HB, Ei; reflexivity.
Qed.

Lemma zigzag_pos_get g d v xm xp e : let inv := invar_of (vb_dim_t d) in
  get3 (fst (zigzag_pos g inv v xm xp)) e = (if get3 inv e then / 2 else get3 xm e) /\
  get3 (snd (zigzag_pos g inv v xm xp)) e = (if get3 inv e then / 2 + invar_step g v e else get3 xp e).
Proof.
  unfold zigzag_pos, invar_step, Rdiv. destruct xm, xp, d, e; cbn; split; try reflexivity; ring.
Qed.

Lemma calc_j_zigzag_run g d q xm xp v : let inv := invar_of (vb_dim_t d) in wf_cg g ->
  (forall e, get3 inv e = true -> Rabs (invar_step g v e) < / 2) -> crossing inv xm xp ->
  balances inv (cg_dx g) (qdt g q) (calc_j_zigzag g d q xm xp v) xm xp /\ Forall (touches inv xm xp) (calc_j_zigzag g d q xm xp v).
Proof.
  intros inv Hg Hv Hc. unfold calc_j_zigzag. fold inv. pose proof (zigzag_pos_get g d v xm xp) as E. cbv zeta in E. fold inv in E.
  destruct (zigzag_pos g inv v xm xp) as [A B]. cbn [fst snd] in E.
  assert (HA : forall e, get3 A e = if get3 inv e then / 2 else get3 xm e) by apply E.
  assert (HB : forall e, get3 B e = if get3 inv e then / 2 + invar_step g v e else get3 xp e) by apply E.
  clear E. destruct (zigzag_run g d q A B Hg) as [P Q].
  - intros e Ei. fold inv in Ei. rewrite HA, HB, Ei. specialize (Hv e Ei). apply Rabs_def2 in Hv. lra.
  - intros e Ei. fold inv in Ei. rewrite HA, HB, Ei. apply Hc. exact Ei.
  - fold inv in P, Q. split.
    + apply (balances_ext _ _ _ _ A xm B xp); [| |exact P]; intros e Ei; rewrite ?HA, ?HB, Ei; reflexivity.
    + apply (touches_ext _ A B); [| |exact Q]; intros e Ei; rewrite ?HA, ?HB, Ei; reflexivity.
Qed.
