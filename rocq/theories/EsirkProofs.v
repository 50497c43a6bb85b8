From Coq Require Import Reals Lra Psatz.
From Flocq Require Import Core.
From Verif Require Import Base CollisionProofs RSum FieldModel FieldSpec DepositModel DepositSpec DepositProofs CurrentModel CurrentProofs EsirkModel.
Local Open Scope R_scope.

(** ** The densities in one direction *)

Definition sh_of (o : order) : R -> R := match o with o1st => hat | o2nd => spline2 end.

(** what the loops rely on *)
Record dir_ok (o : order) (um up : R) (c : cdir) : Prop := {
  do_lg : cd_lg c = coeff_l o um;
  do_min : (- s_off o <= cd_lmin c <= 0)%Z;
  do_max : (1 <= cd_lmax c <= 2)%Z;
  do_s0 : forall n, cd_s0 c (n - cd_lg c)%Z = sh_of o (um - IZR n);
  do_s1 : forall n, cd_s0 c (n - cd_lg c)%Z + cd_s1 c (n - cd_lg c)%Z = sh_of o (up - IZR n);
  do_out : forall l, (l < cd_lmin c \/ cd_lmax c < l)%Z -> cd_s0 c l = 0 /\ cd_s1 c l = 0;
  do_sum : rsum (map (cd_s1 c) (full c)) = 0;
  do_lo : (cd_lg c + cd_lmin c = Z.min (coeff_l o um) (coeff_l o up) - (s_off o - 1))%Z;
  do_hi : (cd_lg c + cd_lmax c = Z.max (coeff_l o um) (coeff_l o up) + 1)%Z
}.

Definition wm (o : order) (u : R) : R := match o with o1st => 0 | o2nd => let h := IZR (nint u) - u in / 2 * (/ 2 + h) * (/ 2 + h) end.
Definition w0 (o : order) (u : R) : R := match o with o1st => 1 - (u - IZR (fint u)) | o2nd => let h := IZR (nint u) - u in 3 / 4 - h * h end.
Definition wp (o : order) (u : R) : R := match o with o1st => u - IZR (fint u) | o2nd => let h := IZR (nint u) - u in / 2 * (/ 2 - h) * (/ 2 - h) end.

Lemma sh_weights o u n : sh_of o (u - IZR n) =
  wm o u * delta (coeff_l o u - 1) n + w0 o u * delta (coeff_l o u) n + wp o u * delta (coeff_l o u + 1) n.
Proof.
  destruct o; cbn [sh_of wm w0 wp coeff_l].
  - rewrite (hat_cell u (fint u) n) by (pose proof (floor_spec u); lra). ring.
  - rewrite (spline2_cell u (nint u) n) by apply nint_spec. reflexivity.
Qed.

Lemma rho_set_weights o u s shift : (forall l, s l = 0) -> (-1 <= shift <= 1)%Z ->
  exists s', rho_set o s shift u = Some s' /\
  forall l, s' l = wm o u * delta (shift - 1) l + w0 o u * delta shift l + wp o u * delta (shift + 1) l.
Proof.
  intros Hs Hsh. destruct o; unfold rho_set, rho_put, rho_in; cbn [s_off n_rho wm w0 wp].
  - replace ((0 <=? shift + 1) && (shift + 1 <? 4))%Z with true by lia. replace ((0 <=? shift + 1 + 1) && (shift + 1 + 1 <? 4))%Z with true by lia.
    eexists. split; [reflexivity|]. intros l. cbv beta. unfold delta. rewrite Hs.
    destruct (Z.eqb_spec l (shift + 1)), (Z.eqb_spec l shift), (Z.eqb_spec shift l), (Z.eqb_spec (shift + 1) l), (Z.eqb_spec (shift - 1) l); try lia; ring.
  - assert (Hh : - / 2 <= IZR (nint u) - u <= / 2) by (pose proof (nint_spec u) as H; apply Rabs_def2b in H; lra).
    replace ((0 <=? shift - 1 + 2) && (shift - 1 + 2 <? 5))%Z with true by lia.
    replace ((0 <=? shift + 2) && (shift + 2 <? 5))%Z with true by lia. replace ((0 <=? shift + 1 + 2) && (shift + 1 + 2 <? 5))%Z with true by lia.
    cbv zeta. set (h := IZR (nint u) - u) in *. clearbody h.
    rewrite (Rabs_left1 (h - 1)), (Rabs_pos_eq (h + 1)) by lra.
    replace (Rabs h * Rabs h) with (h * h) by (rewrite <- Rabs_mult; symmetry; apply Rabs_pos_eq; apply Rle_0_sqr).
    eexists. split; [reflexivity|]. intros l. cbv beta. unfold delta. rewrite Hs.
    destruct (Z.eqb_spec l (shift + 1)), (Z.eqb_spec l shift), (Z.eqb_spec l (shift - 1)), (Z.eqb_spec shift l), (Z.eqb_spec (shift + 1) l), (Z.eqb_spec (shift - 1) l); try lia; field.
Qed.

Lemma weights_one o u : wm o u + w0 o u + wp o u = 1.
Proof. destruct o; cbn [wm w0 wp]; cbv zeta; field. Qed.

Definition close (o : order) (um up : R) : Prop := (Z.abs (coeff_l o up - coeff_l o um) <= 1)%Z.

Lemma current_dir_ok o um up : close o um up -> exists c, current_dir o um up = Some c /\ dir_ok o um up c.
Proof.
  unfold close. intros H. unfold current_dir.
  set (lg := coeff_l o um) in *. set (k := coeff_l o up) in *.
  destruct (rho_set_weights o um rho_zero 0) as (s0 & -> & H0); [reflexivity|lia|].
  destruct (rho_set_weights o up rho_zero (k - lg)) as (s1 & -> & H1); [reflexivity|lia|].
  destruct (find_l_minmax o k lg) as [lmin lmax] eqn:E.
  assert (L : (lg + lmin = Z.min lg k - (s_off o - 1) /\ lg + lmax = Z.max lg k + 1)%Z).
  { unfold find_l_minmax in E. destruct o; cbn [s_off] in *; destruct (Z.eqb_spec k lg), (Z.eqb_spec k (lg - 1)); injection E as <- <-; lia. }
  clear E. eexists. split; [reflexivity|].
  assert (O : s_off o = match o with o1st => 1 | o2nd => 2 end%Z) by reflexivity.
  assert (M : forall l, l = (-1)%Z -> s_off o = 1%Z -> wm o um = 0 /\ wm o up = 0).
  { intros l _ Ho. destruct o; [split; reflexivity|discriminate]. }
  assert (S : forall l, rho_sub o s1 s0 l = s1 l - s0 l).
  { intros l. unfold rho_sub. destruct ((- s_off o + 1 <=? l) && (l <=? 1))%Z eqn:B; [reflexivity|].
    assert (Z : s0 l = 0); [|rewrite Z; ring]. rewrite H0.
    destruct o; cbn [s_off] in *; rewrite ?(delta_diff 0 l), ?(delta_diff (0 + 1) l) by lia.
    - cbn [wm]. ring.
    - rewrite (delta_diff (0 - 1) l) by lia. ring. }
  assert (Out : forall l, (l < lmin \/ lmax < l)%Z -> s0 l = 0 /\ s1 l = 0).
  { intros l Hl. rewrite H0, H1. rewrite (delta_diff 0 l), (delta_diff (0 + 1) l), (delta_diff (k - lg) l), (delta_diff (k - lg + 1) l) by (destruct o; cbn [s_off] in *; lia).
    destruct o; cbn [s_off wm] in *; [split; ring|]. rewrite (delta_diff (0 - 1) l), (delta_diff (k - lg - 1) l) by lia. split; ring. }
  constructor; cbn [cd_lg cd_lmin cd_lmax cd_s0 cd_s1].
  - reflexivity.
  - destruct o; cbn [s_off] in *; lia.
  - destruct o; cbn [s_off] in *; lia.
  - intros n. rewrite H0, sh_weights. fold lg. unfold delta.
    destruct (Z.eqb_spec (0 - 1) (n - lg)), (Z.eqb_spec 0 (n - lg)), (Z.eqb_spec (0 + 1) (n - lg)), (Z.eqb_spec (lg - 1) n), (Z.eqb_spec lg n), (Z.eqb_spec (lg + 1) n); try lia; ring.
  - intros n. rewrite S. replace (s0 (n - lg)%Z + (s1 (n - lg)%Z - s0 (n - lg)%Z)) with (s1 (n - lg)%Z) by ring. rewrite H1, sh_weights. fold k. unfold delta.
    destruct (Z.eqb_spec (k - lg - 1) (n - lg)), (Z.eqb_spec (k - lg) (n - lg)), (Z.eqb_spec (k - lg + 1) (n - lg)), (Z.eqb_spec (k - 1) n), (Z.eqb_spec k n), (Z.eqb_spec (k + 1) n); try lia; ring.
  - intros l Hl. rewrite S. destruct (Out l Hl) as [-> ->]. split; ring.
  - unfold full. cbn [cd_lmin cd_lmax].
    assert (T : forall u sh (s : Z -> R), (forall l, s l = wm o u * delta (sh - 1) l + w0 o u * delta sh l + wp o u * delta (sh + 1) l) ->
      (lmin <= sh < lmax)%Z -> (lmin <= sh - 1)%Z \/ o = o1st -> rsum (map s (zrange lmin (lmax + 1))) = 1).
    { intros u sh s Hs B1 B2. erewrite rsum_ext by (intros; apply Hs). rewrite !rsum_plus.
      rewrite (rsum_delta (fun _ => w0 o u)), (rsum_delta (fun _ => wp o u)), (rsum_delta (fun _ => wm o u)).
      replace ((lmin <=? sh) && (sh <? lmax + 1))%Z with true by lia. replace ((lmin <=? sh + 1) && (sh + 1 <? lmax + 1))%Z with true by lia.
      rewrite <- (weights_one o u). destruct B2 as [B2| ->].
      - replace ((lmin <=? sh - 1) && (sh - 1 <? lmax + 1))%Z with true by lia. ring.
      - cbn [wm]. destruct ((lmin <=? sh - 1) && (sh - 1 <? lmax + 1))%Z; ring. }
    rewrite (rsum_ext _ (fun l => s1 l + (-1) * s0 l)) by (intros; rewrite S; ring). rewrite rsum_plus, rsum_mul.
    rewrite (T up (k - lg)%Z s1 H1), (T um 0%Z s0 H0); [ring|..]; destruct o; cbn [s_off] in *; try lia; auto; left; lia.
  - exact (proj1 L).
  - exact (proj2 L).
Qed.

(** ** Loops *)

Lemma jcur_nil d n : jcur [] d n = 0.
Proof. reflexivity. Qed.

Lemma jcur_flat {A} (f : A -> list entry) ls d n : jcur (flat_map f ls) d n = rsum (map (fun l => jcur (f l) d n) ls).
Proof. induction ls as [|a ls IH]; cbn [flat_map map]; [reflexivity|]. rewrite jcur_app, rsum_cons, IH. reflexivity. Qed.

Lemma jloop_jcur w put d n b : forall k a acc, Z.to_nat (b - a)%Z = k ->
  jcur (jloop acc w put (zrange a b)) d n = rsum (map (fun l => jcur (put l (acc - rsum (map w (zrange a (l + 1))))) d n) (zrange a b)).
Proof.
  induction k as [|k IH]; intros a acc Hk.
  - rewrite zrange_empty by lia. reflexivity.
  - rewrite (zrange_cons a b) by lia. cbn [jloop map]. rewrite jcur_app, rsum_cons. f_equal.
    + rewrite zrange_cons, zrange_empty by lia. cbn [map]. unfold rsum. cbn [fold_right]. rewrite Rplus_0_r. reflexivity.
    + rewrite IH by lia. apply rsum_ext. intros l Hl. apply in_zrange in Hl. rewrite (zrange_cons a (l + 1)) by lia. cbn [map]. rewrite rsum_cons. do 2 f_equal. ring.
Qed.

(** the sum of the changes up to l *)
Definition pre (c : cdir) (l : Z) : R := rsum (map (cd_s1 c) (zrange (cd_lmin c) (l + 1)%Z)).

Section Dir.
  Context {o : order} {um up : R} {c : cdir} (K : dir_ok o um up c).

  Lemma pre_step l : pre c l - pre c (l - 1)%Z = cd_s1 c l.
  Proof.
    unfold pre. replace (l - 1 + 1)%Z with l by ring. destruct (Z_lt_dec l (cd_lmin c)).
    - rewrite !zrange_empty by lia. destruct (do_out _ _ _ _ K l) as [_ ->]; [lia|]. cbn. ring.
    - rewrite (zrange_snoc _ l) by lia. rewrite map_app, rsum_app. cbn. ring.
  Qed.

  Lemma pre_lo l : (l < cd_lmin c)%Z -> pre c l = 0.
  Proof. intros H. unfold pre. rewrite zrange_empty by lia. reflexivity. Qed.

  Lemma pre_hi l : (cd_lmax c <= l)%Z -> pre c l = 0.
  Proof.
    intros H. unfold pre. pose proof (do_min _ _ _ _ K). pose proof (do_max _ _ _ _ K).
    rewrite (zrange_split (cd_lmin c) (cd_lmax c + 1) (l + 1)) by lia. rewrite map_app, rsum_app.
    pose proof (do_sum _ _ _ _ K) as S. unfold full in S. rewrite S. rewrite rsum_zero; [ring|].
    intros x Hx. apply in_zrange in Hx. apply (do_out _ _ _ _ K). lia.
  Qed.

  (** summing over l what sits at lg + l *)
  Lemma coll G m : (forall l, (l < cd_lmin c \/ cd_lmax c < l)%Z -> G l = 0) ->
    rsum (map (fun l => G l * delta (cd_lg c + l) m) (full c)) = G (m - cd_lg c)%Z.
  Proof.
    intros H. rewrite (rsum_ext _ (fun l => G l * delta (m - cd_lg c) l)).
    - unfold full. rewrite rsum_delta. destruct ((cd_lmin c <=? m - cd_lg c) && (m - cd_lg c <? cd_lmax c + 1))%Z eqn:E; [reflexivity|]. symmetry. apply H. lia.
    - intros l _. f_equal. unfold delta. destruct (Z.eqb_spec (cd_lg c + l) m), (Z.eqb_spec (m - cd_lg c) l); try lia; reflexivity.
  Qed.

  Lemma coll_short G m : (forall l, (l < cd_lmin c \/ cd_lmax c <= l)%Z -> G l = 0) ->
    rsum (map (fun l => G l * delta (cd_lg c + l) m) (short c)) = G (m - cd_lg c)%Z.
  Proof.
    intros H. rewrite (rsum_ext _ (fun l => G l * delta (m - cd_lg c) l)).
    - unfold short. rewrite rsum_delta. destruct ((cd_lmin c <=? m - cd_lg c) && (m - cd_lg c <? cd_lmax c))%Z eqn:E; [reflexivity|]. symmetry. apply H. lia.
    - intros l _. f_equal. unfold delta. destruct (Z.eqb_spec (cd_lg c + l) m), (Z.eqb_spec (m - cd_lg c) l); try lia; reflexivity.
  Qed.

  (** a running sum along this direction *)
  Lemma line w f T put C m d n ls : ls = full c \/ ls = short c -> (forall l, w l = f * (cd_s1 c l * T)) ->
    (forall l v, jcur (put l v) d n = v * delta (cd_lg c + l) m * C) ->
    jcur (jloop 0 w put ls) d n = - f * pre c (m - cd_lg c)%Z * T * C.
  Proof.
    intros Hl Hw Hp.
    assert (E : forall b, jcur (jloop 0 w put (zrange (cd_lmin c) b)) d n =
      rsum (map (fun l => (- f * pre c l * T * C) * delta (cd_lg c + l) m) (zrange (cd_lmin c) b))).
    { intros b. rewrite (jloop_jcur w put d n b _ _ _ eq_refl). apply rsum_ext. intros l _. rewrite Hp.
      rewrite (rsum_ext w (fun l => f * T * cd_s1 c l)) by (intros; rewrite Hw; ring). rewrite rsum_mul. fold (pre c l). ring. }
    destruct Hl as [-> | ->].
    - unfold full at 1. rewrite E. apply (coll (fun l => - f * pre c l * T * C)). intros l [Hl|Hl]; [rewrite pre_lo by exact Hl|rewrite pre_hi by lia]; ring.
    - unfold short at 1. rewrite E. apply (coll_short (fun l => - f * pre c l * T * C)). intros l [Hl|Hl]; [rewrite pre_lo by exact Hl|rewrite pre_hi by lia]; ring.
  Qed.
End Dir.

Lemma line0 w put d n : forall ls acc, (forall l v, jcur (put l v) d n = 0) -> jcur (jloop acc w put ls) d n = 0.
Proof. induction ls as [|l ls IH]; intros acc H; cbn [jloop]; [reflexivity|]. rewrite jcur_app, H, IH by exact H. ring. Qed.

Lemma flat0 {A} (f : A -> list entry) ls d n : (forall l, jcur (f l) d n = 0) -> jcur (flat_map f ls) d n = 0.
Proof. intros H. rewrite jcur_flat. apply rsum_zero. intros; apply H. Qed.

Lemma avg1_out o um up c l : dir_ok o um up c -> (l < cd_lmin c \/ cd_lmax c < l)%Z -> avg1 c l = 0.
Proof. intros K H. unfold avg1. destruct (do_out _ _ _ _ K l H) as [-> ->]. ring. Qed.
Lemma avg2_out1 o um up a b i j : dir_ok o um up a -> (i < cd_lmin a \/ cd_lmax a < i)%Z -> avg2 a b i j = 0.
Proof. intros K H. unfold avg2. destruct (do_out _ _ _ _ K i H) as [-> ->]. ring. Qed.
Lemma avg2_out2 o um up a b i j : dir_ok o um up b -> (j < cd_lmin b \/ cd_lmax b < j)%Z -> avg2 a b i j = 0.
Proof. intros K H. unfold avg2. destruct (do_out _ _ _ _ K j H) as [-> ->]. ring. Qed.

(** ** The current, in closed form *)

Lemma jcur_cons e l d n : jcur (e :: l) d n = (if dim3_eqb (fst (fst e)) d then snd e * delta3 (snd (fst e)) n else 0) + jcur l d n.
Proof. unfold jcur. cbn [map]. apply rsum_cons. Qed.

Ltac jone := intros; rewrite ?jcur_cons, ?jcur_nil; cbn [add fst snd dim3_eqb]; unfold delta3, z3; cbn [c0 c1 c2]; ring.

Lemma pick1 a b c r : b = 0 -> c = 0 -> a = r -> a + (b + c) = r.
Proof. intros -> -> ->. ring. Qed.
Lemma pick2 a b c r : a = 0 -> c = 0 -> b = r -> a + (b + c) = r.
Proof. intros -> -> ->. ring. Qed.
Lemma pick3 a b c r : a = 0 -> b = 0 -> c = r -> a + (b + c) = r.
Proof. intros -> -> ->. ring. Qed.
Ltac vanish := first [apply flat0; intros; vanish | apply line0; jone | jone].

Section Closed.
  Context {o : order} {x y z : cdir} {xm xp : V3 R}.
  Hypothesis (Kx : dir_ok o (c0 xm) (c0 xp) x) (Ky : dir_ok o (c1 xm) (c1 xp) y) (Kz : dir_ok o (c2 xm) (c2 xp) z).

  Lemma plane {oa ob um1 up1 um2 up2} (a b : cdir) (Ka : dir_ok oa um1 up1 a) (Kb : dir_ok ob um2 up2 b) F (T : Z -> Z -> R) m1 m2 :
    (forall i j, (i < cd_lmin a \/ cd_lmax a < i)%Z -> T i j = 0) -> (forall i j, (j < cd_lmin b \/ cd_lmax b < j)%Z -> T i j = 0) ->
    rsum (map (fun j => rsum (map (fun i => F * T i j * (delta (cd_lg a + i) m1 * delta (cd_lg b + j) m2)) (full a))) (full b)) =
    F * T (m1 - cd_lg a)%Z (m2 - cd_lg b)%Z.
  Proof.
    intros Ha Hb. rewrite (rsum_ext _ (fun j => (F * T (m1 - cd_lg a)%Z j) * delta (cd_lg b + j) m2)).
    - apply (coll (c := b) (fun j => F * T (m1 - cd_lg a)%Z j)). intros j Hj. rewrite Hb by exact Hj. ring.
    - intros j _. rewrite (rsum_ext _ (fun i => (F * T i j * delta (cd_lg b + j) m2) * delta (cd_lg a + i) m1)) by (intros; ring).
      rewrite (coll (c := a) (fun i => F * T i j * delta (cd_lg b + j) m2)); [reflexivity|]. intros i Hi. rewrite Ha by exact Hi. ring.
  Qed.

  Lemma row {oa um1 up1} (a : cdir) (Ka : dir_ok oa um1 up1 a) F (T : Z -> R) m1 :
    (forall i, (i < cd_lmin a \/ cd_lmax a < i)%Z -> T i = 0) ->
    rsum (map (fun i => F * T i * delta (cd_lg a + i) m1) (full a)) = F * T (m1 - cd_lg a)%Z.
  Proof. intros Ha. apply (coll (c := a) (fun i => F * T i)). intros i Hi. rewrite Ha by exact Hi. ring. Qed.

  Variables fx fy fz : R.
  Variable n : V3 Z.
  Let i := (c0 n - cd_lg x)%Z.
  Let j := (c1 n - cd_lg y)%Z.
  Let k := (c2 n - cd_lg z)%Z.

  Lemma calc_y_cur : jcur (calc_y y fx fy fz) D1 n = - fy * pre y j * (delta 0 (c0 n) * delta 0 (c2 n)).
  Proof.
    unfold calc_y. rewrite (line Ky _ fy 1 _ (delta 0 (c0 n) * delta 0 (c2 n)) (c1 n) D1 n); [unfold j; ring|left; reflexivity|intros; ring|jone].
  Qed.

  Lemma calc_z_cur : jcur (calc_z z fx fy fz) D2 n = - fz * pre z k * (delta 0 (c0 n) * delta 0 (c1 n)).
  Proof.
    unfold calc_z. rewrite (line Kz _ fz 1 _ (delta 0 (c0 n) * delta 0 (c1 n)) (c2 n) D2 n); [unfold k; ring|left; reflexivity|intros; ring|jone].
  Qed.

  Lemma calc_xy_cur : jcur (calc_xy x y fx fy fz) D0 n = - fx * pre x i * avg1 y j * delta 0 (c2 n) /\
    jcur (calc_xy x y fx fy fz) D1 n = - fy * pre y j * avg1 x i * delta 0 (c2 n).
  Proof.
    unfold calc_xy. rewrite !jcur_app, !jcur_flat. split.
    - rewrite (rsum_zero _ (full x)) by (intros; apply line0; jone). rewrite Rplus_0_r.
      rewrite (rsum_ext _ (fun l2 => (- fx * pre x i * delta 0 (c2 n)) * avg1 y l2 * delta (cd_lg y + l2) (c1 n))).
      + rewrite (row y Ky); [unfold j; ring|]. intros; eapply avg1_out; eassumption.
      + intros l2 _. rewrite (line Kx _ fx (avg1 y l2) _ (delta (cd_lg y + l2) (c1 n) * delta 0 (c2 n)) (c0 n) D0 n); [unfold i; ring|left; reflexivity|reflexivity|jone].
    - rewrite (rsum_zero _ (full y)) by (intros; apply line0; jone). rewrite Rplus_0_l.
      rewrite (rsum_ext _ (fun l1 => (- fy * pre y j * delta 0 (c2 n)) * avg1 x l1 * delta (cd_lg x + l1) (c0 n))).
      + rewrite (row x Kx); [unfold i; ring|]. intros; eapply avg1_out; eassumption.
      + intros l1 _. rewrite (line Ky _ fy (avg1 x l1) _ (delta (cd_lg x + l1) (c0 n) * delta 0 (c2 n)) (c1 n) D1 n); [unfold j; ring|left; reflexivity|reflexivity|jone].
  Qed.

  Lemma calc_xz_cur : jcur (calc_xz x z fx fy fz) D0 n = - fx * pre x i * avg1 z k * delta 0 (c1 n) /\
    jcur (calc_xz x z fx fy fz) D2 n = - fz * pre z k * avg1 x i * delta 0 (c1 n).
  Proof.
    unfold calc_xz. rewrite !jcur_app. split.
    - apply pick1; [vanish|vanish|]. rewrite jcur_flat.
      rewrite (rsum_ext _ (fun l3 => (- fx * pre x i * delta 0 (c1 n)) * avg1 z l3 * delta (cd_lg z + l3) (c2 n))).
      + rewrite (row z Kz); [unfold k; ring|]. intros; eapply avg1_out; eassumption.
      + intros l3 _. rewrite (line Kx _ fx (avg1 z l3) _ (delta 0 (c1 n) * delta (cd_lg z + l3) (c2 n)) (c0 n) D0 n); [unfold i; ring|right; reflexivity|reflexivity|jone].
    - apply pick3; [vanish|vanish|]. rewrite jcur_flat.
      rewrite (rsum_ext _ (fun l1 => (- fz * pre z k * delta 0 (c1 n)) * avg1 x l1 * delta (cd_lg x + l1) (c0 n))).
      + rewrite (row x Kx); [unfold i; ring|]. intros; eapply avg1_out; eassumption.
      + intros l1 _. rewrite (line Kz _ fz (avg1 x l1) _ (delta (cd_lg x + l1) (c0 n) * delta 0 (c1 n)) (c2 n) D2 n); [unfold k; ring|right; reflexivity|reflexivity|jone].
  Qed.

  Lemma calc_yz_1st_cur : jcur (calc_yz_1st y z fx fy fz) D1 n = - fy * pre y j * avg1 z k * delta 0 (c0 n) /\
    jcur (calc_yz_1st y z fx fy fz) D2 n = - fz * pre z k * avg1 y j * delta 0 (c0 n).
  Proof.
    unfold calc_yz_1st. rewrite !jcur_app. split.
    - apply pick2; [vanish|vanish|]. rewrite jcur_flat.
      rewrite (rsum_ext _ (fun l3 => (- fy * pre y j * delta 0 (c0 n)) * avg1 z l3 * delta (cd_lg z + l3) (c2 n))).
      + rewrite (row z Kz); [unfold k; ring|]. intros; eapply avg1_out; eassumption.
      + intros l3 _. rewrite (line Ky _ fy (avg1 z l3) _ (delta 0 (c0 n) * delta (cd_lg z + l3) (c2 n)) (c1 n) D1 n); [unfold j; ring|right; reflexivity|reflexivity|jone].
    - apply pick3; [vanish|vanish|]. rewrite jcur_flat.
      rewrite (rsum_ext _ (fun l2 => (- fz * pre z k * delta 0 (c0 n)) * avg1 y l2 * delta (cd_lg y + l2) (c1 n))).
      + rewrite (row y Ky); [unfold j; ring|]. intros; eapply avg1_out; eassumption.
      + intros l2 _. rewrite (line Kz _ fz (avg1 y l2) _ (delta (cd_lg y + l2) (c1 n) * delta 0 (c0 n)) (c2 n) D2 n); [unfold k; ring|right; reflexivity|reflexivity|jone].
  Qed.

  Lemma calc_xyz_cur : jcur (calc_xyz x y z fx fy fz) D0 n = - fx * pre x i * avg2 y z j k /\
    jcur (calc_xyz x y z fx fy fz) D1 n = - fy * pre y j * avg2 x z i k /\
    jcur (calc_xyz x y z fx fy fz) D2 n = - fz * pre z k * avg2 x y i j.
  Proof.
    unfold calc_xyz. rewrite !jcur_app. split; [|split].
    - apply pick1; [vanish|vanish|]. rewrite jcur_flat.
      rewrite (rsum_ext _ (fun l3 => rsum (map (fun l2 => (- fx * pre x i) * avg2 y z l2 l3 * (delta (cd_lg y + l2) (c1 n) * delta (cd_lg z + l3) (c2 n))) (full y)))).
      + apply (plane y z Ky Kz); intros; [eapply avg2_out1|eapply avg2_out2]; eassumption.
      + intros l3 _. rewrite jcur_flat. apply rsum_ext. intros l2 _.
        rewrite (line Kx _ fx (avg2 y z l2 l3) _ (delta (cd_lg y + l2) (c1 n) * delta (cd_lg z + l3) (c2 n)) (c0 n) D0 n); [reflexivity|left; reflexivity|reflexivity|jone].
    - apply pick2; [vanish|vanish|]. rewrite jcur_flat.
      rewrite (rsum_ext _ (fun l3 => rsum (map (fun l1 => (- fy * pre y j) * avg2 x z l1 l3 * (delta (cd_lg x + l1) (c0 n) * delta (cd_lg z + l3) (c2 n))) (full x)))).
      + apply (plane x z Kx Kz); intros; [eapply avg2_out1|eapply avg2_out2]; eassumption.
      + intros l3 _. rewrite jcur_flat. apply rsum_ext. intros l1 _.
        rewrite (line Ky _ fy (avg2 x z l1 l3) _ (delta (cd_lg x + l1) (c0 n) * delta (cd_lg z + l3) (c2 n)) (c1 n) D1 n); [reflexivity|left; reflexivity|reflexivity|jone].
    - apply pick3; [vanish|vanish|]. rewrite jcur_flat.
      rewrite (rsum_ext _ (fun l2 => rsum (map (fun l1 => (- fz * pre z k) * avg2 x y l1 l2 * (delta (cd_lg x + l1) (c0 n) * delta (cd_lg y + l2) (c1 n))) (full x)))).
      + apply (plane x y Kx Ky); intros; [eapply avg2_out1|eapply avg2_out2]; eassumption.
      + intros l2 _. rewrite jcur_flat. apply rsum_ext. intros l1 _.
        rewrite (line Kz _ fz (avg2 x y l1 l2) _ (delta (cd_lg x + l1) (c0 n) * delta (cd_lg y + l2) (c1 n)) (c2 n) D2 n); [reflexivity|left; reflexivity|reflexivity|jone].
  Qed.
End Closed.

(** ** The second order yz variant, with an array of running sums *)

Section Yz2nd.
  Variables (y z : cdir) (fx fy fz : R).

  Lemma yz_inner n l3 K : forall l2s jyh jzh, NoDup l2s -> (forall l, In l l2s -> jzh l = K * avg1 y l) ->
    let '(r, jzh') := calc_yz_inner y z fx fy fz l3 jyh jzh l2s in
    (forall l, In l l2s -> jzh' l = (K - fz * cd_s1 z l3) * avg1 y l) /\ (forall l, ~ In l l2s -> jzh' l = jzh l) /\
    jcur r D1 n = jcur (jloop jyh (fun l2 => fy * (cd_s1 y l2 * avg1 z l3)) (fun l2 v => [ add D1 0 (cd_lg y + l2) (cd_lg z + l3) v ]) l2s) D1 n /\
    jcur r D2 n = rsum (map (fun l2 => (K - fz * cd_s1 z l3) * avg1 y l2 * delta3 (v3 0%Z (cd_lg y + l2) (cd_lg z + l3))%Z n) l2s).
  Proof.
    induction l2s as [|l2 l2s IH]; intros jyh jzh ND H; cbn [calc_yz_inner].
    - split; [intros l []|]. split; [reflexivity|]. split; reflexivity.
    - inversion ND as [|? ? N ND']; subst.
      set (jyh' := jyh - fy * (cd_s1 y l2 * avg1 z l3)). set (jz := jzh l2 - fz * (cd_s1 z l3 * avg1 y l2)). set (jzh1 := fun l => if (l =? l2)%Z then jz else jzh l).
      assert (Ejz : jz = (K - fz * cd_s1 z l3) * avg1 y l2) by (unfold jz; rewrite (H l2 (or_introl eq_refl)); ring).
      specialize (IH jyh' jzh1 ND'). destruct (calc_yz_inner y z fx fy fz l3 jyh' jzh1 l2s) as [r jzh'].
      destruct IH as (I1 & I2 & I3 & I4).
      { intros l Hl. unfold jzh1. destruct (Z.eqb_spec l l2) as [->|]; [contradiction|]. apply H. now right. }
      split; [|split; [|split]].
      + intros l [<-|Hl]; [|apply I1; exact Hl]. rewrite (I2 l2 N). unfold jzh1. rewrite Z.eqb_refl. exact Ejz.
      + intros l Hl. rewrite (I2 l) by (intros X; apply Hl; now right). unfold jzh1. destruct (Z.eqb_spec l l2) as [->|]; [exfalso; apply Hl; now left|reflexivity].
      + rewrite !jcur_app. cbn [jloop]. fold jyh'. rewrite jcur_app, I3. f_equal. rewrite !jcur_cons, !jcur_nil. cbn [add fst snd dim3_eqb]. ring.
      + rewrite jcur_app, I4. cbn [map]. rewrite rsum_cons. f_equal. rewrite !jcur_cons, !jcur_nil. cbn [add fst snd dim3_eqb]. rewrite Ejz. unfold z3. ring.
  Qed.

  Lemma yz_outer n b : forall m a K jzh, Z.to_nat (b - a)%Z = m -> (forall l, In l (full y) -> jzh l = K * avg1 y l) ->
    jcur (calc_yz_outer y z fx fy fz jzh (zrange a b)) D1 n =
      rsum (map (fun l3 => jcur (jloop 0 (fun l2 => fy * (cd_s1 y l2 * avg1 z l3)) (fun l2 v => [ add D1 0 (cd_lg y + l2) (cd_lg z + l3) v ]) (full y)) D1 n) (zrange a b)) /\
    jcur (calc_yz_outer y z fx fy fz jzh (zrange a b)) D2 n =
      rsum (map (fun l3 => rsum (map (fun l2 => (K - fz * rsum (map (cd_s1 z) (zrange a (l3 + 1)%Z))) * avg1 y l2 * delta3 (v3 0%Z (cd_lg y + l2) (cd_lg z + l3))%Z n) (full y))) (zrange a b)).
  Proof.
    induction m as [|m IH]; intros a K jzh Hm H.
    - rewrite zrange_empty by lia. split; reflexivity.
    - rewrite (zrange_cons a b) by lia. cbn [calc_yz_outer map].
      pose proof (yz_inner n a K (full y) 0 jzh (NoDup_zrange _ _) H) as I. destruct (calc_yz_inner y z fx fy fz a 0 jzh (full y)) as [r jzh'].
      destruct I as (I1 & _ & I3 & I4). destruct (IH (a + 1)%Z (K - fz * cd_s1 z a) jzh' ltac:(lia) I1) as [J1 J2].
      rewrite !jcur_app, !rsum_cons, I3, I4, J1, J2. split; [reflexivity|]. f_equal.
      + apply rsum_ext. intros l2 _. rewrite zrange_cons, zrange_empty by lia. cbn [map]. unfold rsum. cbn [fold_right]. do 2 f_equal. ring.
      + apply rsum_ext. intros l3 Hl. apply in_zrange in Hl. apply rsum_ext. intros l2 _. rewrite (zrange_cons a (l3 + 1)) by lia. cbn [map]. rewrite rsum_cons. do 2 f_equal. ring.
  Qed.

  Lemma calc_yz_2nd_cur {o xm xp} n : dir_ok o (c1 xm) (c1 xp) y -> dir_ok o (c2 xm) (c2 xp) z ->
    let j := (c1 n - cd_lg y)%Z in let k := (c2 n - cd_lg z)%Z in
    jcur (calc_yz_2nd y z fx fy fz) D1 n = - fy * pre y j * avg1 z k * delta 0 (c0 n) /\
    jcur (calc_yz_2nd y z fx fy fz) D2 n = - fz * pre z k * avg1 y j * delta 0 (c0 n).
  Proof.
    intros Ky Kz j k. unfold calc_yz_2nd. unfold full at 1 2.
    destruct (yz_outer n (cd_lmax z + 1) _ (cd_lmin z) 0 (fun _ => 0) eq_refl) as [-> ->]; [intros; ring|]. fold (full z). split.
    - rewrite (rsum_ext _ (fun l3 => (- fy * pre y j * delta 0 (c0 n)) * avg1 z l3 * delta (cd_lg z + l3) (c2 n))).
      + rewrite (row z Kz); [unfold k; ring|]. intros; eapply avg1_out; eassumption.
      + intros l3 _. rewrite (line Ky _ fy (avg1 z l3) _ (delta 0 (c0 n) * delta (cd_lg z + l3) (c2 n)) (c1 n) D1 n); [unfold j; ring|left; reflexivity|reflexivity|jone].
    - rewrite (rsum_ext _ (fun l3 => rsum (map (fun l2 => (- fz * delta 0 (c0 n)) * (avg1 y l2 * pre z l3) * (delta (cd_lg y + l2) (c1 n) * delta (cd_lg z + l3) (c2 n))) (full y)))).
      + rewrite (plane y z Ky Kz (- fz * delta 0 (c0 n)) (fun i k => avg1 y i * pre z k)); [unfold j, k; ring| |].
        * intros. rewrite (avg1_out _ _ _ _ _ Ky) by assumption. ring.
        * intros i l [Hl|Hl]; [rewrite pre_lo by exact Hl|rewrite (pre_hi Kz) by lia]; ring.
      + intros l3 _. apply rsum_ext. intros l2 _. fold (pre z l3). unfold delta3. cbn [c0 c1 c2]. ring.
  Qed.
End Yz2nd.

(** ** Continuity *)

(** the charge of the particle is carried from xm to xp *)
Definition carries (o : order) (d : dim_t) (g : cgrid) (q : R) (xm xp : V3 R) (l : list entry) : Prop :=
  forall n, q * (cg_fnqs g / cg_dt g) * (share (sh_of o) (invar_of d) xp n - share (sh_of o) (invar_of d) xm n) +
    div_minus (invar_of d) (cg_dx g) (jcur l) n = 0.

Definition closes (o : order) (inv : V3 bool) (xm xp : V3 R) : Prop := forall e, get3 inv e = false -> close o (get3 xm e) (get3 xp e).

(** where the entries are *)
Definition spans (o : order) (inv : V3 bool) (xm xp : V3 R) (e : entry) : Prop :=
  forall d, let i := get3 (snd (fst e)) d in
    if get3 inv d then i = 0%Z
    else (Z.min (coeff_l o (get3 xm d)) (coeff_l o (get3 xp d)) - (s_off o - 1) <= i <= Z.max (coeff_l o (get3 xm d)) (coeff_l o (get3 xp d)) + 1)%Z.

Lemma in_jloop w put e : forall ls acc, In e (jloop acc w put ls) -> exists l v, In l ls /\ In e (put l v).
Proof.
  induction ls as [|l ls IH]; intros acc H; [destruct H|]. cbn [jloop] in H. apply in_app_or in H. destruct H as [H|H].
  - exists l, (acc - w l). split; [now left|exact H].
  - destruct (IH _ H) as (l' & v & H1 & H2). exists l', v. split; [now right|exact H2].
Qed.

Lemma in_full c l : In l (full c) -> (cd_lmin c <= l <= cd_lmax c)%Z.
Proof. unfold full. intros H. apply in_zrange in H. lia. Qed.
Lemma in_short c l : In l (short c) -> (cd_lmin c <= l <= cd_lmax c)%Z.
Proof. unfold short. intros H. apply in_zrange in H. lia. Qed.

Lemma in_yz_inner y z fx fy fz l3 e : forall l2s jyh jzh, In e (fst (calc_yz_inner y z fx fy fz l3 jyh jzh l2s)) ->
  exists l2, In l2 l2s /\ snd (fst e) = z3 0 (cd_lg y + l2) (cd_lg z + l3).
Proof.
  induction l2s as [|l2 l2s IH]; intros jyh jzh H; cbn [calc_yz_inner] in H; [destruct H|].
  match type of H with context [calc_yz_inner y z fx fy fz l3 ?a ?b l2s] => specialize (IH a b); destruct (calc_yz_inner y z fx fy fz l3 a b l2s) as [r jz'] end.
  cbn [fst] in *. apply in_app_or in H. destruct H as [H|H].
  - exists l2. split; [now left|]. destruct H as [<-|[<-|[<-|[]]]]; reflexivity.
  - destruct (IH H) as (l' & H1 & H2). exists l'. split; [now right|exact H2].
Qed.

Lemma in_yz_outer y z fx fy fz e : forall l3s jzh, In e (calc_yz_outer y z fx fy fz jzh l3s) ->
  exists l2 l3, In l2 (full y) /\ In l3 l3s /\ snd (fst e) = z3 0 (cd_lg y + l2) (cd_lg z + l3).
Proof.
  induction l3s as [|l3 l3s IH]; intros jzh H; cbn [calc_yz_outer] in H; [destruct H|].
  pose proof (in_yz_inner y z fx fy fz l3 e (full y) 0 jzh) as I. destruct (calc_yz_inner y z fx fy fz l3 0 jzh (full y)) as [r jz'].
  apply in_app_or in H. destruct H as [H|H].
  - destruct (I H) as (l2 & H1 & H2). exists l2, l3. split; [exact H1|]. split; [now left|exact H2].
  - destruct (IH _ H) as (l2 & l & H1 & H2 & H3). exists l2, l. split; [exact H1|]. split; [now right|exact H3].
Qed.

(** the indices an entry list uses *)
Ltac inlist H := cbn [In] in H; repeat match type of H with _ \/ _ => destruct H as [<-|H] | False => destruct H end.
Ltac findin H :=
  lazymatch type of H with
  | In _ (flat_map _ _) => let l := fresh "l" in let Hl := fresh "Hl" in apply in_flat_map in H; destruct H as (l & Hl & H); first [apply in_full in Hl | apply in_short in Hl]; findin H
  | In _ (jloop _ _ _ _) => let l := fresh "l" in let v := fresh "v" in let Hl := fresh "Hl" in apply in_jloop in H; destruct H as (l & v & Hl & H); first [apply in_full in Hl | apply in_short in Hl]; findin H
  | In _ (_ ++ _) => apply in_app_or in H; destruct H as [H|H]; findin H
  | _ => inlist H
  end.

Ltac start Q n := intros n; rewrite Q, !share_get; cbn [get3 c0 c1 c2 invar_of]; unfold div_minus, dminus; cbn [get3 c0 c1 c2]; unfold shift, set3; cbn [get3].
Ltac finish q g := generalize (q * (cg_fnqs g * / cg_dt g)); intros; field; auto.
Ltac place_tac Sx He := findin He; intros e; destruct e; cbn [get3 invar_of add fst snd z3 c0 c1 c2]; try reflexivity; (eapply Sx; [eassumption|lia]).

Lemma calc_esirk_run o d g q xm xp v l : wf_cg g -> closes o (invar_of d) xm xp -> calc_esirk o d g q xm xp v = Some l ->
  carries o d g q xm xp l /\ Forall (spans o (invar_of d) xm xp) l.
Proof.
  intros Hg Hc H. unfold calc_esirk in H. cbv zeta in H.
  assert (X : forall e, get3 (invar_of d) e = false -> exists c, current_dir o (get3 xm e) (get3 xp e) = Some c /\ dir_ok o (get3 xm e) (get3 xp e) c)
    by (intros e He; apply current_dir_ok; apply Hc; exact He).
  pose proof (Hg D0) as h0. pose proof (Hg D1) as h1. pose proof (Hg D2) as h2. cbn [get3] in h0, h1, h2.
  assert (Sx : forall um up c, dir_ok o um up c -> forall l, (cd_lmin c <= l <= cd_lmax c)%Z ->
    (Z.min (coeff_l o um) (coeff_l o up) - (s_off o - 1) <= cd_lg c + l <= Z.max (coeff_l o um) (coeff_l o up) + 1)%Z).
  { intros um up c Kc l0 Hl0. pose proof (do_lo _ _ _ _ Kc). pose proof (do_hi _ _ _ _ Kc). lia. }
  assert (Dl : forall n, delta 0 n = delta n 0) by (intros; unfold delta; rewrite Z.eqb_sym; reflexivity).
  assert (Sh : forall a b : Z, (a + -1 - b = a - b - 1)%Z) by (intros; ring).
  set (fx := es_fnq g q D0) in *. set (fy := es_fnq g q D1) in *. set (fz := es_fnq g q D2) in *.
  set (vx := es_fnqv g q v D0) in *. set (vy := es_fnqv g q v D1) in *. set (vz := es_fnqv g q v D2) in *.
  assert (Ef : fx = q * (cg_fnqs g * / cg_dt g) * c0 (cg_dx g) /\ fy = q * (cg_fnqs g * / cg_dt g) * c1 (cg_dx g) /\ fz = q * (cg_fnqs g * / cg_dt g) * c2 (cg_dx g)).
  { unfold fx, fy, fz, es_fnq, Rdiv. cbn [get3]. repeat split; ring. }
  destruct Ef as (Efx & Efy & Efz). clearbody fx fy fz vx vy vz.
  assert (Q : q * (cg_fnqs g / cg_dt g) = q * (cg_fnqs g * / cg_dt g)) by reflexivity.
  destruct d; cbn [invar_of] in *.
  - destruct o; [discriminate|]. destruct (X D0 eq_refl) as (x & Ex & Kx), (X D1 eq_refl) as (y & Ey & Ky), (X D2 eq_refl) as (z & Ez & Kz).
    rewrite Ex, Ey, Ez in H. injection H as <-. cbn [get3] in Kx, Ky, Kz. split.
    + start Q n. rewrite <- (do_s1 _ _ _ _ Kx), <- (do_s0 _ _ _ _ Kx). rewrite <- (do_s1 _ _ _ _ Ky), <- (do_s0 _ _ _ _ Ky). rewrite <- (do_s1 _ _ _ _ Kz), <- (do_s0 _ _ _ _ Kz).
      rewrite (proj1 (calc_xyz_cur Kx Ky Kz fx fy fz n)), (proj1 (calc_xyz_cur Kx Ky Kz fx fy fz (v3 (c0 n + -1) (c1 n) (c2 n))%Z)).
      rewrite (proj1 (proj2 (calc_xyz_cur Kx Ky Kz fx fy fz n))), (proj1 (proj2 (calc_xyz_cur Kx Ky Kz fx fy fz (v3 (c0 n) (c1 n + -1) (c2 n))%Z))).
      rewrite (proj2 (proj2 (calc_xyz_cur Kx Ky Kz fx fy fz n))), (proj2 (proj2 (calc_xyz_cur Kx Ky Kz fx fy fz (v3 (c0 n) (c1 n) (c2 n + -1))%Z))).
      cbn [c0 c1 c2]. rewrite !Sh, ?Dl. unfold avg1, avg2. rewrite <- !(pre_step Kx), <- !(pre_step Ky), <- !(pre_step Kz), Efx, Efy, Efz. finish q g.
    + rewrite Forall_forall. intros e He. unfold calc_xyz in He. place_tac Sx He.
  - destruct o; [discriminate|]. destruct (X D0 eq_refl) as (x & Ex & Kx), (X D1 eq_refl) as (y & Ey & Ky).
    rewrite Ex, Ey in H. injection H as <-. cbn [get3] in Kx, Ky. split.
    + start Q n. rewrite <- (do_s1 _ _ _ _ Kx), <- (do_s0 _ _ _ _ Kx). rewrite <- (do_s1 _ _ _ _ Ky), <- (do_s0 _ _ _ _ Ky).
      rewrite (proj1 (calc_xy_cur Kx Ky fx fy vz n)), (proj1 (calc_xy_cur Kx Ky fx fy vz (v3 (c0 n + -1) (c1 n) (c2 n))%Z)).
      rewrite (proj2 (calc_xy_cur Kx Ky fx fy vz n)), (proj2 (calc_xy_cur Kx Ky fx fy vz (v3 (c0 n) (c1 n + -1) (c2 n))%Z)).
      cbn [c0 c1 c2]. rewrite !Sh, ?Dl. unfold avg1, avg2. rewrite <- !(pre_step Kx), <- !(pre_step Ky), Efx, Efy. finish q g.
    + rewrite Forall_forall. intros e He. unfold calc_xy in He. place_tac Sx He.
  - assert (H' : match current_dir o (get3 xm D0) (get3 xp D0), current_dir o (get3 xm D2) (get3 xp D2) with Some x, Some z => Some (calc_xz x z fx vy fz) | _, _ => None end = Some l) by (destruct o; exact H). clear H. rename H' into H.
    destruct (X D0 eq_refl) as (x & Ex & Kx), (X D2 eq_refl) as (z & Ez & Kz).
    rewrite Ex, Ez in H. injection H as <-. cbn [get3] in Kx, Kz. split.
    + start Q n. rewrite <- (do_s1 _ _ _ _ Kx), <- (do_s0 _ _ _ _ Kx). rewrite <- (do_s1 _ _ _ _ Kz), <- (do_s0 _ _ _ _ Kz).
      rewrite (proj1 (calc_xz_cur Kx Kz fx vy fz n)), (proj1 (calc_xz_cur Kx Kz fx vy fz (v3 (c0 n + -1) (c1 n) (c2 n))%Z)).
      rewrite (proj2 (calc_xz_cur Kx Kz fx vy fz n)), (proj2 (calc_xz_cur Kx Kz fx vy fz (v3 (c0 n) (c1 n) (c2 n + -1))%Z)).
      cbn [c0 c1 c2]. rewrite !Sh, ?Dl. unfold avg1, avg2. rewrite <- !(pre_step Kx), <- !(pre_step Kz), Efx, Efz. finish q g.
    + rewrite Forall_forall. intros e He. unfold calc_xz in He. place_tac Sx He.
  - destruct o.
    + destruct (X D1 eq_refl) as (y & Ey & Ky), (X D2 eq_refl) as (z & Ez & Kz).
    rewrite Ey, Ez in H. injection H as <-. cbn [get3] in Ky, Kz. split.
      * start Q n. rewrite <- (do_s1 _ _ _ _ Ky), <- (do_s0 _ _ _ _ Ky). rewrite <- (do_s1 _ _ _ _ Kz), <- (do_s0 _ _ _ _ Kz).
      rewrite (proj1 (calc_yz_1st_cur Ky Kz vx fy fz n)), (proj1 (calc_yz_1st_cur Ky Kz vx fy fz (v3 (c0 n) (c1 n + -1) (c2 n))%Z)).
      rewrite (proj2 (calc_yz_1st_cur Ky Kz vx fy fz n)), (proj2 (calc_yz_1st_cur Ky Kz vx fy fz (v3 (c0 n) (c1 n) (c2 n + -1))%Z)).
      cbn [c0 c1 c2]. rewrite !Sh, ?Dl. unfold avg1, avg2. rewrite <- !(pre_step Ky), <- !(pre_step Kz), Efy, Efz. finish q g.
      * rewrite Forall_forall. intros e He. unfold calc_yz_1st in He. place_tac Sx He.
    + destruct (X D1 eq_refl) as (y & Ey & Ky), (X D2 eq_refl) as (z & Ez & Kz).
    rewrite Ey, Ez in H. injection H as <-. cbn [get3] in Ky, Kz. split.
      * start Q n. rewrite <- (do_s1 _ _ _ _ Ky), <- (do_s0 _ _ _ _ Ky). rewrite <- (do_s1 _ _ _ _ Kz), <- (do_s0 _ _ _ _ Kz).
      rewrite (proj1 (calc_yz_2nd_cur y z vx fy fz n Ky Kz)), (proj1 (calc_yz_2nd_cur y z vx fy fz (v3 (c0 n) (c1 n + -1) (c2 n))%Z Ky Kz)).
      rewrite (proj2 (calc_yz_2nd_cur y z vx fy fz n Ky Kz)), (proj2 (calc_yz_2nd_cur y z vx fy fz (v3 (c0 n) (c1 n) (c2 n + -1))%Z Ky Kz)).
      cbn [c0 c1 c2]. rewrite !Sh, ?Dl. unfold avg1, avg2. rewrite <- !(pre_step Ky), <- !(pre_step Kz), Efy, Efz. finish q g.
      * rewrite Forall_forall. intros e He.  unfold calc_yz_2nd in He. apply in_yz_outer in He. destruct He as (l2 & l3 & H2 & H3 & E). apply in_full in H2, H3. intros e1. rewrite E. destruct e1; cbn [get3 invar_of z3 c0 c1 c2]; try reflexivity; (eapply Sx; [eassumption|lia]).
  - destruct o; discriminate.
  - destruct o; [discriminate|]. destruct (X D1 eq_refl) as (y & Ey & Ky).
    rewrite Ey in H. injection H as <-. cbn [get3] in Ky. split.
    + start Q n. rewrite <- (do_s1 _ _ _ _ Ky), <- (do_s0 _ _ _ _ Ky).
      rewrite (calc_y_cur Ky vx fy vz n), (calc_y_cur Ky vx fy vz (v3 (c0 n) (c1 n + -1) (c2 n))%Z).
      cbn [c0 c1 c2]. rewrite !Sh, ?Dl. unfold avg1, avg2. rewrite <- !(pre_step Ky), Efy. finish q g.
    + rewrite Forall_forall. intros e He. unfold calc_y in He. place_tac Sx He.
  - destruct o; [discriminate|]. destruct (X D2 eq_refl) as (z & Ez & Kz).
    rewrite Ez in H. injection H as <-. cbn [get3] in Kz. split.
    + start Q n. rewrite <- (do_s1 _ _ _ _ Kz), <- (do_s0 _ _ _ _ Kz).
      rewrite (calc_z_cur Kz vx vy fz n), (calc_z_cur Kz vx vy fz (v3 (c0 n) (c1 n) (c2 n + -1))%Z).
      cbn [c0 c1 c2]. rewrite !Sh, ?Dl. unfold avg1, avg2. rewrite <- !(pre_step Kz), Efz. finish q g.
    + rewrite Forall_forall. intros e He. unfold calc_z in He. place_tac Sx He.
  - destruct o; [discriminate|]. injection H as <-. split.
    + intros n. rewrite !share_get. unfold div_minus, dminus. cbn [get3 c0 c1 c2 invar_of]. ring.
    + rewrite Forall_forall. intros e He. unfold calc_1 in He. inlist He; intros e; destruct e; reflexivity.
Qed.
