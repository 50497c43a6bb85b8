(** The sum of all that is added to a component of the current. *)
From Coq Require Import Reals Lra Psatz.
From Flocq Require Import Core.
From Verif Require Import Base CollisionProofs RSum FieldModel DepositModel DepositSpec DepositProofs CurrentModel CurrentProofs EsirkModel EsirkProofs TotalSpec.
Local Open Scope R_scope.

Lemma total_app d a b : total d (a ++ b) = total d a + total d b.
Proof. unfold total. rewrite map_app. apply rsum_app. Qed.
Lemma total_nil d : total d [] = 0.
Proof. reflexivity. Qed.
Lemma total_cons d e l : total d (e :: l) = (if dim3_eqb (fst (fst e)) d then snd e else 0) + total d l.
Proof. unfold total. cbn [map]. apply rsum_cons. Qed.
Lemma total_flat {A} d (f : A -> list entry) l : total d (flat_map f l) = rsum (map (fun a => total d (f a)) l).
Proof. induction l as [|a l IH]; [reflexivity|]. cbn [flat_map map]. rewrite total_app, rsum_cons, IH. reflexivity. Qed.

Ltac tot := rewrite ?total_cons, ?total_nil; cbn [add fst snd dim3_eqb].

(** ** 1vb *)

Lemma total_one_cell g d q xm xp e : total e (one_cell g d q xm xp) = q * (cg_fnqs g / cg_dt g * get3 (cg_dx g) e) * (get3 xp e - get3 xm e).
Proof.
  unfold one_cell, dep1vb, vb_fnqs, gen3. cbv zeta. cbn [get3 c0 c1 c2].
  destruct d, e; tot; cbn [get3 c0 c1 c2]; unfold Rdiv; ring.
Qed.

Lemma total_split_dim d dim next K e : (forall xm xp, total e (next xm xp) = K * (get3 xp e - get3 xm e)) ->
  forall xm xp, total e (split_dim d dim next xm xp) = K * (get3 xp e - get3 xm e).
Proof.
  intros H xm xp. unfold split_dim. destruct (_ || _)%bool; [apply H|]. cbv zeta. rewrite total_app, !H. ring.
Qed.

Lemma scale g q e x : get3 (cg_dx g) e <> 0 -> cg_dt g <> 0 ->
  q * (cg_fnqs g / cg_dt g * get3 (cg_dx g) e) * x = q * cg_fnqs g * (x * get3 (cg_dx g) e / cg_dt g).
Proof. intros H1 H2. field. exact H2. Qed.

Lemma scale_v g q e v : get3 (cg_dx g) e <> 0 -> cg_dt g <> 0 ->
  q * (cg_fnqs g / cg_dt g * get3 (cg_dx g) e) * (/ 2 + v * cg_dt g * (1 / get3 (cg_dx g) e) - / 2) = q * cg_fnqs g * v.
Proof. intros H1 H2. field. split; assumption. Qed.

Lemma total_split g d q xm xp v e : wf_cg g -> cg_dt g <> 0 ->
  total e (calc_j_split g d q xm xp v) = q * cg_fnqs g * velocity g (invar_of (vb_dim_t d)) v xm xp e.
Proof.
  intros W T. unfold calc_j_split. destruct (invar_pos _ _ _ _ _) as [xm' xp'] eqn:E. injection E as <- <-.
  unfold split_dim_z, split_dim_y, split_dim_x. rewrite (total_split_dim _ _ _ (q * (cg_fnqs g / cg_dt g * get3 (cg_dx g) e))).
  - rewrite !get3_gen3. unfold velocity. destruct (get3 (invar_of (vb_dim_t d)) e); [apply scale_v|apply scale]; (apply W || exact T).
  - intros. apply total_split_dim. intros. apply total_split_dim. intros. apply total_one_cell.
Qed.

Lemma total_zigzag g d q xm xp v e : wf_cg g -> cg_dt g <> 0 ->
  total e (calc_j_zigzag g d q xm xp v) = q * cg_fnqs g * velocity g (invar_of (vb_dim_t d)) v xm xp e.
Proof.
  intros W T. unfold calc_j_zigzag. destruct (zigzag_pos _ _ _ _ _) as [xm' xp'] eqn:E.
  assert (K : total e (if zigzag_crossed xm' xp' then one_cell g d q xm' (zigzag_xr xm' xp') ++ one_cell g d q (zigzag_xr xm' xp') xp' else one_cell g d q xm' xp') =
    q * (cg_fnqs g / cg_dt g * get3 (cg_dx g) e) * (get3 xp' e - get3 xm' e)).
  { destruct (zigzag_crossed xm' xp'); [rewrite total_app|]; rewrite !total_one_cell; ring. }
  rewrite K. clear K. unfold velocity.
  destruct xm as [m0 m1 m2], xp as [p0 p1 p2]. 
  destruct d; unfold zigzag_pos in E; cbn in E; injection E as <- <-; destruct e; cbn [get3 c0 c1 c2 invar_of vb_dim_t];
    first [apply (scale g q D0) | apply (scale_v g q D0) | apply (scale g q D1) | apply (scale_v g q D1) | apply (scale g q D2)]; (exact T || apply W).
Qed.

Lemma total_cell3 g i x dx q e : total e (curr_3d_vb_cell g i x dx q) = q * var1_fnqs g e * get3 dx e.
Proof. unfold curr_3d_vb_cell. destruct e; tot; cbn [get3]; lra. Qed.

Lemma total_vb_run g q idiff e : forall dirs s, total e (vb_run g q idiff dirs s) = q * var1_fnqs g e * get3 (vs_dx s) e.
Proof.
  induction dirs as [|dir dirs IH]; intros s; cbn [vb_run]; [apply total_cell3|].
  unfold vb_step. cbv zeta. rewrite total_app, total_cell3, IH. unfold vb_upd. destruct e; cbn [vs_dx get3 c0 c1 c2]; ring.
Qed.

Lemma total_var1 g q xm xp lf lg v e : wf_cg g -> cg_dt g <> 0 ->
  total e (calc_j_var1 g q xm xp lf lg v) = q * cg_fnqs g * velocity g (invar_of dim_yz) v xm xp e.
Proof.
  intros W T. unfold calc_j_var1. rewrite total_vb_run. cbn [vs_dx]. unfold var1_fnqs, velocity. destruct e; cbn [get3 c0 c1 c2 invar_of].
  - field. pose proof (W D0). split; assumption.
  - field. exact T.
  - field. exact T.
Qed.

Lemma total_cell2 g i x dx q e : total e (curr_2d_vb_cell g i x dx q) = q * var1_fnqs g e * match e with D0 => 0 | D1 => fst dx | D2 => snd dx end.
Proof. unfold curr_2d_vb_cell. destruct e; tot; lra. Qed.

Lemma total_v2_run g q idiff e : forall dirs s, total e (v2_run g q idiff dirs s) = q * var1_fnqs g e * match e with D0 => 0 | D1 => fst (v2_dx s) | D2 => snd (v2_dx s) end.
Proof.
  induction dirs as [|dir dirs IH]; intros s; cbn [v2_run]; [apply total_cell2|].
  unfold v2_step. cbv zeta. rewrite total_app, total_cell2, IH. unfold v2_upd. destruct e; cbn [v2_dx fst snd]; ring.
Qed.

Lemma total_2d g q xm xp lf lg v e : cg_dt g <> 0 -> e <> D0 ->
  total e (calc_j_2d g q xm xp lf lg) = q * cg_fnqs g * velocity g (invar_of dim_yz) v xm xp e.
Proof.
  intros T N. unfold calc_j_2d. rewrite total_v2_run. cbn [v2_dx]. unfold var1_fnqs, velocity. destruct e; cbn [get3 c0 c1 c2 invar_of fst snd]; [congruence|..]; field; exact T.
Qed.

Lemma total_2d_x g q xm xp lf lg : total D0 (calc_j_2d g q xm xp lf lg) = 0.
Proof. unfold calc_j_2d. rewrite total_v2_run. ring. Qed.

(** ** Esirkepov *)

Lemma moment o um up c u F : dir_ok o um up c -> u = um \/ u = up ->
  rsum (map (fun l => F (cd_lg c + l)%Z * sh_of o (u - IZR (cd_lg c + l))) (full c)) =
  wm o u * F (coeff_l o u - 1)%Z + w0 o u * F (coeff_l o u) + wp o u * F (coeff_l o u + 1)%Z.
Proof.
  intros K Hu. pose proof (do_lo _ _ _ _ K) as L. pose proof (do_hi _ _ _ _ K) as H.
  assert (B : (cd_lg c + cd_lmin c <= coeff_l o u - (s_off o - 1) /\ coeff_l o u + 1 <= cd_lg c + cd_lmax c)%Z) by (destruct Hu; subst u; lia).
  set (lg := cd_lg c) in *.
  rewrite (rsum_ext _ (fun l => wm o u * F (lg + l)%Z * delta (coeff_l o u - 1 - lg) l + (w0 o u * F (lg + l)%Z * delta (coeff_l o u - lg) l + wp o u * F (lg + l)%Z * delta (coeff_l o u + 1 - lg) l))).
  - rewrite !rsum_plus. unfold full.
    rewrite (rsum_delta (fun l => wm o u * F (lg + l)%Z)), (rsum_delta (fun l => w0 o u * F (lg + l)%Z)), (rsum_delta (fun l => wp o u * F (lg + l)%Z)).
    replace ((cd_lmin c <=? coeff_l o u - lg) && (coeff_l o u - lg <? cd_lmax c + 1))%Z with true by (destruct o; cbn [s_off] in *; lia).
    replace ((cd_lmin c <=? coeff_l o u + 1 - lg) && (coeff_l o u + 1 - lg <? cd_lmax c + 1))%Z with true by (destruct o; cbn [s_off] in *; lia).
    replace (lg + (coeff_l o u - 1 - lg))%Z with (coeff_l o u - 1)%Z by ring. replace (lg + (coeff_l o u - lg))%Z with (coeff_l o u) by ring.
    replace (lg + (coeff_l o u + 1 - lg))%Z with (coeff_l o u + 1)%Z by ring.
    destruct o; cbn [s_off wm] in *.
    + destruct ((cd_lmin c <=? coeff_l o1st u - 1 - lg) && (coeff_l o1st u - 1 - lg <? cd_lmax c + 1))%Z; ring.
    + replace ((cd_lmin c <=? coeff_l o2nd u - 1 - lg) && (coeff_l o2nd u - 1 - lg <? cd_lmax c + 1))%Z with true by lia. ring.
  - intros l _. rewrite sh_weights. unfold delta.
    destruct (Z.eqb_spec (coeff_l o u - 1) (lg + l)), (Z.eqb_spec (coeff_l o u) (lg + l)), (Z.eqb_spec (coeff_l o u + 1) (lg + l)),
      (Z.eqb_spec (coeff_l o u - 1 - lg) l), (Z.eqb_spec (coeff_l o u - lg) l), (Z.eqb_spec (coeff_l o u + 1 - lg) l); try lia; ring.
Qed.

Lemma weights_pos o u : wp o u - wm o u = u - IZR (coeff_l o u).
Proof. destruct o; cbn [wp wm coeff_l]; cbv zeta; field. Qed.

Section Dir.
  Context {o : order} {um up : R} {c : cdir} (K : dir_ok o um up c).

  Lemma s0_val l : cd_s0 c l = sh_of o (um - IZR (cd_lg c + l)).
  Proof. rewrite <- (do_s0 _ _ _ _ K). f_equal. lia. Qed.
  Lemma s1_val l : cd_s1 c l = sh_of o (up - IZR (cd_lg c + l)) - sh_of o (um - IZR (cd_lg c + l)).
  Proof. rewrite <- (do_s0 _ _ _ _ K), <- (do_s1 _ _ _ _ K). replace (cd_lg c + l - cd_lg c)%Z with l by lia. ring. Qed.

  Lemma sum_s0 : rsum (map (cd_s0 c) (full c)) = 1.
  Proof.
    rewrite (rsum_ext _ (fun l => 1 * sh_of o (um - IZR (cd_lg c + l)))) by (intros; rewrite s0_val; ring).
    rewrite (moment o um up c um (fun _ => 1) K (or_introl eq_refl)). pose proof (weights_one o um). lra.
  Qed.

  Lemma moment_s1 : rsum (map (fun l => IZR (cd_lg c + l) * cd_s1 c l) (full c)) = up - um.
  Proof.
    rewrite (rsum_ext _ (fun l => IZR (cd_lg c + l) * sh_of o (up - IZR (cd_lg c + l)) + (-1) * (IZR (cd_lg c + l) * sh_of o (um - IZR (cd_lg c + l))))) by (intros; rewrite s1_val; ring).
    rewrite rsum_plus, rsum_mul, (moment o um up c up IZR K (or_intror eq_refl)), (moment o um up c um IZR K (or_introl eq_refl)).
    rewrite !plus_IZR, !minus_IZR. pose proof (weights_one o um). pose proof (weights_one o up). pose proof (weights_pos o um). pose proof (weights_pos o up). nra.
  Qed.

  (** summation by parts *)
  Lemma sum_pre_to b : (cd_lmin c <= b)%Z -> rsum (map (pre c) (zrange (cd_lmin c) b)) = IZR b * pre c (b - 1)%Z - rsum (map (fun l => IZR l * cd_s1 c l) (zrange (cd_lmin c) b)).
  Proof.
    intros H. pattern b. apply (Zlt_lower_bound_ind _ (cd_lmin c)); [|exact H]. clear b H. intros b IH H.
    destruct (Z.eq_dec b (cd_lmin c)) as [->|N].
    - rewrite zrange_empty by lia. rewrite pre_lo by lia. cbn. ring.
    - assert (Z1 : zrange (cd_lmin c) b = zrange (cd_lmin c) (b - 1) ++ [(b - 1)%Z]) by (rewrite <- zrange_snoc by lia; f_equal; lia). rewrite Z1. rewrite !map_app, !rsum_app. cbn [map]. rewrite !rsum_cons. change (rsum []) with 0.
      rewrite (IH (b - 1)%Z) by lia. rewrite <- (pre_step K (b - 1)%Z). rewrite !minus_IZR. ring.
  Qed.

  Lemma sum_pre ls : ls = full c \/ ls = short c -> rsum (map (pre c) ls) = - (up - um).
  Proof.
    pose proof (do_min _ _ _ _ K). pose proof (do_max _ _ _ _ K).
    assert (F : rsum (map (pre c) (full c)) = - (up - um)).
    { unfold full. rewrite sum_pre_to by lia. rewrite (pre_hi K) by lia.
      rewrite <- moment_s1. unfold full.
      rewrite (rsum_ext (fun l => IZR (cd_lg c + l) * cd_s1 c l) (fun l => IZR (cd_lg c) * cd_s1 c l + IZR l * cd_s1 c l)) by (intros; rewrite plus_IZR; ring).
      rewrite rsum_plus, rsum_mul. pose proof (do_sum _ _ _ _ K) as S. unfold full in S. rewrite S. ring. }
    intros [-> | ->]; [exact F|]. rewrite <- F. unfold full, short. rewrite zrange_snoc by lia. rewrite map_app, rsum_app. cbn [map]. rewrite rsum_cons.
    rewrite (pre_hi K) by lia. cbn. ring.
  Qed.

  Lemma sum_avg1 : rsum (map (avg1 c) (full c)) = 1.
  Proof. unfold avg1. rewrite rsum_plus, rsum_mul, sum_s0, (do_sum _ _ _ _ K). ring. Qed.
End Dir.

Lemma sum_avg2 {o1 o2 u1 p1 u2 p2 a b} : dir_ok o1 u1 p1 a -> dir_ok o2 u2 p2 b ->
  rsum (map (fun j => rsum (map (fun i => avg2 a b i j) (full a))) (full b)) = 1.
Proof.
  intros Ka Kb. rewrite (rsum_ext _ (fun j => cd_s0 b j + / 2 * cd_s1 b j)).
  - apply (sum_avg1 Kb).
  - intros j _. unfold avg2.
    rewrite (rsum_ext _ (fun i => (cd_s0 b j + / 2 * cd_s1 b j) * cd_s0 a i + (/ 2 * cd_s0 b j + 1 / 3 * cd_s1 b j) * cd_s1 a i)) by (intros; ring).
    rewrite rsum_plus, !rsum_mul, (sum_s0 Ka), (do_sum _ _ _ _ Ka). ring.
Qed.

Lemma total_jloop d w put T f b : forall k a acc, Z.to_nat (b - a)%Z = k -> (forall l v, total d (put l v) = v * T) -> 
  total d (jloop acc (fun l => f * w l) put (zrange a b)) = rsum (map (fun l => (acc - f * rsum (map w (zrange a (l + 1)))) * T) (zrange a b)).
Proof.
  induction k as [|k IH]; intros a acc Hk HT.
  - rewrite zrange_empty by lia. reflexivity.
  - rewrite (zrange_cons a b) by lia. cbn [jloop map]. rewrite total_app, rsum_cons. f_equal.
    + rewrite HT. rewrite zrange_cons, zrange_empty by lia. cbn. ring.
    + rewrite IH by (lia || exact HT). apply rsum_ext. intros l Hl. apply in_zrange in Hl. rewrite (zrange_cons a (l + 1)) by lia. cbn [map]. rewrite rsum_cons. ring.
Qed.

(** a running sum in its own direction, with a constant weight t in the others *)
Lemma total_line {o um up c} (K : dir_ok o um up c) d f t put ls : ls = full c \/ ls = short c -> (forall l v, total d (put l v) = v) ->
  total d (jloop 0 (fun l => f * (cd_s1 c l * t)) put ls) = f * (up - um) * t.
Proof.
  intros Hl HT.
  assert (G : forall b, total d (jloop 0 (fun l => f * (cd_s1 c l * t)) put (zrange (cd_lmin c) b)) = - (f * t) * rsum (map (pre c) (zrange (cd_lmin c) b))).
  { intros b. rewrite (total_jloop d (fun l => cd_s1 c l * t) put 1 f b _ _ _ eq_refl) by (intros; rewrite HT; ring).
    rewrite <- rsum_mul. apply rsum_ext. intros l _. rewrite (rsum_ext _ (fun l => t * cd_s1 c l)) by (intros; ring). rewrite rsum_mul. unfold pre. ring. }
  destruct Hl as [-> | ->]; unfold full, short; rewrite G; fold (full c); fold (short c).
  - rewrite (sum_pre K) by (left; reflexivity). ring.
  - rewrite (sum_pre K) by (right; reflexivity). ring.
Qed.

Lemma total_line0 d w put : forall ls acc, (forall l v, total d (put l v) = 0) -> total d (jloop acc w put ls) = 0.
Proof. induction ls as [|l ls IH]; intros acc H; cbn [jloop]; [reflexivity|]. rewrite total_app, H, IH by exact H. ring. Qed.

(** values that do not depend on the running sum *)
Lemma total_aside d w put F : forall ls acc, (forall l v, total d (put l v) = F l) -> total d (jloop acc w put ls) = rsum (map F ls).
Proof. induction ls as [|l ls IH]; intros acc H; cbn [jloop map]; [reflexivity|]. rewrite total_app, H, IH, rsum_cons by exact H. reflexivity. Qed.

Lemma total_flat0 {A} d (f : A -> list entry) l : (forall a, total d (f a) = 0) -> total d (flat_map f l) = 0.
Proof. intros H. rewrite total_flat. apply rsum_zero. intros; apply H. Qed.

Ltac tone := intros; tot; ring.
Ltac none := first [apply total_flat0; intros; none | apply total_line0; tone | tone].

Section Calc.
  Context {o : order} {x y z : cdir} {x0 x1 y0 y1 z0 z1 : R}.
  Hypothesis (Kx : dir_ok o x0 x1 x) (Ky : dir_ok o y0 y1 y) (Kz : dir_ok o z0 z1 z).
  Variables fx fy fz : R.

  Lemma t_y e : total e (calc_y y fx fy fz) = match e with D0 => fx | D1 => fy * (y1 - y0) | D2 => fz end.
  Proof.
    unfold calc_y. destruct e.
    - rewrite (total_aside _ _ _ (fun l => fx * avg1 y l)) by tone. rewrite rsum_mul, (sum_avg1 Ky). ring.
    - rewrite <- (Rmult_1_r (fy * _)). rewrite <- (total_line Ky D1 fy 1 (fun l2 jyh => [ add D0 0 (cd_lg y + l2) 0 (fx * avg1 y l2); add D1 0 (cd_lg y + l2) 0 jyh; add D2 0 (cd_lg y + l2) 0 (fz * avg1 y l2) ]) (full y)); [|left; reflexivity|tone].
      f_equal. clear. generalize 0. induction (full y) as [|l ls IH]; intros a; cbn [jloop]; [reflexivity|]. rewrite (Rmult_1_r (cd_s1 y l)). f_equal. apply IH.
    - rewrite (total_aside _ _ _ (fun l => fz * avg1 y l)) by tone. rewrite rsum_mul, (sum_avg1 Ky). ring.
  Qed.

  Lemma t_z e : total e (calc_z z fx fy fz) = match e with D0 => fx | D1 => fy | D2 => fz * (z1 - z0) end.
  Proof.
    unfold calc_z. destruct e.
    - rewrite (total_aside _ _ _ (fun l => fx * avg1 z l)) by tone. rewrite rsum_mul, (sum_avg1 Kz). ring.
    - rewrite (total_aside _ _ _ (fun l => fy * avg1 z l)) by tone. rewrite rsum_mul, (sum_avg1 Kz). ring.
    - rewrite <- (Rmult_1_r (fz * _)). rewrite <- (total_line Kz D2 fz 1 (fun l3 jzh => [ add D0 0 0 (cd_lg z + l3) (fx * avg1 z l3); add D1 0 0 (cd_lg z + l3) (fy * avg1 z l3); add D2 0 0 (cd_lg z + l3) jzh ]) (full z)); [|left; reflexivity|tone].
      f_equal. clear. generalize 0. induction (full z) as [|l ls IH]; intros a; cbn [jloop]; [reflexivity|]. rewrite (Rmult_1_r (cd_s1 z l)). f_equal. apply IH.
  Qed.

  (** a line for every point of another direction *)
  Lemma t_line_avg1 {u0 u1 w0 w1 a b} (Ka : dir_ok o u0 u1 a) (Kb : dir_ok o w0 w1 b) d f put ls : ls = full a \/ ls = short a -> (forall m l v, total d (put m l v) = v) ->
    total d (flat_map (fun m => jloop 0 (fun l => f * (cd_s1 a l * avg1 b m)) (put m) ls) (full b)) = f * (u1 - u0).
  Proof.
    intros Hl HT. rewrite total_flat. rewrite (rsum_ext _ (fun m => f * (u1 - u0) * avg1 b m)) by (intros m _; apply (total_line Ka); [exact Hl|apply HT]).
    rewrite rsum_mul, (sum_avg1 Kb). ring.
  Qed.

  Lemma t_line_avg2 {u0 u1 w0 w1 v0 v1 a b c} (Ka : dir_ok o u0 u1 a) (Kb : dir_ok o w0 w1 b) (Kc : dir_ok o v0 v1 c) d f put : (forall m n l v, total d (put m n l v) = v) ->
    total d (flat_map (fun m => flat_map (fun n => jloop 0 (fun l => f * (cd_s1 a l * avg2 b c n m)) (put m n) (full a)) (full b)) (full c)) = f * (u1 - u0).
  Proof.
    intros HT. rewrite total_flat. rewrite (rsum_ext _ (fun m => f * (u1 - u0) * rsum (map (fun n => avg2 b c n m) (full b)))).
    - rewrite rsum_mul, (sum_avg2 Kb Kc). ring.
    - intros m _. rewrite total_flat, <- rsum_mul. apply rsum_ext. intros n _. apply (total_line Ka); [left; reflexivity|apply HT].
  Qed.

  Lemma t_plane {u0 u1 w0 w1 a b} (Ka : dir_ok o u0 u1 a) (Kb : dir_ok o w0 w1 b) d f put : (forall m l v, total d (put m l v) = v) ->
    total d (flat_map (fun m => flat_map (fun l => put m l (f * avg2 a b l m)) (full a)) (full b)) = f.
  Proof.
    intros HT. rewrite total_flat. rewrite (rsum_ext _ (fun m => f * rsum (map (fun l => avg2 a b l m) (full a)))).
    - rewrite rsum_mul, (sum_avg2 Ka Kb). ring.
    - intros m _. rewrite total_flat, <- rsum_mul. apply rsum_ext. intros l _. apply HT.
  Qed.

  Lemma t_xy e : total e (calc_xy x y fx fy fz) = match e with D0 => fx * (x1 - x0) | D1 => fy * (y1 - y0) | D2 => fz end.
  Proof.
    unfold calc_xy. rewrite total_app. destruct e.
    - rewrite (t_line_avg1 Kx Ky D0 fx (fun l2 l1 jxh => [ add D0 (cd_lg x + l1) (cd_lg y + l2) 0 jxh; add D2 (cd_lg x + l1) (cd_lg y + l2) 0 (fz * avg2 x y l1 l2) ])); [|left; reflexivity|tone].
      rewrite total_flat0; [ring|intros; apply total_line0; tone].
    - rewrite total_flat0 by (intros; apply total_line0; tone).
      rewrite (t_line_avg1 Ky Kx D1 fy (fun l1 l2 jyh => [ add D1 (cd_lg x + l1) (cd_lg y + l2) 0 jyh ])); [ring|left; reflexivity|tone].
    - rewrite (total_flat0 D2 _ (full x)) by (intros; apply total_line0; tone). rewrite Rplus_0_r, total_flat.
      rewrite (rsum_ext _ (fun l2 => fz * rsum (map (fun l1 => avg2 x y l1 l2) (full x)))).
      + rewrite rsum_mul, (sum_avg2 Kx Ky). ring.
      + intros l2 _. rewrite <- rsum_mul. apply total_aside. tone.
  Qed.

  Lemma t_xz e : total e (calc_xz x z fx fy fz) = match e with D0 => fx * (x1 - x0) | D1 => fy | D2 => fz * (z1 - z0) end.
  Proof.
    unfold calc_xz. rewrite !total_app. destruct e.
    - apply pick1; [none|none|]. apply (t_line_avg1 Kx Kz D0 fx (fun l3 l1 jxh => [ add D0 (cd_lg x + l1) 0 (cd_lg z + l3) jxh ])); [right; reflexivity|tone].
    - apply pick2; [none|none|]. apply (t_plane Kx Kz D1 fy (fun l3 l1 v => [ add D1 (cd_lg x + l1) 0 (cd_lg z + l3) v ])). tone.
    - apply pick3; [none|none|]. apply (t_line_avg1 Kz Kx D2 fz (fun l1 l3 jzh => [ add D2 (cd_lg x + l1) 0 (cd_lg z + l3) jzh ])); [right; reflexivity|tone].
  Qed.

  Lemma t_yz_1st e : total e (calc_yz_1st y z fx fy fz) = match e with D0 => fx | D1 => fy * (y1 - y0) | D2 => fz * (z1 - z0) end.
  Proof.
    unfold calc_yz_1st. rewrite !total_app. destruct e.
    - apply pick1; [none|none|]. apply (t_plane Ky Kz D0 fx (fun l3 l2 v => [ add D0 0 (cd_lg y + l2) (cd_lg z + l3) v ])). tone.
    - apply pick2; [none|none|]. apply (t_line_avg1 Ky Kz D1 fy (fun l3 l2 jyh => [ add D1 0 (cd_lg y + l2) (cd_lg z + l3) jyh ])); [right; reflexivity|tone].
    - apply pick3; [none|none|]. apply (t_line_avg1 Kz Ky D2 fz (fun l2 l3 jzh => [ add D2 0 (cd_lg y + l2) (cd_lg z + l3) jzh ])); [right; reflexivity|tone].
  Qed.

  Lemma t_xyz e : total e (calc_xyz x y z fx fy fz) = match e with D0 => fx * (x1 - x0) | D1 => fy * (y1 - y0) | D2 => fz * (z1 - z0) end.
  Proof.
    unfold calc_xyz. rewrite !total_app. destruct e.
    - apply pick1; [none|none|]. apply (t_line_avg2 Kx Ky Kz D0 fx (fun l3 l2 l1 jxh => [ add D0 (cd_lg x + l1) (cd_lg y + l2) (cd_lg z + l3) jxh ])). tone.
    - apply pick2; [none|none|]. apply (t_line_avg2 Ky Kx Kz D1 fy (fun l3 l1 l2 jyh => [ add D1 (cd_lg x + l1) (cd_lg y + l2) (cd_lg z + l3) jyh ])). tone.
    - apply pick3; [none|none|]. apply (t_line_avg2 Kz Kx Ky D2 fz (fun l2 l1 l3 jzh => [ add D2 (cd_lg x + l1) (cd_lg y + l2) (cd_lg z + l3) jzh ])). tone.
  Qed.

  (** the variant with an array of running sums *)
  Lemma t_yz_inner l3 k : forall l2s jyh jzh, NoDup l2s -> (forall l, In l l2s -> jzh l = k * avg1 y l) ->
    let '(r, jzh') := calc_yz_inner y z fx fy fz l3 jyh jzh l2s in
    (forall l, In l l2s -> jzh' l = (k - fz * cd_s1 z l3) * avg1 y l) /\ (forall l, ~ In l l2s -> jzh' l = jzh l) /\
    total D0 r = rsum (map (fun l2 => fx * avg2 y z l2 l3) l2s) /\
    total D1 r = total D1 (jloop jyh (fun l2 => fy * (cd_s1 y l2 * avg1 z l3)) (fun l2 v => [ add D1 0 (cd_lg y + l2) (cd_lg z + l3) v ]) l2s) /\
    total D2 r = rsum (map (fun l2 => (k - fz * cd_s1 z l3) * avg1 y l2) l2s).
  Proof.
    induction l2s as [|l2 l2s IH]; intros jyh jzh ND H; cbn [calc_yz_inner].
    - split; [intros l []|]. repeat split; reflexivity.
    - inversion ND as [|? ? N ND']; subst.
      set (jyh' := jyh - fy * (cd_s1 y l2 * avg1 z l3)). set (jz := jzh l2 - fz * (cd_s1 z l3 * avg1 y l2)). set (jzh1 := fun l => if (l =? l2)%Z then jz else jzh l).
      assert (Ejz : jz = (k - fz * cd_s1 z l3) * avg1 y l2) by (unfold jz; rewrite (H l2 (or_introl eq_refl)); ring).
      specialize (IH jyh' jzh1 ND'). destruct (calc_yz_inner y z fx fy fz l3 jyh' jzh1 l2s) as [r jzh'].
      destruct IH as (I1 & I2 & I3 & I4 & I5).
      { intros l Hl. unfold jzh1. destruct (Z.eqb_spec l l2) as [->|]; [contradiction|]. apply H. now right. }
      split; [|split; [|split; [|split]]].
      + intros l [<-|Hl]; [|apply I1; exact Hl]. rewrite (I2 l2 N). unfold jzh1. rewrite Z.eqb_refl. exact Ejz.
      + intros l Hl. rewrite (I2 l) by (intros X; apply Hl; now right). unfold jzh1. destruct (Z.eqb_spec l l2) as [->|]; [exfalso; apply Hl; now left|reflexivity].
      + rewrite total_app, I3. cbn [map]. rewrite rsum_cons. tot. ring.
      + rewrite total_app. cbn [jloop]. fold jyh'. rewrite total_app, I4. f_equal. tot. ring.
      + rewrite total_app, I5. cbn [map]. rewrite rsum_cons. f_equal. tot. rewrite Ejz. ring.
  Qed.

  Lemma t_yz_outer b : forall m a k jzh, Z.to_nat (b - a)%Z = m -> (forall l, In l (full y) -> jzh l = k * avg1 y l) ->
    let r := calc_yz_outer y z fx fy fz jzh (zrange a b) in
    total D0 r = rsum (map (fun l3 => rsum (map (fun l2 => fx * avg2 y z l2 l3) (full y))) (zrange a b)) /\
    total D1 r = rsum (map (fun l3 => fy * (y1 - y0) * avg1 z l3) (zrange a b)) /\
    total D2 r = rsum (map (fun l3 => k - fz * rsum (map (cd_s1 z) (zrange a (l3 + 1)%Z))) (zrange a b)).
  Proof.
    induction m as [|m IH]; intros a k jzh Hm H.
    - rewrite zrange_empty by lia. repeat split; reflexivity.
    - rewrite (zrange_cons a b) by lia. cbn [calc_yz_outer map]. cbv zeta.
      pose proof (t_yz_inner a k (full y) 0 jzh (NoDup_zrange _ _) H) as I. destruct (calc_yz_inner y z fx fy fz a 0 jzh (full y)) as [r jzh'].
      destruct I as (I1 & _ & I3 & I4 & I5). destruct (IH (a + 1)%Z (k - fz * cd_s1 z a) jzh' ltac:(lia) I1) as (J1 & J2 & J3).
      rewrite !total_app, !rsum_cons, I3, I4, I5, J1, J2, J3. split; [reflexivity|]. split; f_equal.
      + apply (total_line Ky); [left; reflexivity|tone].
      + rewrite rsum_mul, (sum_avg1 Ky), zrange_cons, zrange_empty by lia. cbn. ring.
      + apply rsum_ext. intros l3 Hl. apply in_zrange in Hl. rewrite (zrange_cons a (l3 + 1)) by lia. cbn [map]. rewrite rsum_cons. ring.
  Qed.

  Lemma t_yz_2nd e : total e (calc_yz_2nd y z fx fy fz) = match e with D0 => fx | D1 => fy * (y1 - y0) | D2 => fz * (z1 - z0) end.
  Proof.
    unfold calc_yz_2nd. unfold full at 1. destruct (t_yz_outer (cd_lmax z + 1) _ (cd_lmin z) 0 (fun _ => 0) eq_refl) as (T0 & T1 & T2); [intros; ring|]. destruct e.
    - rewrite T0. fold (full z). rewrite (rsum_ext _ (fun l3 => fx * rsum (map (fun l2 => avg2 y z l2 l3) (full y)))) by (intros; apply rsum_mul).
      rewrite rsum_mul, (sum_avg2 Ky Kz). ring.
    - rewrite T1. fold (full z). rewrite rsum_mul, (sum_avg1 Kz). ring.
    - rewrite T2. rewrite (rsum_ext _ (fun l3 => - fz * pre z l3)) by (intros; unfold pre; ring). fold (full z). rewrite rsum_mul, (sum_pre Kz) by (left; reflexivity). ring.
  Qed.
End Calc.

Lemma total_esirk o d g q xm xp v l e : cg_dt g <> 0 -> closes o (invar_of d) xm xp -> calc_esirk o d g q xm xp v = Some l ->
  total e l = q * cg_fnqs g * velocity g (invar_of d) v xm xp e.
Proof.
  intros T C E.
  assert (X : forall e c, get3 (invar_of d) e = false -> current_dir o (get3 xm e) (get3 xp e) = Some c -> dir_ok o (get3 xm e) (get3 xp e) c).
  { intros e' c He Hc. destruct (current_dir_ok o _ _ (C e' He)) as (c' & E' & K). rewrite Hc in E'. injection E' as ->. exact K. }
  unfold calc_esirk in E. unfold velocity.
  destruct o, d; try discriminate E; cbv zeta beta iota in E;
    repeat match type of E with context [current_dir ?o (get3 xm ?k) ?b] => let Hc := fresh "Hc" in let cd := fresh "cd" in destruct (current_dir o (get3 xm k) b) as [cd|] eqn:Hc; [apply (X k _ eq_refl) in Hc|discriminate E] end;
    injection E as <-;
    first [ rewrite (t_xyz Hc Hc0 Hc1) | rewrite (t_xz Hc Hc0) | rewrite (t_yz_1st Hc Hc0) | rewrite (t_yz_2nd Hc Hc0) | rewrite (t_xy Hc Hc0) | rewrite (t_y Hc) | rewrite (t_z Hc) | unfold calc_1 ];
    destruct e; cbn [get3 c0 c1 c2 invar_of]; tot; unfold es_fnq, es_fnqv; cbn [get3]; first [ring | field; exact T].
Qed.
