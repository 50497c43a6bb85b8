(** Proofs about heating. *)
From Coq Require Import Reals Lra Permutation.
From Flocq Require Import Core.
From Verif Require Import Base Arr RSum MomentModel CudaPrtModel CudaPrtSpec CudaPrtProofs CudaLaunchModel CudaLaunchSpec CudaLaunchProofs CudaPushProofs CudaCollModel CudaCollProofs CudaMomModel CudaMomProofs HeatModel HeatSpec BalanceCommProofs UidProofs SetupProofs GhostProofs.
Local Open Scope Z_scope.

(** ** The spot *)

Lemma strength_nonneg s k : spot_ok s -> (0 <= strength s k)%R.
Proof.
  intros (_ & HT & Hz & HM). unfold strength. destruct (aget (h_T s) k) as [T|] eqn:E; [|lra].
  specialize (HT T (aget_In _ _ _ E)). unfold Rdiv. apply Rmult_le_pos.
  - apply Rmult_le_pos; [lra|]. apply Rmult_le_pos; [exact HT|apply sqrt_pos].
  - left. apply Rinv_0_lt_compat. apply Rmult_lt_0_compat; [apply sqrt_lt_R0; exact HM|lra].
Qed.

Lemma fac_strength s k : spot_ok s -> 0 <= k < alen (h_T s) -> spot_fac s k = Some (strength s k).
Proof.
  intros (HN & _) Hk. unfold spot_fac, strength, heating_max_n_kinds. replace (alen (h_T s) <? 10) with true by lia.
  destruct (aget_some (h_T s) k Hk) as [T ->]. reflexivity.
Qed.

Lemma gauss_xyz s x y : h_yz s = false -> exp (- (sq x + sq y) / sq (h_rH s)) = gauss s x y.
Proof. intros E. unfold gauss, sq, Rsqr. rewrite E. f_equal. unfold Rdiv. ring. Qed.
Lemma gauss_yz s x y : h_yz s = true -> exp (- sq y / sq (h_rH s)) = gauss s x y.
Proof. intros E. unfold gauss, sq, Rsqr. rewrite E. f_equal. unfold Rdiv. ring. Qed.

Lemma H_rate s crd k : spot_ok s -> 0 <= k < alen (h_T s) -> spot_H s crd k = Some (rate s (c0 crd) (c1 crd) (c2 crd) k).
Proof.
  intros ok Hk. unfold spot_H. rewrite (fac_strength s k ok Hk). f_equal. unfold rate.
  destruct (Req_EM_T (strength s k) 0) as [E0|N0].
  { rewrite E0, Rmult_0_l. destruct (Rlt_dec _ _); [|reflexivity]. destruct (Rlt_dec _ _); [|reflexivity]. destruct (Req_EM_T _ _); reflexivity. }
  destruct (Rle_dec (c2 crd) (h_zl s)), (Rlt_dec (h_zl s) (c2 crd)); try (exfalso; lra); [reflexivity|].
  destruct (Rle_dec (h_zh s) (c2 crd)), (Rlt_dec (c2 crd) (h_zh s)); try (exfalso; lra); [reflexivity|].
  destruct (Req_EM_T (h_rH s) 0); [reflexivity|].
  destruct (h_yz s) eqn:Y.
  - unfold shape_yz. cbv zeta. rewrite !(gauss_yz s (c0 crd - (h_xc s + IZR 0 * h_Lx s)) _ Y).
    cbn [flat_map map app]. rewrite !rsum_cons. cbn [rsum fold_right].
    replace (c1 crd - (h_yc s + -1 * h_Ly s))%R with (c1 crd - (h_yc s - h_Ly s))%R by ring.
    replace (c1 crd - (h_yc s + 0 * h_Ly s))%R with (c1 crd - h_yc s)%R by ring.
    replace (c1 crd - (h_yc s + 1 * h_Ly s))%R with (c1 crd - (h_yc s + h_Ly s))%R by ring. ring.
  - unfold shape_xyz. cbv zeta. rewrite !(gauss_xyz s _ _ Y).
    cbn [flat_map map app]. rewrite !rsum_cons. cbn [rsum fold_right].
    replace (c1 crd - (h_yc s + -1 * h_Ly s))%R with (c1 crd - (h_yc s - h_Ly s))%R by ring.
    replace (c1 crd - (h_yc s + 0 * h_Ly s))%R with (c1 crd - h_yc s)%R by ring.
    replace (c1 crd - (h_yc s + 1 * h_Ly s))%R with (c1 crd - (h_yc s + h_Ly s))%R by ring.
    replace (c0 crd - (h_xc s + -1 * h_Lx s))%R with (c0 crd - (h_xc s - h_Lx s))%R by ring.
    replace (c0 crd - (h_xc s + 0 * h_Lx s))%R with (c0 crd - h_xc s)%R by ring.
    replace (c0 crd - (h_xc s + 1 * h_Lx s))%R with (c0 crd - (h_xc s + h_Lx s))%R by ring. ring.
Qed.

Lemma gauss_range s x y : (0 < gauss s x y)%R /\ (gauss s x y <= 1 \/ h_rH s = 0)%R.
Proof.
  split; [apply exp_pos|]. destruct (Req_EM_T (h_rH s) 0) as [E|N]; [right; exact E|left].
  unfold gauss. rewrite <- exp_0. assert (H : (0 <= ((if h_yz s then 0 else Rsqr x) + Rsqr y) / Rsqr (h_rH s))%R).
  { apply Rmult_le_pos; [|left; apply Rinv_0_lt_compat, Rsqr_pos_lt; exact N].
    pose proof (Rle_0_sqr x). pose proof (Rle_0_sqr y). destruct (h_yz s); lra. }
  destruct H as [H|H]; [left; apply exp_increasing; lra|right; f_equal; lra].
Qed.

Lemma rsum_bounds l : (forall x, In x l -> 0 < x <= 1)%R -> (0 <= rsum l <= IZR (alen l))%R.
Proof.
  induction l as [|a l IH]; intros H; [cbn; lra|]. rewrite rsum_cons. unfold alen in *. cbn [length].
  rewrite Nat2Z.inj_succ, succ_IZR. specialize (H a (or_introl eq_refl)) as Ha.
  specialize (IH (fun x Hx => H x (or_intror Hx))). lra.
Qed.

Lemma rate_bounds s x y z k : spot_ok s -> (0 <= rate s x y z k <= (if h_yz s then 3 else 9) * strength s k)%R.
Proof.
  intros ok. pose proof (strength_nonneg s k ok) as Hs. unfold rate.
  assert (C : (1 <= (if h_yz s then 3 else 9))%R) by (destruct (h_yz s); lra).
  destruct (Rlt_dec _ _); [|split; [lra|apply Rmult_le_pos; lra]]. destruct (Rlt_dec _ _); [|split; [lra|apply Rmult_le_pos; lra]].
  destruct (Req_EM_T _ _) as [E|N].
  { split; [exact Hs|]. rewrite <- (Rmult_1_l (strength s k)) at 1. apply Rmult_le_compat_r; assumption. }
  match goal with |- context [rsum ?l] => set (L := l) end.
  assert (B : (0 <= rsum L <= IZR (alen L))%R).
  { apply rsum_bounds. intros v Hv. unfold L in Hv. apply in_flat_map in Hv. destruct Hv as (i & _ & Hv). apply in_map_iff in Hv. destruct Hv as (j & <- & _).
    match goal with |- context [gauss s ?a ?b] => destruct (gauss_range s a b) as [G1 [G2|G2]] end; [lra|contradiction]. }
  assert (A : IZR (alen L) = (if h_yz s then 3 else 9)%R) by (unfold L; destruct (h_yz s); reflexivity).
  rewrite A in B. split; [apply Rmult_le_pos; lra|]. rewrite (Rmult_comm _ (strength s k)). apply Rmult_le_compat_l; lra.
Qed.

(** the two sides of a periodic domain *)
Lemma exp_le a b : (a <= b)%R -> (exp a <= exp b)%R.
Proof. intros [H|H]; [left; apply exp_increasing; exact H|right; f_equal; exact H]. Qed.

Lemma seam s x z k : spot_ok s -> h_yz s = true -> h_rH s <> 0%R -> (0 <= h_yc s <= h_Ly s)%R ->
  (Rabs (rate s x (h_Ly s) z k - rate s x 0 z k) <= strength s k * exp (- (Rsqr (h_Ly s) / Rsqr (h_rH s))))%R.
Proof.
  intros ok Y Hr Hy. pose proof (strength_nonneg s k ok) as Hs. pose proof (exp_pos (- (Rsqr (h_Ly s) / Rsqr (h_rH s)))) as He.
  assert (Z0 : (0 <= strength s k * exp (- (Rsqr (h_Ly s) / Rsqr (h_rH s))))%R) by (apply Rmult_le_pos; lra).
  unfold rate. destruct (Rlt_dec _ _); [|rewrite Rminus_0_r, Rabs_R0; exact Z0]. destruct (Rlt_dec _ _); [|rewrite Rminus_0_r, Rabs_R0; exact Z0].
  destruct (Req_EM_T _ _) as [E|N]; [contradiction|]. rewrite Y. cbn [flat_map map app]. rewrite !rsum_cons. cbn [rsum fold_right].
  unfold gauss. rewrite Y. set (e := fun y : R => exp (- ((0 + Rsqr y) / Rsqr (h_rH s)))).
  assert (E1 : forall a b, (Rsqr a = Rsqr b) -> e a = e b) by (intros a b E; unfold e; rewrite E; reflexivity).
  assert (E2 : forall a, (Rsqr (h_Ly s) <= Rsqr a)%R -> (e a <= exp (- (Rsqr (h_Ly s) / Rsqr (h_rH s))))%R).
  { intros a Ha. unfold e. apply exp_le. rewrite Rplus_0_l. apply Ropp_le_contravar. apply Rmult_le_compat_r; [|exact Ha].
    left. apply Rinv_0_lt_compat, Rsqr_pos_lt. exact Hr. }
  change (Rabs (strength s k * (e (h_Ly s - (h_yc s + -1 * h_Ly s)) + (e (h_Ly s - (h_yc s + 0 * h_Ly s)) + (e (h_Ly s - (h_yc s + 1 * h_Ly s)) + 0))) -
     strength s k * (e (0 - (h_yc s + -1 * h_Ly s)) + (e (0 - (h_yc s + 0 * h_Ly s)) + (e (0 - (h_yc s + 1 * h_Ly s)) + 0)))) <= strength s k * exp (- (Rsqr (h_Ly s) / Rsqr (h_rH s))))%R.
  rewrite (E1 (h_Ly s - (h_yc s + 0 * h_Ly s)) (0 - (h_yc s + -1 * h_Ly s)))%R by (unfold Rsqr; ring).
  rewrite (E1 (h_Ly s - (h_yc s + 1 * h_Ly s)) (0 - (h_yc s + 0 * h_Ly s)))%R by (unfold Rsqr; ring).
  pose proof (E2 (h_Ly s - (h_yc s + -1 * h_Ly s)))%R as A1. pose proof (E2 (0 - (h_yc s + 1 * h_Ly s)))%R as A2.
  assert (B1 : (Rsqr (h_Ly s) <= Rsqr (h_Ly s - (h_yc s + -1 * h_Ly s)))%R) by (apply Rsqr_incr_1; lra).
  assert (B2 : (Rsqr (h_Ly s) <= Rsqr (0 - (h_yc s + 1 * h_Ly s)))%R).
  { replace (0 - (h_yc s + 1 * h_Ly s))%R with (- (h_yc s + h_Ly s))%R by ring. rewrite <- Rsqr_neg. apply Rsqr_incr_1; lra. }
  specialize (A1 B1). specialize (A2 B2).
  assert (P1 : (0 < e (h_Ly s - (h_yc s + -1 * h_Ly s)))%R) by apply exp_pos. assert (P2 : (0 < e (0 - (h_yc s + 1 * h_Ly s)))%R) by apply exp_pos.
  set (a := e _) in *. set (b := e (0 - (h_yc s + 1 * h_Ly s))%R) in *. set (m := e (0 - (h_yc s + -1 * h_Ly s))%R). set (q := e (0 - (h_yc s + 0 * h_Ly s))%R).
  replace (strength s k * (a + (m + (q + 0))) - strength s k * (m + (q + (b + 0))))%R with (strength s k * (a - b))%R by ring.
  rewrite Rabs_mult, (Rabs_pos_eq _ Hs). apply Rmult_le_compat_l; [exact Hs|]. apply Rabs_le. lra.
Qed.

(** ** Random numbers *)

Lemma ran_lt1 n : 0 <= n < 2 ^ 31 -> (0 <= ran n <= 1)%R /\ ((ran n < 1)%R -> (ran n <= 1 - / 2 ^ 24)%R).
Proof.
  intros Hn. assert (V : Valid_exp (FLT_exp (-149) 24)) by (apply FLT_exp_valid; reflexivity).
  assert (B31 : IZR (2 ^ 31) = bpow radix2 31) by reflexivity.
  assert (F31 : generic_format radix2 (FLT_exp (-149) 24) (bpow radix2 31)) by (apply generic_format_bpow; vm_compute; discriminate).
  assert (P : (0 < IZR (2 ^ 31))%R) by (apply IZR_lt; reflexivity).
  assert (R0 : (0 <= to_float (IZR n))%R) by (unfold to_float; apply round_ge_generic; [typeclasses eauto|typeclasses eauto|apply generic_format_0|apply IZR_le; lia]).
  assert (R1 : (to_float (IZR n) <= IZR (2 ^ 31))%R) by (unfold to_float; rewrite B31; apply round_le_generic; [typeclasses eauto|typeclasses eauto|exact F31|rewrite <- B31; apply IZR_le; lia]).
  unfold ran. split.
  - split; [apply Rmult_le_pos; [exact R0|left; apply Rinv_0_lt_compat; exact P]|]. apply (Rmult_le_reg_r (IZR (2 ^ 31))); [exact P|]. unfold Rdiv. rewrite Rmult_assoc, Rinv_l by lra. lra.
  - intros L. assert (L' : (to_float (IZR n) < bpow radix2 31)%R).
    { rewrite <- B31. apply (Rmult_lt_reg_r (/ IZR (2 ^ 31))); [apply Rinv_0_lt_compat; exact P|]. rewrite Rinv_r by lra. exact L. }
    assert (G : (to_float (IZR n) <= pred radix2 (FLT_exp (-149) 24) (bpow radix2 31))%R).
    { apply pred_ge_gt; [exact V|unfold to_float; apply generic_format_round; typeclasses eauto|exact F31|exact L']. }
    rewrite pred_bpow in G. change (FLT_exp (-149) 24 31) with 7 in G.
    apply (Rmult_le_reg_r (IZR (2 ^ 31))); [exact P|]. unfold Rdiv. rewrite Rmult_assoc, Rinv_l by lra. rewrite Rmult_1_r.
    replace ((1 - / 2 ^ 24) * IZR (2 ^ 31))%R with (bpow radix2 31 - bpow radix2 7)%R; [exact G|].
    change (bpow radix2 31) with 2147483648%R. change (bpow radix2 7) with 128%R. change (IZR (2 ^ 31)) with 2147483648%R. field.
Qed.

Lemma normal_bound a b : (0 <= a <= 1 - / 2 ^ 24)%R -> (Rabs (sqrt (2 * ln (/ (1 - a))) * cos b) <= sqrt (48 * ln 2))%R.
Proof.
  intros Ha. rewrite Rabs_mult. rewrite <- (Rmult_1_r (sqrt (48 * ln 2))). apply Rmult_le_compat; [apply Rabs_pos|apply Rabs_pos| |].
  - rewrite Rabs_pos_eq by apply sqrt_pos. apply sqrt_le_1_alt. replace (48 * ln 2)%R with (2 * ln (2 ^ 24))%R by (rewrite ln_pow by lra; replace (INR 24) with 24%R by (cbn; lra); ring).
    assert (P : (0 < / 2 ^ 24)%R) by (apply Rinv_0_lt_compat, pow_lt; lra).
    apply Rmult_le_compat_l; [lra|]. assert (I : (/ (1 - a) <= 2 ^ 24)%R) by (rewrite <- (Rinv_inv (2 ^ 24)); apply Rinv_le_contravar; lra).
    destruct I as [I|I]; [left; apply ln_increasing; [apply Rinv_0_lt_compat; lra|exact I]|right; rewrite I; reflexivity].
  - apply Rabs_le. apply COS_bound.
Qed.

Lemma ran_normal_is a b : (a < 1)%R -> ran_normal a b = (sqrt (2 * ln (/ (1 - a))) * cos (2 * PI * b))%R.
Proof. intros H. unfold ran_normal. rewrite ln_Rinv by lra. f_equal. f_equal. ring. Qed.

(** accepted: all six below 1 *)
Lemma ran_ok_iff d : ran_ok d = true <-> forall k, 0 <= k < 6 -> (ran (d k) < 1)%R.
Proof.
  unfold ran_ok. rewrite forallb_forall. split; intros H k Hk.
  - specialize (H k (proj2 (in_zrange _ _ _) Hk)). destruct (Rlt_dec _ _); [assumption|discriminate].
  - apply in_zrange in Hk. destruct (Rlt_dec _ _) as [|N]; [reflexivity|]. exfalso. apply N, H. exact Hk.
Qed.

Lemma draw_loop_ok rounds : (exists d, In d rounds /\ ran_ok d = true) -> exists l d l', rounds = l ++ d :: l' /\ draw_loop rounds = Some d /\ ran_ok d = true /\ (forall e, In e l -> ran_ok e = false).
Proof.
  induction rounds as [|e r IH]; intros (d & Hd & A); [destruct Hd|]. cbn [draw_loop]. destruct (ran_ok e) eqn:E.
  - exists [], e, r. repeat split; try assumption. intros ? [].
  - destruct Hd as [<-|Hd]; [congruence|]. destruct (IH (ex_intro _ d (conj Hd A))) as (l & d' & l' & -> & D & A' & N). exists (e :: l), d', l'.
    repeat split; try assumption. intros e' [<-|He]; [exact E|apply N; exact He].
Qed.

Lemma add_u_heated s hdt xb r x H : H = rate_at s xb x -> heated s hdt xb r x (add_u x (sqrt (H * hdt)) r).
Proof.
  intros ->. unfold heated, add_u, rate_at. cbn [mp_x mp_u mp_kind mp_qw]. repeat split. intros d. rewrite get3_gen3. reflexivity.
Qed.

Lemma heated_zero s hdt xb r x : rate_at s xb x = 0%R -> heated s hdt xb r x x.
Proof. unfold rate_at, heated. intros ->. repeat split. intros d. rewrite Rmult_0_l, sqrt_0. ring. Qed.

Lemma H_rate_at s x xb : spot_ok s -> 0 <= mp_kind x < alen (h_T s) -> spot_H s (heat_pos x xb) (mp_kind x) = Some (rate_at s xb x).
Proof. intros ok Hk. rewrite (H_rate s _ _ ok Hk). unfold heat_pos, rate_at. reflexivity. Qed.

Lemma heat_prt_ok s hdt xb rounds x : spot_ok s -> 0 <= mp_kind x < alen (h_T s) ->
  (forall d k, In d rounds -> 0 <= d k < 2 ^ 31) -> (exists d, In d rounds /\ forall k, 0 <= k < 6 -> (ran (d k) < 1)%R) ->
  exists x', heat_prt s hdt xb rounds x = Some x' /\ ((rate_at s xb x = 0)%R -> x' = x) /\
  exists l d l', rounds = l ++ d :: l' /\ (forall e, In e l -> exists k, 0 <= k < 6 /\ ran (e k) = 1%R) /\ (forall k, 0 <= k < 6 -> (ran (d k) < 1)%R) /\
    let r := box_muller (fun k => ran (d k)) in heated s hdt xb r x x' /\ forall e, (Rabs (get3 r e) <= sqrt (48 * ln 2))%R.
Proof.
  intros ok Hk Rg (d0 & Hd0 & A0). pose proof (rate_bounds s (c0 (mp_x x) + c0 xb) (c1 (mp_x x) + c1 xb) (c2 (mp_x x) + c2 xb) (mp_kind x) ok) as [RB _].
  fold (rate_at s xb x) in RB. unfold heat_prt. rewrite (H_rate_at s x xb ok Hk).
  destruct (draw_loop_ok rounds) as (l & d & l' & E & D & A & N); [exists d0; split; [exact Hd0|apply ran_ok_iff; exact A0]|].
  assert (In1 : In d rounds) by (rewrite E; apply in_elt).
  assert (Nl : forall e, In e l -> exists k, 0 <= k < 6 /\ ran (e k) = 1%R).
  { intros e He. specialize (N e He). unfold ran_ok in N. assert (HE : In e rounds) by (rewrite E; apply in_or_app; left; exact He).
    assert (Q : forallb (fun k => if Rlt_dec (ran (e k)) 1 then true else false) (zrange 0 6) = false -> exists k, In k (zrange 0 6) /\ (if Rlt_dec (ran (e k)) 1 then true else false) = false).
    { generalize (zrange 0 6). intros m. induction m as [|k m IH]; cbn [forallb]; [discriminate|]. intros F. apply Bool.andb_false_iff in F. destruct F as [F|F]; [exists k; split; [left; reflexivity|exact F]|].
      destruct (IH F) as (k' & H1 & H2). exists k'. split; [right; exact H1|exact H2]. }
    destruct (Q N) as (k & H1 & H2). apply in_zrange in H1. exists k. split; [exact H1|]. destruct (Rlt_dec _ _) as [|NL]; [discriminate|]. destruct (ran_lt1 (e k) (Rg e k HE)) as [[_ U] _]. lra. }
  pose proof (proj1 (ran_ok_iff d) A) as AL.
  assert (BM : v3 (ran_normal (ran (d 0)) (ran (d 1))) (ran_normal (ran (d 2)) (ran (d 3))) (ran_normal (ran (d 4)) (ran (d 5))) = box_muller (fun k => ran (d k))).
  { unfold box_muller. apply v3_ext. intros e. rewrite get3_gen3. destruct e; cbn [get3 c0 c1 c2]; (rewrite ran_normal_is by (apply AL; lia)); reflexivity. }
  assert (BD : forall e, (Rabs (get3 (box_muller (fun k => ran (d k))) e) <= sqrt (48 * ln 2))%R).
  { intros e. unfold box_muller. rewrite get3_gen3. cbv zeta. apply normal_bound.
    assert (Q : 0 <= match e with D0 => 0 | D1 => 2 | D2 => 4 end < 6) by (destruct e; lia).
    destruct (ran_lt1 (d (match e with D0 => 0 | D1 => 2 | D2 => 4 end)) (Rg d _ In1)) as [[U _] W]. split; [exact U|apply W, AL; exact Q]. }
  destruct (Rlt_dec 0 (rate_at s xb x)) as [HP|HZ].
  - unfold kick_particle. rewrite D. cbn [option_map]. rewrite BM. eexists. split; [reflexivity|]. split; [intros Z0; lra|].
    exists l, d, l'. split; [exact E|]. split; [exact Nl|]. split; [exact AL|]. split; [apply add_u_heated; reflexivity|exact BD].
  - assert (Z0 : rate_at s xb x = 0%R) by lra. exists x. split; [reflexivity|]. split; [reflexivity|]. exists l, d, l'. split; [exact E|]. split; [exact Nl|]. split; [exact AL|]. split; [apply heated_zero; exact Z0|exact BD].
Qed.

(** ** All particles on the CPU *)

Lemma all_some_ex {A B} (f : A -> option B) l : (forall a, In a l -> exists b, f a = Some b) -> exists m, all_some (map f l) = Some m /\ alen m = alen l /\ forall i a, aget l i = Some a -> exists b, aget m i = Some b /\ f a = Some b.
Proof.
  intros H. destruct l as [|a0 l0].
  { exists []. split; [reflexivity|]. split; [reflexivity|]. intros i a E. apply aget_bounds in E. cbn in E. lia. }
  destruct (H a0 (or_introl eq_refl)) as [b0 _]. set (g := fun a => match f a with Some b => b | None => b0 end).
  exists (map g (a0 :: l0)). split; [apply all_some_ext; intros a Ha; unfold g; destruct (H a Ha) as [b ->]; reflexivity|]. split; [apply alen_map|].
  intros i a E. exists (g a). split; [rewrite aget_map, E; reflexivity|]. unfold g. destruct (H a (aget_In _ _ _ E)) as [b ->]. reflexivity.
Qed.

Lemma cpu_ok s hdt xbs rnd mprts (Q : V3 R -> list (Z -> Z) -> mprt -> mprt -> Prop) : alen xbs = alen mprts ->
  (forall p n b x xb, aget mprts p = Some b -> aget b n = Some x -> aget xbs p = Some xb -> exists x', heat_prt s hdt xb (rnd p n) x = Some x' /\ Q xb (rnd p n) x x') ->
  exists mprts', cpu_heating s hdt xbs rnd mprts = Some mprts' /\ alen mprts' = alen mprts /\
    forall p b xb, aget mprts p = Some b -> aget xbs p = Some xb -> exists b', aget mprts' p = Some b' /\ alen b' = alen b /\
      forall n x, aget b n = Some x -> exists x', aget b' n = Some x' /\ Q xb (rnd p n) x x'.
Proof.
  intros LX H.
  assert (IN : forall p b xb, aget mprts p = Some b -> aget xbs p = Some xb -> exists b', all_some (map (fun n => match aget b n with Some x => heat_prt s hdt xb (rnd p n) x | None => None end) (zrange 0 (alen b))) = Some b' /\ alen b' = alen b /\
      forall n x, aget b n = Some x -> exists x', aget b' n = Some x' /\ Q xb (rnd p n) x x').
  { intros p b xb Eb Ex. destruct (all_some_ex (fun n => match aget b n with Some x => heat_prt s hdt xb (rnd p n) x | None => None end) (zrange 0 (alen b))) as (m & Em & Lm & Gm).
    { intros n Hn. apply in_zrange in Hn. destruct (aget_some b n Hn) as [x E]. rewrite E. destruct (H p n b x xb Eb E Ex) as (x' & E' & _). exists x'. exact E'. }
    exists m. split; [exact Em|]. split; [rewrite Lm, alen_zrange by apply alen_nonneg; lia|].
    intros n x E. pose proof (aget_bounds _ _ _ E) as Bn. destruct (Gm n n) as (x' & E' & F'); [rewrite aget_zrange; replace ((0 <=? _) && (_ <? _))%bool with true by lia; f_equal; lia|]. rewrite E in F'.
    destruct (H p n b x xb Eb E Ex) as (x'' & E'' & Q''). exists x'. split; [exact E'|]. congruence. }
  unfold cpu_heating.
  destruct (all_some_ex (fun p => match aget xbs p, aget mprts p with
    | Some xb, Some b => all_some (map (fun n => match aget b n with Some x => heat_prt s hdt xb (rnd p n) x | None => None end) (zrange 0 (alen b))) | _, _ => None end) (zrange 0 (alen mprts))) as (m & Em & Lm & Gm).
  { intros p Hp. apply in_zrange in Hp. destruct (aget_some mprts p Hp) as [b Eb]. destruct (aget_some xbs p ltac:(lia)) as [xb Ex]. rewrite Ex, Eb. destruct (IN p b xb Eb Ex) as (b' & E' & _). exists b'. exact E'. }
  exists m. split; [exact Em|]. split; [rewrite Lm, alen_zrange by apply alen_nonneg; lia|]. intros p b xb Eb Ex. pose proof (aget_bounds _ _ _ Eb) as Bp.
  destruct (Gm p p) as (b' & E' & F'); [rewrite aget_zrange; replace ((0 <=? _) && (_ <? _))%bool with true by lia; f_equal; lia|]. rewrite Ex, Eb in F'. destruct (IN p b xb Eb Ex) as (b'' & E'' & R''). exists b'. split; [exact E'|]. rewrite E'' in F'. injection F' as <-. exact R''.
Qed.

(** ** The GPU *)

(** Every slot once, with the block it is in. *)
Lemma launch_slots_at {P B} (cpos : P -> V3 Z) g h c (L : list (Z * P)) bl nt (f : blk -> Z -> option (list B)) (V : Z -> list B) :
  geom_ok g -> laid cpos g h (aget (c_st c)) c L -> each_once (all_blocks g) bl -> 0 < nt ->
  (forall p pos n x, is_pos g p pos -> h (block_no g p pos) <= n < h (block_no g p pos + 1) -> aget L n = Some (p, x) -> f (block_at g p pos) n = Some (V n)) ->
  exists ws, launch_slots bl nt c f = Some ws /\ Permutation ws (flat_map V (zrange 0 (alen L))).
Proof.
  intros ok D EO Hnt Hf. pose proof (NBnn g ok) as NN. pose proof (proj2 EO) as IFF.
  assert (O : forall b, In b bl -> all_blocks g b) by (intros b; apply IFF).
  assert (TK : forall b, In b bl -> forall tid, In tid (zrange 0 nt) -> all_some (map (f b) (in_block_loop nt (h (k_bid b)) (h (k_bid b + 1)) tid)) = Some (map V (in_block_loop nt (h (k_bid b)) (h (k_bid b + 1)) tid))).
  { intros b Hb tid Ht. apply in_zrange in Ht. destruct (O b Hb) as (p & pos & [Hp Hpos] & ->). change (k_bid (block_at g p pos)) with (block_no g p pos).
    pose proof (block_no_lt g ok p pos Hp Hpos) as Hk.
    apply all_some_ext. intros n Hn. assert (B0 : h (block_no g p pos) <= n < h (block_no g p pos + 1)).
    { unfold in_block_loop in Hn. apply filter_In in Hn. destruct Hn as [Hn Q]. apply in_strided in Hn; [|exact Hnt]. apply Bool.negb_true_iff, Z.ltb_ge in Q. lia. }
    pose proof (mono_le_n (n_blocks g) h (ld_mono _ _ _ _ _ _ D) 0 (block_no g p pos) ltac:(lia) ltac:(lia)) as M1. rewrite (ld_0 _ _ _ _ _ _ D) in M1.
    pose proof (mono_le_n (n_blocks g) h (ld_mono _ _ _ _ _ _ D) (block_no g p pos + 1) (n_blocks g) ltac:(lia) ltac:(lia)) as M2. rewrite (ld_nb _ _ _ _ _ _ D), (ld_n _ _ _ _ _ _ D) in M2.
    destruct (aget_some L n ltac:(lia)) as [[q x] Ew]. 
    destruct (ld_key _ _ _ _ _ _ D n _ _ Ew Hk B0) as (A1 & A2 & A3). cbn [fst snd] in *. unfold key in A3. apply (block_no_inj g ok) in A3; [|assumption|assumption|apply blkpos_range; assumption|assumption].
    destruct A3 as [-> _]. apply (Hf p pos n x); [split; assumption|exact B0|exact Ew]. }
  exists (flat_map (fun b => flat_map (fun tid => flat_map V (in_block_loop nt (h (k_bid b)) (h (k_bid b + 1)) tid)) (zrange 0 nt)) bl). split.
  - unfold launch_slots. rewrite (all_some_ext _ _ (fun b => flat_map (fun tid => flat_map V (in_block_loop nt (h (k_bid b)) (h (k_bid b + 1)) tid)) (zrange 0 nt))); [cbn [option_map]; rewrite concat_map_flat; reflexivity|].
    intros b Hb. pose proof (O b Hb) as (p & pos & [Hp Hpos] & Eb). assert (Hk : 0 <= k_bid b < n_blocks g) by (subst b; apply block_no_lt; assumption).
    rewrite (ld_off _ _ _ _ _ _ D (k_bid b)) by lia. rewrite (ld_off _ _ _ _ _ _ D (k_bid b + 1)) by lia.
    rewrite (all_some_ext _ _ (fun tid => flat_map V (in_block_loop nt (h (k_bid b)) (h (k_bid b + 1)) tid))) by (intros tid Ht; rewrite (TK b Hb tid Ht); cbn [option_map]; rewrite concat_map_flat; reflexivity).
    cbn [option_map]. rewrite concat_map_flat. reflexivity.
  - eapply perm_trans with (flat_map (fun k => flat_map V (zrange (h k) (h (k + 1)))) (map k_bid bl)).
    + assert (Q : forall m, (forall b, In b m -> all_blocks g b) -> Permutation (flat_map (fun b => flat_map (fun tid => flat_map V (in_block_loop nt (h (k_bid b)) (h (k_bid b + 1)) tid)) (zrange 0 nt)) m) (flat_map (fun k => flat_map V (zrange (h k) (h (k + 1)))) (map k_bid m))).
      { induction m as [|b m IH]; intros Hm; cbn [flat_map map]; [constructor|]. apply Permutation_app; [|apply IH; intros; apply Hm; right; assumption].
        rewrite <- flat_map_flat_map. apply Permutation_flat_map. apply in_block_loop_perm; [exact Hnt|]. destruct (Hm b (or_introl eq_refl)) as (p & pos & [Hp Hpos] & ->). cbn [block_at k_bid].
        pose proof (block_no_lt g ok p pos Hp Hpos) as Hk. pose proof (mono_le_n (n_blocks g) h (ld_mono _ _ _ _ _ _ D) 0 (block_no g p pos) ltac:(lia) ltac:(lia)) as M1. rewrite (ld_0 _ _ _ _ _ _ D) in M1. exact M1. }
      apply Q. exact O.
    + eapply perm_trans; [apply Permutation_flat_map; apply (blocks_perm g bl ok EO)|]. rewrite <- flat_map_flat_map.
      destruct (flat_zranges h 0 (n_blocks g) NN (ld_mono _ _ _ _ _ _ D)) as [-> _]. rewrite (ld_0 _ _ _ _ _ _ D), (ld_nb _ _ _ _ _ _ D), (ld_n _ _ _ _ _ _ D). reflexivity.
Qed.

Lemma heat_blocks_once g : geom_ok g -> each_once (all_blocks g) (heat_blocks g).
Proof. intros ok. unfold heat_blocks. destruct (g_yz g) eqn:Y; [apply simple2_yz_once|apply simple2_once]; assumption. Qed.

Lemma heat_need g : heat_grid g * heat_tpb <= 131072.
Proof. unfold heat_grid, heat_tpb, simple2_grid, simple2_yz_grid. destruct (g_yz g); lia. Qed.

(** what becomes of the particle of slot [n] *)
Definition heat_w (s : spot) (hdt : R) (xbs : list (V3 R)) (r : Z -> V3 R) (n : Z) (w : Z * mprt) : Z * mprt :=
  match aget xbs (fst w) with
  | Some xb => (fst w, if Rlt_dec 0 (rate_at s xb (snd w)) then add_u (snd w) (sqrt (rate_at s xb (snd w) * hdt)) (r n) else snd w)
  | None => w
  end.

Definition heat_list (s : spot) (hdt : R) (xbs : list (V3 R)) (r : Z -> V3 R) (L : list (Z * mprt)) : list (Z * mprt) :=
  map (fun n => match aget L n with Some w => heat_w s hdt xbs r n w | None => (0, mp_zero) end) (zrange 0 (alen L)).

Lemma heat_list_len s hdt xbs r L : alen (heat_list s hdt xbs r L) = alen L.
Proof. unfold heat_list. rewrite alen_map, alen_zrange by apply alen_nonneg. lia. Qed.

Lemma heat_list_get s hdt xbs r L n w : aget L n = Some w -> aget (heat_list s hdt xbs r L) n = Some (heat_w s hdt xbs r n w).
Proof.
  intros E. pose proof (aget_bounds _ _ _ E) as B. unfold heat_list. rewrite aget_map, aget_zrange. replace ((0 <=? n) && (n <? alen L - 0))%bool with true by lia.
  cbn [option_map]. rewrite Z.add_0_l, E. reflexivity.
Qed.

Lemma heat_w_fst s hdt xbs r n w : fst (heat_w s hdt xbs r n w) = fst w.
Proof. unfold heat_w. destruct (aget xbs (fst w)); reflexivity. Qed.

Lemma heat_w_x s hdt xbs r n w : mp_x (snd (heat_w s hdt xbs r n w)) = mp_x (snd w).
Proof. unfold heat_w. destruct (aget xbs (fst w)); [|reflexivity]. cbn [snd]. destruct (Rlt_dec _ _); reflexivity. Qed.

Section Gpu.
Variables (cell : V3 R -> V3 Z) (g : geom) (s : spot).
Let cpos := fun x : mprt => cell (mp_x x).
Hypothesis ok : geom_ok g.
Hypothesis sok : spot_ok s.

Lemma laid_heat hdt xbs r h c L st' : laid cpos g h (aget (c_st c)) c L ->
  (forall n w, aget L n = Some w -> aget st' n = Some (snd (heat_w s hdt xbs r n w))) ->
  laid cpos g h (aget st') (mkcm st' (c_alt c) (c_idx c) (c_id c) (c_off c) (c_n c) (c_re c)) (heat_list s hdt xbs r L).
Proof.
  intros D G.
  assert (INV : forall n w', aget (heat_list s hdt xbs r L) n = Some w' -> exists w, aget L n = Some w /\ w' = heat_w s hdt xbs r n w).
  { intros n w' E. pose proof (aget_bounds _ _ _ E) as B. rewrite heat_list_len in B. destruct (aget_some L n B) as [w Ew]. exists w. split; [exact Ew|].
    rewrite (heat_list_get _ _ _ _ _ _ _ Ew) in E. congruence. }
  destruct D as [D1 D2 D3 D4 D5 D6 D7]. constructor; cbn [c_n c_off].
  - rewrite heat_list_len. exact D1.
  - intros n w' E. destruct (INV n w' E) as (w & Ew & ->). apply G. exact Ew.
  - exact D3.
  - exact D4.
  - exact D5.
  - exact D6.
  - intros n w' k E Hk B. destruct (INV n w' E) as (w & Ew & ->). unfold cpos. rewrite heat_w_fst, heat_w_x. exact (D7 n w k Ew Hk B).
Qed.

Lemma heating_ok nk hdt xbs cnt rng hs r c (S : list (Z * mprt)) : nk <= 4 ->
  represents cpos g c S -> (forall w, In w S -> 0 <= mp_kind (snd w) < alen (h_T s)) ->
  alen xbs = g_np g -> heat_grid g * heat_tpb <= rng -> hs_gen hs <= cnt -> (hs_gen hs = cnt -> hs_first hs = false -> hs_xb hs = xbs) ->
  (exists o, heating_runs g nk s hdt xbs cnt rng hs r c o) /\
  forall o, heating_runs g nk s hdt xbs cnt rng hs r c o -> exists c' hs' L, o = Some (c', hs', rng) /\ (S <> [] -> hs' = HState false cnt xbs) /\
    Permutation L S /\ represents cpos g c' (heat_list s hdt xbs r L).
Proof.
  intros H4 RP HK LX HR G1 G2. unfold heating_runs. set (hs1 := if hs_gen hs <? cnt then HState true cnt (hs_xb hs) else hs). cbv zeta.
  destruct (Z.eqb_spec (c_n c) 0) as [N0|N0].
  { split; [eexists; reflexivity|]. intros o ->. exists c, hs1, []. split; [reflexivity|].
    destruct RP as (R1 & R2 & R3). assert (S = []) as -> by (destruct S; [reflexivity|unfold alen in R1; cbn in R1; lia]). split; [contradiction|]. split; [constructor|]. exact (conj R1 (conj R2 R3)). }
  assert (HG : hs_gen hs1 = cnt) by (unfold hs1; destruct (Z.ltb_spec (hs_gen hs) cnt); cbn; lia).
  assert (X : exists rng2, rng2 = rng /\ (if hs_first hs1 then (HState false (hs_gen hs1) xbs, Z.max rng (heat_grid g * heat_tpb)) else (hs1, rng)) = (HState false (hs_gen hs1) xbs, rng2)).
  { destruct (hs_first hs1) eqn:F; [eexists; split; [|reflexivity]; lia|]. exists rng. split; [lia|]. f_equal. unfold hs1 in *. destruct (Z.ltb_spec (hs_gen hs) cnt) as [Hl|Hl]; [discriminate|].
    destruct hs as [f ge xb]. cbn [hs_gen hs_first hs_xb] in *. rewrite (G2 ltac:(lia) F), F. reflexivity. }
  destruct X as (rng2 & HR2 & ->). cbn [hs_xb]. subst rng2. rewrite HG.
  assert (NE : S <> []) by (intros ->; destruct RP as (R1 & _); unfold alen in R1; cbn in R1; lia).
  destruct (rep_laid cpos mp_zero g ok c S RP NE) as (h & L & PL & D). assert (NL : L <> []) by (intros ->; apply Permutation_nil in PL; contradiction).
  destruct (reorder_laid cpos mp_zero g h c L D NL) as (c1 & -> & RE & D1).
  replace ((4 <? nk) || (rng <? heat_grid g * heat_tpb))%bool with false by lia.
  set (V := fun n => match aget L n with Some (p, x) => match aget xbs p with Some xb => if Rlt_dec 0 (rate_at s xb x) then [(n, add_u x (sqrt (rate_at s xb x * hdt)) (r n))] else [] | None => [] end | None => [] end).
  destruct (launch_slots_at cpos g h c1 L (heat_blocks g) heat_tpb (heat_slot s hdt xbs r c1) V ok D1 (heat_blocks_once g ok) ltac:(reflexivity)) as (ws & -> & PW).
  { intros p pos n x [Hp Hpos] B Ew. unfold heat_slot. cbn [block_at k_p]. destruct (aget_some xbs p ltac:(lia)) as [xb Ex]. rewrite Ex. rewrite (ld_rd _ _ _ _ _ _ D1 n _ Ew). cbn [snd].
    assert (K : 0 <= mp_kind x < alen (h_T s)) by (apply (HK (p, x)); apply (Permutation_in _ PL); apply (aget_In _ _ _ Ew)).
    rewrite (H_rate_at s x xb sok K). unfold V. assert (Ew2 : aget L n = Some (p, x)) by exact Ew. rewrite Ew2, Ex. reflexivity. }
  assert (FIN : forall ws', Permutation ws ws' -> exists st', run_writes ws' (c_st c1) = Some st' /\ forall n w, aget L n = Some w -> aget st' n = Some (snd (heat_w s hdt xbs r n w))).
  { intros ws' P'. set (hv := fun n => match aget L n with Some w => snd (heat_w s hdt xbs r n w) | None => mp_zero end).
    assert (INW : forall e, In e ws' <-> exists n, 0 <= n < alen L /\ In e (V n)).
    { intros e. rewrite <- (Permutation_in' eq_refl P'). rewrite (Permutation_in' eq_refl PW). rewrite in_flat_map. split; intros (n & A & B); exists n; (split; [apply in_zrange; exact A|exact B]). }
    assert (VW : forall n e, In e (V n) -> fst e = n /\ snd e = hv n).
    { intros n e He. unfold V in He. unfold hv, heat_w. destruct (aget L n) as [[p x]|]; [|destruct He]. cbn [fst snd]. destruct (aget xbs p) as [xb|]; [|destruct He].
      destruct (Rlt_dec _ _); [|destruct He]. cbn [In] in He. destruct He as [<-|[]]. split; reflexivity. }
    destruct (run_writes_h (fun _ : unit => v3 0 0 0) tt (fun u => u) g hv ws' (c_st c1)) as (st' & E & _ & GW & GN).
    { intros e He. apply INW in He. destruct He as (n & Hn & He). destruct (VW n e He) as [<- Es]. split; [exact Es|]. destruct (aget_some L (fst e) Hn) as [w Ew]. pose proof (ld_rd _ _ _ _ _ _ D1 _ _ Ew) as Q. apply (aget_bounds _ _ _ Q). }
    exists st'. split; [exact E|]. intros n w Ew. pose proof (ld_rd _ _ _ _ _ _ D1 n w Ew) as Q. pose proof (aget_bounds _ _ _ Ew) as Bn.
    destruct (in_dec Z.eq_dec n (map fst ws')) as [I|NI].
    - rewrite (GW n I). unfold hv. rewrite Ew. reflexivity.
    - rewrite (GN n NI), Q. f_equal. unfold heat_w. destruct (aget xbs (fst w)) as [xb|] eqn:Ex; [|reflexivity]. cbn [snd]. destruct (Rlt_dec _ _) as [HP|]; [|reflexivity]. exfalso. apply NI.
      apply in_map_iff. exists (n, add_u (snd w) (sqrt (rate_at s xb (snd w) * hdt)) (r n)). split; [reflexivity|]. apply INW. exists n. split; [exact Bn|]. unfold V. rewrite Ew. destruct w as [p x]. cbn [fst snd] in *. rewrite Ex.
      destruct (Rlt_dec _ _); [left; reflexivity|contradiction]. }
  split.
  - destruct (FIN ws (Permutation_refl _)) as (st' & E & _). eexists. exists ws. split; [apply Permutation_refl|reflexivity].
  - intros o (ws' & P' & ->). destruct (FIN ws' P') as (st' & -> & G). eexists _, _, L. split; [reflexivity|]. split; [reflexivity|]. split; [exact PL|].
    apply (laid_rep cpos g ok h); [exact RE|]. apply (laid_heat hdt xbs r h c1 L st' D1 G).
Qed.

End Gpu.

Lemma reach_inv nk s hdt w : hreach nk s hdt w -> 131072 <= w_rng w /\ hs_gen (w_hs w) <= w_cnt w /\ (hs_gen (w_hs w) = w_cnt w -> hs_first (w_hs w) = false -> hs_xb (w_hs w) = w_xb w).
Proof.
  induction 1 as [g xb cnt H0|w w' _ (I1 & I2 & I3) St]; [cbn; split; [lia|split; [lia|discriminate]]|].
  destruct St as [g xb cnt rng hs g' xb'|g xb cnt rng hs rng' Hr|g xb cnt rng hs r c c' hs' rng' Ho]; cbn [w_rng w_hs w_cnt w_xb] in *.
  - split; [exact I1|]. split; [lia|]. intros E. lia.
  - split; [lia|]. split; [exact I2|exact I3].
  - unfold heating_runs in Ho. set (hs1 := if hs_gen hs <? cnt then HState true cnt (hs_xb hs) else hs) in Ho. cbv zeta in Ho.
    assert (J : hs_gen hs1 = cnt /\ (hs_first hs1 = false -> hs_xb hs1 = xb)).
    { unfold hs1. destruct (Z.ltb_spec (hs_gen hs) cnt); [split; [reflexivity|discriminate]|]. assert (E : hs_gen hs = cnt) by lia. split; [exact E|exact (I3 E)]. }
    destruct J as [J1 J2]. destruct (c_n c =? 0); [injection Ho as -> -> ->; split; [exact I1|split; [lia|intros _; exact J2]]|].
    assert (Y : exists rng2, rng <= rng2 /\ (if hs_first hs1 then (HState false (hs_gen hs1) xb, Z.max rng (heat_grid g * heat_tpb)) else (hs1, rng)) = (HState false (hs_gen hs1) xb, rng2)).
    { destruct (hs_first hs1) eqn:F; [eexists; split; [|reflexivity]; lia|]. exists rng. split; [lia|]. f_equal. rewrite <- (J2 eq_refl). destruct hs1; cbn in *; subst; reflexivity. }
    destruct Y as (rng2 & HR2 & Y). rewrite Y in Ho. destruct (reorder mp_zero c); [|discriminate]. destruct (_ || _)%bool; [discriminate|].
    destruct (launch_slots _ _ _ _); [|discriminate]. destruct Ho as (ws' & _ & Ho). destruct (run_writes _ _); [|discriminate]. injection Ho as _ -> ->. cbn. split; [lia|]. split; [lia|]. reflexivity.
Qed.
