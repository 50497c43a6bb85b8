(** Proofs about the initial fields: positions, ghost points, divergence, and rounding to double. *)
From Coq Require Import Reals Lra Psatz.
From Flocq Require Import Core.
From Verif Require Import Base Arr RSum DomainModel DomainSpec DdcPrtSpec DdcPrtProofs GhostModel GhostSpec GhostProofs GhostProps FieldModel FieldSpec DepositModel GaussModel GaussSpec GaussProofs GaussProps SetupFldModel SetupFldSpec SetupFldProofs.
Local Open Scope R_scope.

Lemma dim3_eq_dec (d e : dim3) : {d = e} + {d <> e}.
Proof. decide equality. Qed.

(** ** a periodic function *)

Section Periodic.
  Variables (S : setting) (f : Z -> V3 R -> R).
  Hypothesis HF : f_periodic S f.
  Let per := dm_periodic (s_dm S).

  Lemma per_nat m d : get3 per d = true -> forall (k : nat) x, f m (set3 x d (get3 x d + INR k * get3 (s_len S) d)) = f m x.
  Proof.
    intros Hp. induction k as [|k IH]; intros x.
    - f_equal. apply v3_ext. intros e. destruct (dim3_eq_dec d e) as [->|N]; [rewrite get3_set3_same; cbn; ring|rewrite get3_set3_other by exact N; reflexivity].
    - rewrite <- (IH x). rewrite <- (HF m (set3 x d (get3 x d + INR k * get3 (s_len S) d)) d Hp). f_equal. apply v3_ext. intros e. destruct (dim3_eq_dec d e) as [->|N].
      + rewrite !get3_set3_same, S_INR. ring.
      + rewrite !get3_set3_other by exact N. reflexivity.
  Qed.

  Lemma per_Z m d k x : get3 per d = true -> f m (set3 x d (get3 x d + IZR k * get3 (s_len S) d)) = f m x.
  Proof.
    intros Hp. destruct (Z.le_gt_cases 0 k) as [H|H].
    - rewrite <- (per_nat m d Hp (Z.to_nat k) x), INR_IZR_INZ, Z2Nat.id by exact H. reflexivity.
    - rewrite <- (per_nat m d Hp (Z.to_nat (- k)) (set3 x d (get3 x d + IZR k * get3 (s_len S) d))), INR_IZR_INZ, Z2Nat.id by lia.
      f_equal. apply v3_ext. intros e. destruct (dim3_eq_dec d e) as [->|N].
      + rewrite !get3_set3_same, opp_IZR. ring.
      + rewrite !get3_set3_other by exact N. reflexivity.
  Qed.

  Lemma per_all m (k : V3 Z) x : (forall d, get3 per d = false -> get3 k d = 0%Z) -> f m (gen3 (fun d => get3 x d + IZR (get3 k d) * get3 (s_len S) d)) = f m x.
  Proof.
    intros Hk.
    assert (ST : forall d y, f m (set3 y d (get3 y d + IZR (get3 k d) * get3 (s_len S) d)) = f m y).
    { intros d y. destruct (get3 per d) eqn:E; [apply per_Z; exact E|]. rewrite (Hk d E). f_equal. apply v3_ext. intros e.
      destruct (dim3_eq_dec d e) as [->|N]; [rewrite get3_set3_same; ring|rewrite get3_set3_other by exact N; reflexivity]. }
    rewrite <- (ST D0 x). set (y := set3 x D0 _). rewrite <- (ST D1 y). set (z := set3 y D1 _). rewrite <- (ST D2 z). f_equal.
  Qed.
End Periodic.

(** ** the whole domain *)

Section Domain.
  Variables (S : setting) (c : curve) (np gdims : V3 Z) (per : V3 bool) (pr : option (list Z)) (n : Z).
  Hypothesis HD : a_domain S c np gdims per pr n.

  Lemma G_nz d : IZR (get3 (dm_gdims (s_dm S)) d) <> 0.
  Proof. rewrite (d_gd S c np gdims per pr n HD). apply not_0_IZR. destruct HD as (_ & _ & H). specialize (H d). lia. Qed.

  Lemma pos_exact r p info x q d : (0 <= r < s_size S)%Z -> (0 <= p < patches_of (s_dm S) r)%Z -> get_local_patch_info (s_dm S) r p = Some info ->
    pos_of S (fun x => x) (pi_off info) x q d = yee S (glob S r p x) q d.
  Proof.
    intros Hr Hp EI. apply v3_ext. intros e. unfold pos_of, yee, glob, get_cc, get_nc, patch_xb, dom_dx. rewrite !get3_gen3. fold (h_of S e). unfold global_idx. rewrite EI, plus_IZR. destruct (in_the_middle q d e); ring.
  Qed.

  Lemma same_yee r p x r' p' x' q d f m : f_periodic S f -> same_point (s_dm S) (r, p, x) (r', p', x') -> f m (yee S (glob S r p x) q d) = f m (yee S (glob S r' p' x') q d).
  Proof.
    intros HF HS. destruct HD as [(H1 & H2 & H3 & H4) (_ & H5)]. pose proof (proj1 (same_point_iff c np gdims per pr _ _ H2 _ _) HS) as HI.
    destruct (dm_parts c np gdims per pr _ _ H2) as (_ & EG & EP).
    assert (K : exists k : V3 Z, (forall e, get3 per e = false -> get3 k e = 0%Z) /\ forall e, global_idx (s_dm S) (r, p, x) e = (global_idx (s_dm S) (r', p', x') e + get3 k e * get3 gdims e)%Z).
    { assert (K1 : forall e, exists k, (get3 per e = false -> k = 0%Z) /\ global_idx (s_dm S) (r, p, x) e = (global_idx (s_dm S) (r', p', x') e + k * get3 gdims e)%Z).
      { intros e. specialize (HI e). destruct (get3 per e); [destruct HI as [k HI]; exists k; split; [discriminate|exact HI]|exists 0%Z; split; [reflexivity|rewrite HI; ring]]. }
      destruct (K1 D0) as (k0 & A0 & B0), (K1 D1) as (k1 & A1 & B1), (K1 D2) as (k2 & A2 & B2). exists (v3 k0 k1 k2). split; intros []; cbn [get3 c0 c1 c2]; assumption. }
    destruct K as (k & K1 & K2). rewrite <- (per_all S f HF m k (yee S (glob S r' p' x') q d)) by (rewrite EP; exact K1). f_equal. apply v3_ext. intros e.
    unfold yee, glob. rewrite !get3_gen3, K2, plus_IZR, mult_IZR. unfold h_of. rewrite EG. pose proof (G_nz e) as N. rewrite EG in N. field. exact N.
  Qed.

  (** the values after setting up, exact *)
  Lemma setup_exact f (F0 F1 : Z -> flds R) : (forall r, (0 <= r < s_size S)%Z -> setup_fields S (fun x => x) f r (F0 r) = Some (F1 r)) ->
    forall r p x q d, a_patch S r p -> stored_at S x -> F1 r p (comp q d) x = F0 r p (comp q d) x + f (comp q d) (yee S (glob S r p x) q d).
  Proof.
    intros H r p x q d [Hr Hp] Hx. destruct (setup_val S c np gdims per pr n HD (fun x => x) f r (F0 r) Hr) as (G & _ & E & _ & _ & V & _). rewrite (H r Hr) in E. injection E as <-.
    destruct (infos S c np gdims per pr n HD r Hr p (proj2 (in_zrange _ _ _) Hp)) as (info & EI & _).
    rewrite (V p info x q d Hp EI), (pick_in S c np gdims per pr n HD _ x _ Hx), (pos_exact r p info x q d Hr Hp EI). reflexivity.
  Qed.

  Lemma setup_single f F0 F1 q : f_periodic S f -> single_valued S q F0 -> (forall r, (0 <= r < s_size S)%Z -> setup_fields S (fun x => x) f r (F0 r) = Some (F1 r)) -> single_valued S q F1.
  Proof.
    intros HF H0 H r p x r' p' x' d V I V' I' HS. rewrite !(setup_exact f F0 F1 H) by assumption. rewrite (H0 r p x r' p' x' d V I V' I' HS), (same_yee r p x r' p' x' q d f _ HF HS). reflexivity.
  Qed.
End Domain.

(** ** before the first step *)

Section Start.
  Variables (S : setting) (c : curve) (np gdims : V3 Z) (per : V3 bool) (pr : option (list Z)).
  Hypothesis HR : periodic_run S c np gdims per pr.

  Lemma fill_ex q F : exists F', filled S q F F'.
  Proof.
    pose proof HR as [(H1 & H2 & H3 & H4) _].
    assert (Hm : (0 <= comp q D0 /\ comp q D0 <= comp q D0 + 3 /\ comp q D0 + 3 <= NR_FIELDS)%Z) by (unfold NR_FIELDS; destruct q; cbn; lia).
    assert (FT : ghosts_fit np gdims (s_ibn S)). { intros d. pose proof (fct_ibn S c np gdims per pr HR d) as H. rewrite (ld_eq c np gdims per pr _ _ H2), get3_gen3 in H. exact H. }
    destruct (C10_fill R c np gdims per pr _ _ (s_ibn S) NR_FIELDS (comp q D0) (comp q D0 + 3) F H1 H2 H3 H4 FT Hm) as (msgs & recvs & E1 & _ & _ & K).
    destruct (K msgs (Permutation.Permutation_refl _)) as (F' & A & _). exists F', msgs, msgs. split; [exact E1|]. split; [apply Permutation.Permutation_refl|exact A].
  Qed.

  Lemma before_val F F' : before_first_step S F F' ->
    (forall q, single_valued S q F') /\ (forall r p x q d, a_patch S r p -> in_box (grid_ldims (s_dm S)) x -> F' r p (comp q d) x = F r p (comp q d) x).
  Proof.
    intros (F1 & F2 & A1 & A2 & A3). pose proof HR as [(H1 & H2 & H3 & H4) (H5 & _)]. pose proof (fct_ibn S c np gdims per pr HR) as FI.
    destruct (filled_cons S c np gdims per pr H1 H2 H3 H4 (fun d => proj1 (H5 d)) FI QH F F1 A1) as [B1 _].
    destruct (filled_cons S c np gdims per pr H1 H2 H3 H4 (fun d => proj1 (H5 d)) FI QJ F1 F2 A2) as [B2 K2].
    destruct (filled_cons S c np gdims per pr H1 H2 H3 H4 (fun d => proj1 (H5 d)) FI QE F2 F' A3) as [B3 K3].
    destruct (filled_val S c np gdims per pr H1 H2 H3 H4 (fun d => proj1 (H5 d)) FI QH F F1 A1) as (_ & V1 & W1).
    destruct (filled_val S c np gdims per pr H1 H2 H3 H4 (fun d => proj1 (H5 d)) FI QJ F1 F2 A2) as (_ & V2 & W2).
    destruct (filled_val S c np gdims per pr H1 H2 H3 H4 (fun d => proj1 (H5 d)) FI QE F2 F' A3) as (_ & V3 & W3).
    split.
    - assert (CV : forall q G, GaussProofs.cons S q G -> single_valued S q G).
      { intros q G HC r p x r' p' x' d V I V' I' X. apply HC; try assumption; apply stored_iff; assumption. }
      intros q. apply CV. destruct q; [apply K3; [discriminate|exact B2]|exact B3|apply K3; [discriminate|]; apply K2; [discriminate|exact B1]].
    - intros r p x q d V I. pose proof (proj2 (interior_iff 0 (s_dm S) x) I) as I'. pose proof (own_stored 0 (s_dm S) (s_ibn S) FI x I') as I2.
      destruct q; [rewrite W3, V2, W1|rewrite V3, W2, W1|rewrite W3, W2, V1]; try assumption; try discriminate; reflexivity.
  Qed.
End Start.

(** ** differences *)

Section Differences.
  Variable S : setting.

  Lemma h_half x : x / 2 + x / 2 = x.
  Proof. field. Qed.

  Lemma yee_H m d : yee S m QH d = set3 (middle S m) d (get3 (middle S m) d - h_of S d / 2).
  Proof.
    apply v3_ext. intros e. unfold yee, middle. rewrite !get3_gen3. destruct (dim3_eq_dec d e) as [->|N].
    - rewrite get3_set3_same. unfold in_the_middle. destruct e; cbn [dim3_eqb negb]; field.
    - rewrite get3_set3_other, get3_gen3 by exact N. unfold in_the_middle. destruct d, e; cbn [dim3_eqb negb]; try contradiction; try ring; exfalso; apply N; reflexivity.
  Qed.

  Lemma yee_H_up m d : yee S (shift m d 1) QH d = set3 (middle S m) d (get3 (middle S m) d + h_of S d / 2).
  Proof.
    apply v3_ext. intros e. unfold yee, middle, shift. rewrite !get3_gen3. destruct (dim3_eq_dec d e) as [->|N].
    - rewrite !get3_set3_same, plus_IZR. unfold in_the_middle. destruct e; cbn [dim3_eqb negb]; field.
    - rewrite !get3_set3_other, get3_gen3 by exact N. unfold in_the_middle. destruct d, e; cbn [dim3_eqb negb]; try contradiction; try ring; exfalso; apply N; reflexivity.
  Qed.

  Lemma yee_E m d : yee S m QE d = set3 (node S m) d (get3 (node S m) d + h_of S d / 2).
  Proof.
    apply v3_ext. intros e. unfold yee, node. rewrite !get3_gen3. destruct (dim3_eq_dec d e) as [->|N].
    - rewrite get3_set3_same. unfold in_the_middle. destruct e; cbn [dim3_eqb negb]; field.
    - rewrite get3_set3_other, get3_gen3 by exact N. unfold in_the_middle. destruct d, e; cbn [dim3_eqb negb]; try contradiction; try ring; exfalso; apply N; reflexivity.
  Qed.

  Lemma yee_E_down m d : yee S (shift m d (-1)) QE d = set3 (node S m) d (get3 (node S m) d - h_of S d / 2).
  Proof.
    apply v3_ext. intros e. unfold yee, node, shift. rewrite !get3_gen3. destruct (dim3_eq_dec d e) as [->|N].
    - rewrite !get3_set3_same, plus_IZR. unfold in_the_middle. destruct e; cbn [dim3_eqb negb]; field.
    - rewrite !get3_set3_other, get3_gen3 by exact N. unfold in_the_middle. destruct d, e; cbn [dim3_eqb negb]; try contradiction; try ring; exfalso; apply N; reflexivity.
  Qed.

  Lemma glob_shift r p x d s : a_patch S r p -> (exists info, get_local_patch_info (s_dm S) r p = Some info) -> glob S r p (shift x d s) = shift (glob S r p x) d s.
  Proof.
    intros _ [info EI]. apply v3_ext. intros e. unfold glob, shift, global_idx. rewrite EI, !get3_gen3. destruct (dim3_eq_dec d e) as [->|N].
    - rewrite !get3_set3_same. ring.
    - rewrite !get3_set3_other, get3_gen3 by exact N. reflexivity.
  Qed.

  Lemma cdiv_ccurl A x : cdiv S (ccurl S A) x = 0.
  Proof.
    unfold cdiv, ccurl, cd, next. destruct x as [x0 x1 x2]. destruct (get3 (invar_of (s_dim S)) D0), (get3 (invar_of (s_dim S)) D1), (get3 (invar_of (s_dim S)) D2); cbn [set3 get3 c0 c1 c2]; unfold Rdiv; ring.
  Qed.
End Differences.

(** ** double precision *)

Lemma dbl_grid z ex : (-1074 <= ex)%Z -> (Z.abs z < 2 ^ 53)%Z -> to_double (IZR z * bpow radix2 ex) = IZR z * bpow radix2 ex.
Proof.
  intros He Hz. unfold to_double. apply round_generic; [apply valid_rnd_N|]. apply generic_format_FLT. exists (Float radix2 z ex); cbn; [reflexivity|exact Hz|exact He].
Qed.

Lemma dbl_val x ex z : (-1074 <= ex)%Z -> bpow radix2 (ex + 52) <= Rabs x < bpow radix2 (ex + 53) -> ZnearestE (x * bpow radix2 (- ex)) = z -> to_double x = IZR z * bpow radix2 ex.
Proof.
  intros He Hx Hz. unfold to_double, round, scaled_mantissa, cexp.
  assert (M : mag radix2 x = (ex + 53)%Z :> Z). { apply mag_unique. replace (ex + 53 - 1)%Z with (ex + 52)%Z by ring. exact Hx. }
  rewrite M. unfold FLT_exp. replace (Z.max (ex + 53 - 53) (-1074)) with ex by lia. rewrite Hz. unfold F2R. reflexivity.
Qed.

Section Double.
  Variables (S : setting) (c : curve) (np gdims : V3 Z) (per : V3 bool) (pr : option (list Z)) (n : Z).
  Hypothesis HD : a_domain S c np gdims per pr n.
  Hypothesis HX : double_grid S gdims n.

  Lemma off_bounds r p info : a_patch S r p -> get_local_patch_info (s_dm S) r p = Some info -> forall e, (0 <= get3 (pi_off info) e <= get3 gdims e)%Z /\ (0 <= get3 (grid_ldims (s_dm S)) e <= get3 gdims e)%Z.
  Proof.
    intros V EI e. destruct HD as [(H1 & H2 & H3 & H4) (_ & H5)]. destruct (global_idx_val c np gdims per pr _ _ H1 H2 H3 H4 r p V) as (idx & HB & _ & HG).
    specialize (HG (v3 0 0 0)%Z e). unfold global_idx in HG. rewrite EI in HG. rewrite (ld_eq c np gdims per pr _ _ H2), !get3_gen3 in *. specialize (HB e). specialize (H1 e). specialize (H5 e).
    assert (Z0 : get3 (v3 0 0 0)%Z e = 0%Z) by (destruct e; reflexivity). rewrite Z0, !Z.add_0_r in HG.
    assert (L : (get3 gdims e / get3 np e * get3 np e <= get3 gdims e)%Z) by (rewrite Z.mul_comm; apply Z.mul_div_le; lia).
    assert (L0 : (0 <= get3 gdims e / get3 np e)%Z) by (apply Z.div_pos; lia). clear - HG HB H1 L L0. set (a := (get3 gdims e / get3 np e)%Z) in *. clearbody a. nia.
  Qed.

  Lemma dom_dx_double e : dom_dx S to_double e = h_of S e.
  Proof.
    unfold dom_dx. fold (h_of S e). destruct (HX e) as (ex & m & k & He & -> & _ & Hb). apply dbl_grid; [exact He|]. destruct HD as (_ & Hn & H). specialize (H e).
    assert (4 * (get3 gdims e + n + 1) * Z.abs m >= 4 * Z.abs m)%Z by nia. lia.
  Qed.

  Lemma pos_double r p info x q d : a_patch S r p -> stored_at S x -> get_local_patch_info (s_dm S) r p = Some info -> pos_of S to_double (pi_off info) x q d = pos_of S (fun x => x) (pi_off info) x q d.
  Proof.
    intros V Hx EI. apply v3_ext. intros e. unfold pos_of. rewrite !get3_gen3. pose proof (off_bounds r p info V EI e) as [Ho Hl]. specialize (Hx e). destruct HD as (_ & Hn & Hg). specialize (Hg e).
    assert (Hi : (0 <= get3 (s_ibn S) e <= n)%Z) by (rewrite (proj2 Hg); destruct (get3 gdims e =? 1)%Z; lia).
    unfold get_cc, get_nc, patch_xb. rewrite dom_dx_double. unfold dom_dx. fold (h_of S e). destruct (HX e) as (ex & m & k & He & Eh & Ec & Hb). rewrite Eh, Ec.
    set (o := get3 (pi_off info) e) in *. set (y := get3 x e) in *. set (G := get3 gdims e) in *. clearbody o y.
    assert (B1 : (Z.abs (o * (2 * m)) <= 2 * G * Z.abs m)%Z) by (rewrite !Z.abs_mul, (Z.abs_eq o), (Z.abs_eq 2) by lia; nia).
    assert (B2 : (Z.abs ((2 * y + 1) * m) <= (2 * (G + n) + 1) * Z.abs m)%Z) by (rewrite Z.abs_mul; assert (Z.abs (2 * y + 1) <= 2 * (G + n) + 1)%Z by lia; nia).
    assert (B3 : (Z.abs (y * (2 * m)) <= 2 * (G + n) * Z.abs m)%Z) by (rewrite !Z.abs_mul, (Z.abs_eq 2) by lia; assert (Z.abs y <= G + n)%Z by lia; nia).
    assert (B0 : (0 <= Z.abs m)%Z) by lia.
    assert (BB : (2 * G * Z.abs m + (2 * (G + n) + 1) * Z.abs m + Z.abs k < 2 ^ 53)%Z) by nia. assert (BG : (0 <= (2 * (G + n) + 1) * Z.abs m)%Z) by nia. assert (BG2 : (0 <= 2 * G * Z.abs m)%Z) by nia.
    assert (BC : (2 * (G + n) * Z.abs m <= (2 * (G + n) + 1) * Z.abs m)%Z) by nia.
    replace (IZR o * (IZR (2 * m) * bpow radix2 ex)) with (IZR (o * (2 * m)) * bpow radix2 ex) by (rewrite (mult_IZR o); ring).
    rewrite (dbl_grid (o * (2 * m))) by (exact He || lia).
    replace (IZR (o * (2 * m)) * bpow radix2 ex + IZR k * bpow radix2 ex) with (IZR (o * (2 * m) + k) * bpow radix2 ex) by (rewrite (plus_IZR _ k); ring).
    rewrite (dbl_grid (o * (2 * m) + k)) by (exact He || lia).
    replace ((IZR y + 1 / 2) * (IZR (2 * m) * bpow radix2 ex)) with (IZR ((2 * y + 1) * m) * bpow radix2 ex) by (rewrite !mult_IZR, plus_IZR, mult_IZR; field).
    replace (IZR y * (IZR (2 * m) * bpow radix2 ex)) with (IZR (y * (2 * m)) * bpow radix2 ex) by (rewrite (mult_IZR y); ring).
    rewrite (dbl_grid ((2 * y + 1) * m)), (dbl_grid (y * (2 * m))) by (exact He || lia).
    destruct (in_the_middle q d e).
    - replace (IZR (o * (2 * m) + k) * bpow radix2 ex + IZR ((2 * y + 1) * m) * bpow radix2 ex) with (IZR (o * (2 * m) + k + (2 * y + 1) * m) * bpow radix2 ex) by (rewrite (plus_IZR (o * (2 * m) + k)); ring).
      apply dbl_grid; [exact He|lia].
    - replace (IZR (o * (2 * m) + k) * bpow radix2 ex + IZR (y * (2 * m)) * bpow radix2 ex) with (IZR (o * (2 * m) + k + y * (2 * m)) * bpow radix2 ex) by (rewrite (plus_IZR (o * (2 * m) + k)); ring).
      apply dbl_grid; [exact He|lia].
  Qed.

  Lemma setup_double f (F0 F1 : Z -> flds R) : (forall r, (0 <= r < s_size S)%Z -> setup_fields S to_double f r (F0 r) = Some (F1 r)) ->
    forall r p x q d, a_patch S r p -> stored_at S x -> F1 r p (comp q d) x = F0 r p (comp q d) x + f (comp q d) (yee S (glob S r p x) q d).
  Proof.
    intros H r p x q d [Hr Hp] Hx. destruct (setup_val S c np gdims per pr n HD to_double f r (F0 r) Hr) as (G & _ & E & _ & _ & V & _). rewrite (H r Hr) in E. injection E as <-.
    destruct (infos S c np gdims per pr n HD r Hr p (proj2 (in_zrange _ _ _) Hp)) as (info & EI & _).
    rewrite (V p info x q d Hp EI), (pick_in S c np gdims per pr n HD _ x _ Hx), (pos_double r p info x q d (conj Hr Hp) Hx EI), (pos_exact S r p info x q d Hr Hp EI). reflexivity.
  Qed.
End Double.

(** ** a sixth is not a double *)

Lemma sixth : to_double (1 / IZR 6) = IZR 6004799503160661 * bpow radix2 (-55).
Proof.
  apply dbl_val; [lia| |].
  - rewrite Rabs_pos_eq by lra. cbn. lra.
  - cbn [Z.opp]. apply Znearest_imp. replace (bpow radix2 55) with (IZR 36028797018963968) by reflexivity. apply Rabs_def1; lra.
Qed.

Lemma three_sixths : to_double (IZR 3 * (IZR 6004799503160661 * bpow radix2 (-55))) = 1 / 2.
Proof.
  rewrite (dbl_val _ (-54) 9007199254740992).
  - cbn. lra.
  - lia.
  - rewrite Rabs_pos_eq; cbn; lra.
  - cbn [Z.opp]. replace (IZR 3 * (IZR 6004799503160661 * bpow radix2 (-55)) * bpow radix2 54) with (IZR 9007199254740991 + / 2).
    + unfold Znearest. rewrite (Zfloor_imp 9007199254740991) by (rewrite plus_IZR; lra). replace (IZR 9007199254740991 + / 2 - IZR 9007199254740991) with (/ 2) by ring.
      rewrite Rcompare_Eq by reflexivity. cbn [Z.even negb]. apply Zceil_imp. split; [change (9007199254740992 - 1)%Z with 9007199254740991%Z; lra|].
      lra.
    + cbn. lra.
Qed.
