From Coq Require Import Reals Lra Psatz.
From Flocq Require Import Core Relative.
From Verif Require Import Base Arr IndexerModel BndPrtModel BndPrtSpec BndPrtProofs BndPrtExact.
Local Open Scope R_scope.

(** relative rounding error of single precision *)
Definition ee : R := / 16777216.

(** ** one direction, for any arithmetic with these error bounds *)
Section Dir.
  Variables (a : arith) (fmt : R -> Prop) (eta : R) (g : pgeom) (d : dim3).
  Let ps := get3 (pg_ps g) d.
  Let dxi := get3 (pg_dxi g) d.
  Let ld := get3 (pg_ld g) d.
  Hypothesis Hmono : forall x y, x <= y -> rnd a x <= rnd a y.
  Hypothesis Hfmt : forall x, fmt (rnd a x).
  Hypothesis Hid : forall x, fmt x -> rnd a x = x.
  Hypothesis H0 : fmt 0.
  Hypothesis Hopp : forall x, fmt x -> fmt (- x).
  Hypothesis Hdbl : forall x, fmt x -> fmt (2 * x).
  Hypothesis Herr : forall x, Rabs (rnd a x - x) <= ee * Rabs x + eta.
  Hypothesis Hmonod : forall x y, x <= y -> rndd a x <= rndd a y.
  Hypothesis H0d : rndd a 0 = 0.
  Hypothesis Herrd : forall x, Rabs (rndd a x - x) <= ee * Rabs x + eta.
  Hypothesis Hshrink : 0 <= shrink a <= 1 - 16 * ee.
  Hypothesis Htiny : 4 * (64 * ee) * / 256 <= tiny a.
  Hypothesis Heta : 0 < eta <= ee / 64.
  Hypothesis Hdxi : eta <= dxi * (ee / 64).
  Hypothesis Hdxi2 : dxi * eta <= ee / 64.
  Hypothesis Hld : (0 < ld <= 2 ^ 24)%Z.
  Hypothesis Hps : fmt ps.
  Hypothesis Hpsdxi : ps * dxi <= IZR ld * (1 + 4 * ee).
  Hypothesis Hcons : forall x, fmt x -> ps < x -> IZR ld <= rnd a (x * dxi).

  Let L := IZR ld.
  Let K := ps * dxi.

  Lemma L_ge : 1 <= L <= 16777216.
  Proof. unfold L. split; [apply (IZR_le 1); lia|apply (IZR_le ld (2 ^ 24)); lia]. Qed.

  Lemma dxi_pos : 0 < dxi.
  Proof. unfold ee in *. nra. Qed.

  Lemma rnd0 : rnd a 0 = 0.
  Proof. apply Hid. exact H0. Qed.

  Lemma rnd_nonneg x : 0 <= x -> 0 <= rnd a x.
  Proof. intros H. rewrite <- rnd0. apply Hmono. exact H. Qed.

  Lemma rnd_up x : 0 <= x -> rnd a x <= x * (1 + ee) + eta.
  Proof. intros H. pose proof (Herr x) as E. rewrite (Rabs_pos_eq x) in E by exact H. apply Rabs_le_inv in E. lra. Qed.
  Lemma rnd_dn x : 0 <= x -> x * (1 - ee) - eta <= rnd a x.
  Proof. intros H. pose proof (Herr x) as E. rewrite (Rabs_pos_eq x) in E by exact H. apply Rabs_le_inv in E. lra. Qed.
  Lemma rndd_up x : 0 <= x -> rndd a x <= x * (1 + ee) + eta.
  Proof. intros H. pose proof (Herrd x) as E. rewrite (Rabs_pos_eq x) in E by exact H. apply Rabs_le_inv in E. lra. Qed.
  Lemma rndd_nonneg x : 0 <= x -> 0 <= rndd a x.
  Proof. intros H. rewrite <- H0d. apply Hmonod. exact H. Qed.

  Lemma ps_positive : 0 < ps.
  Proof.
    destruct (Rlt_or_le 0 ps) as [H|H]; [exact H|exfalso].
    destruct (Req_dec ps 0) as [E|E].
    - (* a small positive format number: rnd of 4 eta/... *)
      pose proof dxi_pos as DP. pose proof L_ge as LG.
      set (t := rnd a (/ 2 / dxi)). assert (Ht : 0 <= / 2 / dxi) by (apply Rmult_le_pos; [lra|left; apply Rinv_0_lt_compat; exact DP]).
      pose proof (rnd_up _ Ht) as U. pose proof (rnd_dn _ Ht) as D. fold t in U, D.
      assert (D1 : (/ 2 / dxi) * dxi = / 2) by (field; lra).
      assert (TP : 0 < t * dxi). { apply Rlt_le_trans with ((/ 2 / dxi * (1 - ee) - eta) * dxi); [|apply Rmult_le_compat_r; lra].
        replace ((/ 2 / dxi * (1 - ee) - eta) * dxi) with (/ 2 / dxi * dxi * (1 - ee) - dxi * eta) by ring. rewrite D1. unfold ee in *. lra. }
      assert (TU : t * dxi <= / 2 * (1 + ee) + dxi * eta). { apply Rle_trans with ((/ 2 / dxi * (1 + ee) + eta) * dxi); [apply Rmult_le_compat_r; lra|].
        replace ((/ 2 / dxi * (1 + ee) + eta) * dxi) with (/ 2 / dxi * dxi * (1 + ee) + dxi * eta) by ring. rewrite D1. lra. }
      assert (T0 : ps < t). { rewrite E. apply (Rmult_lt_reg_r dxi); [exact DP|]. lra. }
      pose proof (Hcons t (Hfmt _) T0) as C. fold L in C. pose proof (rnd_up (t * dxi) ltac:(lra)) as U2. unfold ee in *. lra.
    - assert (P : ps < 0) by lra. pose proof (Hcons 0 H0 P) as C. fold L in C. rewrite Rmult_0_l, rnd0 in C. pose proof L_ge. lra.
  Qed.

  Lemma K_pos : 2 / 5 <= K.
  Proof.
    pose proof ps_positive as PP. pose proof dxi_pos as DP. pose proof L_ge as LG.
    pose proof (Hcons (2 * ps) (Hdbl _ Hps) ltac:(lra)) as C. fold L in C. replace (2 * ps * dxi) with (2 * K) in C by (unfold K; ring).
    assert (0 <= K) by (unfold K; apply Rmult_le_pos; lra). pose proof (rnd_up (2 * K) ltac:(lra)) as U. unfold ee in *. lra.
  Qed.

  Lemma cell_lt z : 0 <= z * dxi <= L * (1 - 2 * ee) -> (0 <= cell_of a dxi z < ld)%Z.
  Proof.
    intros [Z1 Z2]. unfold cell_of. pose proof L_ge as LG. split.
    - apply floor_ge. apply rnd_nonneg. exact Z1.
    - apply floor_lt. fold L. pose proof (rnd_up _ Z1) as U. unfold ee in *. nra.
  Qed.

  Lemma cell_zero : (0 <= cell_of a dxi 0 < ld)%Z.
  Proof. apply cell_lt. pose proof L_ge. rewrite Rmult_0_l. unfold ee. nra. Qed.

  (** the check accepts a position of a valid cell *)
  Lemma check_valid z : (0 <= cell_of a dxi z < ld)%Z -> z <= ps ->
    exists z', bnd_check a ps z = Some z' /\ (0 <= cell_of a dxi z' < ld)%Z.
  Proof.
    intros HC HP. unfold bnd_check. pose proof dxi_pos as DP. pose proof ps_positive as PP.
    destruct (Rlt_or_le z 0) as [N|N].
    - assert (C : 0 <= rnd a (z * dxi)) by (apply floor_ge, HC).
      assert (B : - tiny a < z).
      { pose proof (Herr (z * dxi)) as E. assert (z * dxi < 0) by nra. rewrite (Rabs_left1 (z * dxi)) in E by lra. apply Rabs_le_inv in E.
        assert (- (z * dxi) * (1 - ee) <= eta) by (unfold ee in *; lra).
        assert (- z * dxi * (1 - ee) <= dxi * (ee / 64)) by lra.
        assert (- z * (1 - ee) <= ee / 64). { apply (Rmult_le_reg_r dxi); [exact DP|]. lra. }
        unfold ee in *. lra. }
      destruct (Rlt_bool_spec z 0); [|lra]. destruct (Rlt_bool_spec (- tiny a) z); [|lra]. cbn [andb].
      destruct (Rle_bool_spec 0 0); [|lra]. destruct (Rle_bool_spec 0 ps); [|lra]. exists 0. split; [reflexivity|apply cell_zero].
    - destruct (Rlt_bool_spec z 0); [lra|]. cbn [andb]. destruct (Rle_bool_spec 0 z); [|lra]. destruct (Rle_bool_spec z ps); [|lra].
      exists z. split; [reflexivity|exact HC].
  Qed.

  (** a position in a cell below ld is not beyond the patch size *)
  Lemma below_ps z : fmt z -> (cell_of a dxi z < ld)%Z -> z <= ps.
  Proof.
    intros Hz HC. destruct (Rle_or_lt z ps) as [H|H]; [exact H|]. pose proof (Hcons z Hz H) as C. unfold cell_of in HC. apply floor_lt in HC. lra.
  Qed.

  Lemma int_ok z : - (4 * L) <= z * dxi <= 4 * L -> cell_position a dxi z = Some (cell_of a dxi z).
  Proof.
    intros H. unfold cell_position, int_op, is_int. fold (cell_of a dxi z). pose proof L_ge as LG.
    pose proof (Herr (z * dxi)) as E. assert (Rabs (z * dxi) <= 4 * L) by (apply Rabs_le; lra). apply Rabs_le_inv in E.
    assert (B : - 134217728 <= rnd a (z * dxi) < 134217728) by (unfold ee in *; lra).
    assert (- 134217728 <= cell_of a dxi z)%Z by (unfold cell_of; apply floor_ge; lra).
    assert (cell_of a dxi z < 134217728)%Z by (unfold cell_of; apply floor_lt; lra).
    destruct (Z.leb_spec (- 2 ^ 31) (cell_of a dxi z)); [|lia]. destruct (Z.ltb_spec (cell_of a dxi z) (2 ^ 31)); [reflexivity|lia].
  Qed.

  Lemma dir_float x u : fmt x -> - (15 / 16) * ps <= x <= 31 / 16 * ps ->
    exists m, bnd_dir a g d (cell_of a dxi x) x u = Some m /\
    match m with Dropped => True | Moved y _ _ => exists z, bnd_check a ps y = Some z /\ (0 <= cell_of a dxi z < ld)%Z end.
  Proof.
    intros Fx Hx. pose proof ps_positive as PP. pose proof dxi_pos as DP. pose proof L_ge as LG. pose proof K_pos as KP.
    assert (KL : K <= L * (1 + 4 * ee)) by exact Hpsdxi.
    assert (EE : 0 < ee) by (unfold ee; lra).
    unfold bnd_dir. fold ld ps dxi.
    destruct (Z.ltb_spec (cell_of a dxi x) 0) as [N|N].
    - assert (XN : x < 0). { destruct (Rlt_or_le x 0) as [H|H]; [exact H|]. exfalso. unfold cell_of in N. apply floor_lt in N.
        pose proof (rnd_nonneg (x * dxi) ltac:(apply Rmult_le_pos; lra)). lra. }
      destruct (negb (get3 (pg_at_lo g) d) || is_periodic (get3 (pg_lo g) d)).
      + assert (Y1 : rnd a (x + ps) <= ps) by (rewrite <- (Hid ps Hps) at 2; apply Hmono; lra).
        assert (Y0 : 0 <= rnd a (x + ps)) by (apply rnd_nonneg; lra).
        rewrite int_ok. 2: { split; [assert (0 <= rnd a (x + ps) * dxi) by (apply Rmult_le_pos; lra); lra|].
          apply Rle_trans with K; [unfold K; apply Rmult_le_compat_r; lra|]. unfold ee in *. lra. }
        eexists. split; [reflexivity|]. destruct (Z.leb_spec ld (cell_of a dxi (rnd a (x + ps)))) as [C|C].
        * apply check_valid; [apply cell_zero|lra].
        * apply check_valid; [split; [|exact C]|exact Y1]. apply floor_ge. apply rnd_nonneg. apply Rmult_le_pos; lra.
      + destruct (get3 (pg_lo g) d); try (eexists; split; [reflexivity|exact I]). eexists. split; [reflexivity|].
        apply check_valid; [|lra]. apply cell_lt. split; [apply Rmult_le_pos; lra|].
        apply Rle_trans with (15 / 16 * K); [unfold K; rewrite <- Rmult_assoc; apply Rmult_le_compat_r; lra|]. unfold ee in *. lra.
    - destruct (Z.leb_spec ld (cell_of a dxi x)) as [C|C].
      + assert (XC : L <= rnd a (x * dxi)) by (apply floor_ge; exact C).
        assert (XP : 0 < x). { destruct (Rlt_or_le 0 x) as [H|H]; [exact H|]. exfalso. pose proof (Hmono (x * dxi) 0 ltac:(nra)) as M. rewrite rnd0 in M. lra. }
        assert (XL : L <= x * dxi * (1 + ee) + eta). { eapply Rle_trans; [exact XC|]. apply rnd_up. apply Rmult_le_pos; lra. }
        destruct (negb (get3 (pg_at_hi g) d) || is_periodic (get3 (pg_hi g) d)).
        * assert (Y1 : rnd a (x - ps) <= ps) by (rewrite <- (Hid ps Hps) at 2; apply Hmono; lra).
          assert (Y0 : - ps <= rnd a (x - ps)) by (rewrite <- (Hid (- ps) (Hopp _ Hps)); apply Hmono; lra).
          rewrite int_ok. 2: { assert (- (ps * dxi) <= rnd a (x - ps) * dxi <= ps * dxi) by (split; [replace (- (ps * dxi)) with (- ps * dxi) by ring|]; apply Rmult_le_compat_r; lra).
            fold K in H. unfold ee in *. lra. }
          eexists. split; [reflexivity|]. destruct (Z.ltb_spec (cell_of a dxi (rnd a (x - ps))) 0) as [M|M].
          -- apply check_valid; [apply cell_zero|lra].
          -- apply check_valid; [split; [exact M|]|exact Y1]. unfold cell_of. apply floor_lt. fold L.
             assert (Z1 : rnd a (x - ps) <= rnd a (15 / 16 * ps)) by (apply Hmono; lra). pose proof (rnd_up (15 / 16 * ps) ltac:(lra)) as U.
             assert (Z2 : rnd a (x - ps) * dxi <= 15 / 16 * K * (1 + ee) + dxi * eta).
             { apply Rle_trans with ((15 / 16 * ps * (1 + ee) + eta) * dxi); [apply Rmult_le_compat_r; lra|]. unfold K. lra. }
             assert (Z3 : rnd a (rnd a (x - ps) * dxi) <= rnd a (15 / 16 * K * (1 + ee) + dxi * eta)) by (apply Hmono; exact Z2).
             assert (0 <= dxi * eta) by (apply Rmult_le_pos; lra).
             pose proof (rnd_up (15 / 16 * K * (1 + ee) + dxi * eta) ltac:(unfold ee in *; lra)) as U2. unfold ee in *. lra.
        * destruct (get3 (pg_hi g) d); try (eexists; split; [reflexivity|exact I]).
          rewrite (Hid (2 * ps)) by (apply Hdbl; exact Hps). set (y := rnd a (2 * ps - x)).
          assert (Y0 : 0 <= y) by (apply rnd_nonneg; lra). assert (Fy : fmt y) by apply Hfmt.
          pose proof (rnd_up (2 * ps - x) ltac:(lra)) as U. fold y in U.
          assert (YD : y * dxi <= (2 * K - x * dxi) * (1 + ee) + dxi * eta).
          { apply Rle_trans with (((2 * ps - x) * (1 + ee) + eta) * dxi); [apply Rmult_le_compat_r; lra|]. unfold K. lra. }
          assert (YD0 : 0 <= y * dxi) by (apply Rmult_le_pos; lra).
          assert (XK : 0 <= x * dxi) by (apply Rmult_le_pos; lra).
          assert (ETA : 0 <= dxi * eta) by (apply Rmult_le_pos; lra).
          assert (YB : y * dxi <= 2 * K * (1 + ee) - L + eta + dxi * eta) by lra.
          rewrite int_ok by (unfold ee in *; lra).
          eexists. split; [reflexivity|]. destruct (Z.leb_spec ld (cell_of a dxi y)) as [M|M].
          -- set (v := rndd a (y * shrink a)). set (w := rnd a v).
             assert (S0 : 0 <= y * shrink a) by (apply Rmult_le_pos; lra).
             assert (V0 : 0 <= v) by (apply rndd_nonneg; exact S0). assert (W0 : 0 <= w) by (apply rnd_nonneg; exact V0).
             pose proof (rndd_up _ S0) as VU. fold v in VU. pose proof (rnd_up _ V0) as WU. fold w in WU.
             assert (SD : y * shrink a * dxi <= y * dxi * (1 - 16 * ee)).
             { replace (y * shrink a * dxi) with (y * dxi * shrink a) by ring. apply Rmult_le_compat_l; lra. }
             assert (VD : v * dxi <= y * shrink a * dxi * (1 + ee) + dxi * eta).
             { apply Rle_trans with ((y * shrink a * (1 + ee) + eta) * dxi); [apply Rmult_le_compat_r; lra|]. lra. }
             assert (WD : w * dxi <= v * dxi * (1 + ee) + dxi * eta).
             { apply Rle_trans with ((v * (1 + ee) + eta) * dxi); [apply Rmult_le_compat_r; lra|]. lra. }
             assert (WD0 : 0 <= w * dxi) by (apply Rmult_le_pos; lra).
             apply check_valid.
             ++ apply cell_lt. split; [exact WD0|]. unfold ee in *. lra.
             ++ apply (Rmult_le_reg_r dxi); [exact DP|]. fold K. unfold ee in *. lra.
          -- apply check_valid; [split; [|exact M]|apply below_ps; assumption]. apply floor_ge. apply rnd_nonneg. exact YD0.
      + eexists. split; [reflexivity|]. apply check_valid; [split; assumption|]. apply below_ps; assumption.
  Qed.
End Dir.

(** ** round to nearest *)
Lemma bpow_neg24 : bpow radix2 (-24) = ee.
Proof. unfold ee. cbn. lra. Qed.

Section Flt.
  Variables (prec emin : Z) (choice : Z -> bool).
  Hypothesis Hprec : (24 <= prec)%Z.
  Hypothesis Hemin : (emin <= -149)%Z.
  Let fexp := FLT_exp emin prec.
  Local Instance prec_gt_0 : Prec_gt_0 prec.
  Proof. unfold Prec_gt_0. lia. Qed.

  Lemma near_mono x y : x <= y -> nearest prec emin choice x <= nearest prec emin choice y.
  Proof. intros H. unfold nearest. apply round_le; [apply FLT_exp_valid, prec_gt_0|apply valid_rnd_N|exact H]. Qed.

  Lemma near_fmt x : representable prec emin (nearest prec emin choice x).
  Proof. unfold nearest, representable. apply generic_format_round; [apply FLT_exp_valid, prec_gt_0|apply valid_rnd_N]. Qed.

  Lemma near_id x : representable prec emin x -> nearest prec emin choice x = x.
  Proof. intros H. unfold nearest. apply round_generic; [apply valid_rnd_N|exact H]. Qed.

  Lemma rep_0 : representable prec emin 0.
  Proof. apply generic_format_0. Qed.

  Lemma rep_opp x : representable prec emin x -> representable prec emin (- x).
  Proof. apply generic_format_opp. Qed.

  Lemma rep_dbl x : representable prec emin x -> representable prec emin (2 * x).
  Proof.
    intros H. apply FLT_format_generic in H; [|apply prec_gt_0]. destruct H as [[m e] H1 H2 H3]. cbn [Fnum Fexp] in *.
    apply generic_format_FLT. apply (FLT_spec radix2 emin prec (2 * x) (Float radix2 m (e + 1))).
    - rewrite H1. unfold F2R. cbn [Fnum Fexp]. rewrite bpow_plus. change (bpow radix2 1) with 2. ring.
    - exact H2.
    - cbn [Fexp]. lia.
  Qed.

  Lemma rep_int n : (Z.abs n <= 2 ^ 24)%Z -> representable prec emin (IZR n).
  Proof.
    intros H. destruct (Z.eq_dec (Z.abs n) (2 ^ prec)) as [E|E].
    - assert (prec = 24)%Z. { assert (2 ^ 24 <= 2 ^ prec)%Z by (apply Z.pow_le_mono_r; lia). destruct (Z.eq_dec prec 24); [assumption|].
        assert (2 ^ 24 < 2 ^ prec)%Z by (apply Z.pow_lt_mono_r; lia). lia. }
      apply generic_format_FLT. apply (FLT_spec radix2 emin prec _ (Float radix2 (n / 2) 1)).
      + unfold F2R. cbn [Fnum Fexp]. change (bpow radix2 1) with 2. rewrite <- mult_IZR. f_equal. subst prec. rewrite <- E in H. assert (Z.abs n = 2 * 2 ^ 23)%Z by (rewrite E; reflexivity). lia.
      + cbn [Fnum]. change (radix2 ^ prec)%Z with (2 ^ prec)%Z. subst prec. lia.
      + cbn [Fexp]. lia.
    - apply generic_format_FLT. apply (FLT_spec radix2 emin prec _ (Float radix2 n 0)).
      + unfold F2R. cbn [Fnum Fexp bpow]. ring.
      + cbn [Fnum]. change (radix2 ^ prec)%Z with (2 ^ prec)%Z. assert (2 ^ 24 <= 2 ^ prec)%Z by (apply Z.pow_le_mono_r; lia). lia.
      + cbn [Fexp]. lia.
  Qed.

  Lemma near_err x : Rabs (nearest prec emin choice x - x) <= ee * Rabs x + bpow radix2 (emin - 1).
  Proof.
    destruct (error_N_FLT radix2 emin prec ltac:(lia) choice x) as [eps [eta [He [Ht [_ E]]]]]. unfold nearest. rewrite E.
    replace (x * (1 + eps) + eta - x) with (x * eps + eta) by ring. eapply Rle_trans; [apply Rabs_triang|]. rewrite Rabs_mult.
    assert (B : Rabs eps <= ee). { eapply Rle_trans; [exact He|]. rewrite <- bpow_neg24. change (/ 2) with (bpow radix2 (-1)). rewrite <- bpow_plus. apply bpow_le. lia. }
    assert (B2 : Rabs eta <= bpow radix2 (emin - 1)). { eapply Rle_trans; [exact Ht|]. change (/ 2) with (bpow radix2 (-1)). rewrite <- bpow_plus. apply bpow_le. lia. }
    assert (Rabs x * Rabs eps <= Rabs x * ee) by (apply Rmult_le_compat_l; [apply Rabs_pos|exact B]). lra.
  Qed.
End Flt.

Section Process.
  Context {T : Type}.
  Variables (prec emin precd emind : Z) (choice choiced : Z -> bool) (s t : R).
  Hypothesis Hprec : (24 <= prec)%Z.
  Hypothesis Hemin : (emin <= -149)%Z.
  Hypothesis Hprecd : (24 <= precd)%Z.
  Hypothesis Hemind : (emind <= emin)%Z.
  Hypothesis Hs : 0 <= s <= 1 - / 1048576.
  Hypothesis Ht : / 16777216 <= t.
  Let a : arith := {| rnd := nearest prec emin choice; rndd := nearest precd emind choiced; shrink := s; tiny := t |}.
  Variable g : pgeom.
  Hypothesis WF : wf_geom g.
  Hypothesis FG : float_geom prec emin choice g.

  Definition eta0 : R := bpow radix2 (emin - 1).

  Lemma eta_bounds d : 0 < eta0 <= ee / 64 /\ eta0 <= get3 (pg_dxi g) d * (ee / 64) /\ get3 (pg_dxi g) d * eta0 <= ee / 64.
  Proof.
    assert (E : ee / 64 = bpow radix2 (-30)). { unfold ee. cbn. lra. }
    destruct (FG d) as [_ [_ [[D1 D2] _]]]. unfold eta0. rewrite E. split; [split; [apply bpow_gt_0|apply bpow_le; lia]|]. split.
    - apply Rle_trans with (bpow radix2 (emin + 30) * bpow radix2 (-30)); [rewrite <- bpow_plus; apply bpow_le; lia|].
      apply Rmult_le_compat_r; [apply bpow_ge_0|exact D1].
    - apply Rle_trans with (bpow radix2 (- emin - 30) * bpow radix2 (emin - 1)); [apply Rmult_le_compat_r; [apply bpow_ge_0|exact D2]|].
      rewrite <- bpow_plus. apply bpow_le. lia.
  Qed.

  Lemma dir_flt d x u : representable prec emin x -> - (15 / 16) * get3 (pg_ps g) d <= x <= 31 / 16 * get3 (pg_ps g) d ->
    exists m, bnd_dir a g d (cell_of a (get3 (pg_dxi g) d) x) x u = Some m /\
    match m with Dropped => True | Moved y _ _ => exists z, bnd_check a (get3 (pg_ps g) d) y = Some z /\ (0 <= cell_of a (get3 (pg_dxi g) d) z < get3 (pg_ld g) d)%Z end.
  Proof.
    intros Fx Hx. destruct (eta_bounds d) as [E1 [E2 E3]]. destruct (FG d) as [LD [FP [_ [KL CO]]]]. destruct WF as [WF1 _]. specialize (WF1 d).
    apply (dir_float a (representable prec emin) eta0 g d); try assumption; cbn [a rnd rndd shrink tiny].
    - intros; apply near_mono; assumption.
    - intros; apply near_fmt; assumption.
    - intros; apply near_id; assumption.
    - apply rep_0.
    - intros; apply rep_opp; assumption.
    - intros; apply rep_dbl; assumption.
    - intros; apply near_err; assumption.
    - intros; apply near_mono; assumption.
    - apply near_id. apply rep_0.
    - intros y. eapply Rle_trans; [apply near_err; lia|]. apply Rplus_le_compat_l. unfold eta0. apply bpow_le. lia.
    - unfold ee. lra.
    - unfold ee. lra.
    - lia.
    - unfold ee. lra.
    - intros y Fy Hy. apply floor_ge. apply CO; assumption.
  Qed.

  Lemma int_flt d x : - (15 / 16) * get3 (pg_ps g) d <= x <= 31 / 16 * get3 (pg_ps g) d -> cell_position a (get3 (pg_dxi g) d) x = Some (cell_of a (get3 (pg_dxi g) d) x).
  Proof.
    intros Hx. destruct (eta_bounds d) as [E1 [E2 E3]]. destruct (FG d) as [LD [FP [[D1 _] [KL CO]]]]. destruct WF as [WF1 _]. specialize (WF1 d).
    assert (DP : 0 < get3 (pg_dxi g) d) by (eapply Rlt_le_trans; [apply bpow_gt_0|exact D1]).
    apply (int_ok a (representable prec emin) eta0 g d); cbn [a rnd rndd].
    - intros; apply near_mono; assumption.
    - intros; apply near_fmt; assumption.
    - intros; apply near_id; assumption.
    - intros; apply rep_opp; assumption.
    - intros; apply rep_dbl; assumption.
    - intros; apply near_err; assumption.
    - intros; apply near_mono; assumption.
    - intros y. eapply Rle_trans; [apply near_err; lia|]. apply Rplus_le_compat_l. unfold eta0. apply bpow_le. lia.
    - exact E1.
    - lia.
    - intros y Fy Hy. apply floor_ge. apply CO; assumption.
    - assert (L1 : 1 <= IZR (get3 (pg_ld g) d)) by (apply (IZR_le 1); lia).
      assert (- (15 / 16) * get3 (pg_ps g) d * get3 (pg_dxi g) d <= x * get3 (pg_dxi g) d <= 31 / 16 * get3 (pg_ps g) d * get3 (pg_dxi g) d) by (split; apply Rmult_le_compat_r; lra).
      lra.
  Qed.

  Lemma int_valid d z : (0 <= cell_of a (get3 (pg_dxi g) d) z < get3 (pg_ld g) d)%Z -> cell_position a (get3 (pg_dxi g) d) z = Some (cell_of a (get3 (pg_dxi g) d) z).
  Proof.
    intros H. destruct (FG d) as [LD _]. unfold cell_position, int_op, is_int. fold (cell_of a (get3 (pg_dxi g) d) z).
    destruct (Z.leb_spec (- 2 ^ 31) (cell_of a (get3 (pg_dxi g) d) z)); [|lia]. destruct (Z.ltb_spec (cell_of a (get3 (pg_dxi g) d) z) (2 ^ 31)); [reflexivity|lia].
  Qed.

  Lemma cell3 x : (forall d, cell_position a (get3 (pg_dxi g) d) (get3 x d) = Some (cell_of a (get3 (pg_dxi g) d) (get3 x d))) ->
    cell_position3 a g x = Some (gen3 (fun d => cell_of a (get3 (pg_dxi g) d) (get3 x d))).
  Proof.
    intros H. unfold cell_position3. pose proof (H D0) as C0. pose proof (H D1) as C1. pose proof (H D2) as C2. cbn [get3] in C0, C1, C2. rewrite C0, C1, C2. reflexivity.
  Qed.

  Lemma process_one_float (prt : particle T) : (forall d, representable prec emin (get3 (p_x prt) d)) -> near_float g (p_x prt) ->
    exists f, process_one a g prt = Some f /\ match f with Keep q | Send _ q => in_cells a g (p_x q) | Drop => True end.
  Proof.
    intros FX HN. pose proof (fun d => dir_flt d (get3 (p_x prt) d) (get3 (p_u prt) d) (FX d) (HN d)) as DE.
    pose proof (cell3 (p_x prt) (fun d => int_flt d _ (HN d))) as EP. set (pos := gen3 _) in EP.
    assert (DD : forall d, dir_of a g pos (p_x prt) (p_u prt) d = bnd_dir a g d (cell_of a (get3 (pg_dxi g) d) (get3 (p_x prt) d)) (get3 (p_x prt) d) (get3 (p_u prt) d)).
    { intros d. unfold dir_of, pos. rewrite get3_gen3. reflexivity. }
    assert (AX : forall d y w k z, dir_of a g pos (p_x prt) (p_u prt) d = Some (Moved y w k) -> bnd_check a (get3 (pg_ps g) d) y = Some z ->
       (0 <= cell_of a (get3 (pg_dxi g) d) z < get3 (pg_ld g) d)%Z).
    { intros d y w k z E1 E2. rewrite DD in E1. destruct (DE d) as [m [Em Hm]]. rewrite Em in E1. injection E1 as ->.
      destruct Hm as [z' [Ez Hz]]. rewrite Ez in E2. injection E2 as <-. exact Hz. }
    assert (OK : exists f, process_one a g prt = Some f).
    { unfold process_one. rewrite EP. destruct (is_valid_cell_position (pg_ld g) pos); [eexists; reflexivity|].
      destruct (bnd_fold_ok a g pos (p_x prt) (p_u prt)) as [[[[x u] dir] drop] EF].
      { intros d. destruct (DE d) as [m [Em Hm]]. exists m. split; [rewrite DD; exact Em|]. destruct m as [y w k|]; [|exact I].
        destruct Hm as [z [Ez _]]. rewrite Ez. discriminate. }
      rewrite EF. destruct drop; [eexists; reflexivity|]. destruct ((c0 dir =? 0) && (c1 dir =? 0) && (c2 dir =? 0))%Z; [|eexists; reflexivity].
      apply bnd_fold_some in EF.
      assert (IN : in_cells a g x) by (intros d; destruct (EF d) as [y [E1 E2]]; exact (AX d _ _ _ _ E1 E2)).
      rewrite (cell3 x (fun d => int_valid d _ (IN d))).
      destruct (valid_index g WF (gen3 (fun d => cell_of a (get3 (pg_dxi g) d) (get3 x d)))) as [i ->]; [|eexists; reflexivity].
      intros d. rewrite get3_gen3. apply IN. }
    destruct OK as [f Ef]. exists f. split; [exact Ef|].
    pose proof (process_one_outcome a g prt f Ef) as O.
    destruct O as [pos' EP' EV|pos' q cpos i EP' EV HD ET EC EI|pos' q dir EP' EV HD ET ED|pos' d EP' EV HD]; try (assert (pos' = pos) by congruence; subst pos').
    - intros d. assert (C := cell_position3_some a g _ _ EP). pose proof (proj1 (valid_iff g WF pos (fun e => proj2 (C e))) EV d) as EV'.
      rewrite (proj1 (C d)) in EV'. exact EV'.
    - intros d. destruct (HD d) as [y [E1 E2]]. exact (AX d _ _ _ _ E1 E2).
    - intros d. destruct (HD d) as [y [E1 E2]]. exact (AX d _ _ _ _ E1 E2).
    - exact I.
  Qed.

  (** patches with size times inverse spacing not less than the number of cells are consistent *)
  Lemma consistent_if ps dxi ld : (0 < ld <= 2 ^ 24)%Z -> 0 < dxi -> IZR ld <= ps * dxi ->
    forall x, representable prec emin x -> ps < x -> (ld <= Zfloor (nearest prec emin choice (x * dxi)))%Z.
  Proof.
    intros HL HD HP x _ Hx. apply floor_ge. rewrite <- (near_id prec emin choice (IZR ld)); [|apply rep_int; [exact choice|exact Hprec|exact Hemin|rewrite Z.abs_eq; lia]].
    apply near_mono; [assumption|]. apply Rle_trans with (ps * dxi); [exact HP|]. apply Rmult_le_compat_r; lra.
  Qed.
End Process.

(** ** values of roundings *)
Lemma nearest_val prec emin choice e m v : (0 < prec)%Z -> (emin <= e)%Z -> bpow radix2 (e + prec - 1) <= v < bpow radix2 (e + prec) ->
  Rabs (v * bpow radix2 (- e) - IZR m) < / 2 -> nearest prec emin choice v = IZR m * bpow radix2 e.
Proof.
  intros Hp He Hv Hm. unfold nearest, round, F2R. cbn [Fnum Fexp].
  assert (EM : (mag radix2 v : Z) = (e + prec)%Z). { apply mag_unique. rewrite Rabs_pos_eq; [exact Hv|]. eapply Rle_trans; [apply bpow_ge_0|apply Hv]. }
  assert (EC : cexp radix2 (FLT_exp emin prec) v = e). { unfold cexp. rewrite EM. unfold FLT_exp. lia. }
  unfold scaled_mantissa. rewrite EC. f_equal. f_equal. apply Znearest_imp. exact Hm.
Qed.

(** ** a patch in double precision where an assertion fails *)
Definition double (ch : Z -> bool) : arith := {| rnd := nearest 53 (-1074) ch; rndd := nearest 53 (-1074) ch; shrink := nearest 53 (-1074) ch (1 - / 1000000); tiny := / 1000000 |}.

(** the last of five patches in x of a domain of length 1 with 10 cells: the size is the
    difference of the rounded corners *)
Definition tenth : R := 3602879701896397 * / 36028797018963968.
Definition bad_ps : R := 900719925474099 * / 4503599627370496.
Definition bad_x : R := 7205759403792793 * / 36028797018963968.
Definition bad_geom : pgeom := {| pg_ld := (v3 2 4 1)%Z; pg_dxi := v3 10 4 1; pg_ps := v3 bad_ps 1 1;
  pg_at_lo := v3 false true true; pg_at_hi := v3 true true true;
  pg_lo := v3 PRT_PERIODIC PRT_PERIODIC PRT_PERIODIC; pg_hi := v3 PRT_PERIODIC PRT_PERIODIC PRT_PERIODIC |}.
Definition bad_prt : particle unit := mkP (v3 bad_x (-1 / 16) 0) (v3 0 0 0) tt.

Lemma rep_F2R m e : (Z.abs m < 2 ^ 53)%Z -> (-1074 <= e)%Z -> representable 53 (-1074) (IZR m * bpow radix2 e).
Proof. intros H He. apply generic_format_FLT. apply (FLT_spec radix2 _ _ _ (Float radix2 m e)); [reflexivity|exact H|exact He]. Qed.

Lemma double_id ch m e v : v = IZR m * bpow radix2 e -> (Z.abs m < 2 ^ 53)%Z -> (-1074 <= e)%Z -> nearest 53 (-1074) ch v = v.
Proof. intros -> H He. apply near_id. apply rep_F2R; assumption. Qed.

(** spacing, corners and size are what the grid computes: dx = 1 / 10, xb = 8 * dx, xe = 10 * dx, size xe - xb *)
Lemma bad_grid ch : nearest 53 (-1074) ch (1 / 10) = tenth /\ nearest 53 (-1074) ch (8 * tenth) = 8 * tenth /\
  nearest 53 (-1074) ch (10 * tenth) = 1 /\ nearest 53 (-1074) ch (1 - 8 * tenth) = bad_ps /\ nearest 53 (-1074) ch (10 / 1) = 10.
Proof.
  unfold tenth, bad_ps. repeat split.
  - rewrite (nearest_val 53 (-1074) ch (-56) 7205759403792794); [cbn; lra|lia|lia|cbn; lra|]. apply Rabs_def1; cbn; lra.
  - apply (double_id ch 3602879701896397 (-52)); [cbn; lra|lia|lia].
  - rewrite (nearest_val 53 (-1074) ch (-52) 4503599627370496); [cbn; lra|lia|lia|cbn; lra|]. apply Rabs_def1; cbn; lra.
  - rewrite (double_id ch 900719925474099 (-52)); [lra|cbn; lra|lia|lia].
  - rewrite (double_id ch 10 0); [lra|cbn; lra|lia|lia].
Qed.

Lemma bad_representable d : representable 53 (-1074) (get3 (p_x bad_prt) d).
Proof.
  destruct d; cbn [bad_prt p_x get3 c0 c1 c2].
  - replace bad_x with (IZR 7205759403792793 * bpow radix2 (-55)) by (unfold bad_x; cbn; lra). apply rep_F2R; lia.
  - replace (-1 / 16) with (IZR (-1) * bpow radix2 (-4)) by (cbn; lra). apply rep_F2R; lia.
  - apply rep_0.
Qed.

Lemma bad_near : near_float bad_geom (p_x bad_prt).
Proof. intros []; cbn [bad_geom bad_prt p_x pg_ps get3 c0 c1 c2]; unfold bad_ps, bad_x; lra. Qed.

Lemma bad_wf : wf_geom bad_geom.
Proof. split; [intros []; cbn; lia|cbn; lia]. Qed.

Lemma Zfloor_val x n : IZR n <= x < IZR n + 1 -> Zfloor x = n.
Proof. intros H. apply Zfloor_imp. rewrite plus_IZR. exact H. Qed.

Lemma bad_fails ch : process_one (double ch) bad_geom bad_prt = None.
Proof.
  assert (C0 : nearest 53 (-1074) ch (bad_x * 10) = 9007199254740991 * / 4503599627370496).
  { rewrite (nearest_val 53 (-1074) ch (-52) 9007199254740991); [cbn; lra|lia|lia|unfold bad_x; cbn; lra|]. unfold bad_x. apply Rabs_def1; cbn; lra. }
  assert (C1 : nearest 53 (-1074) ch (-1 / 16 * 4) = -1 / 4) by (rewrite (double_id ch (-1) (-2)); [lra|cbn; lra|lia|lia]).
  assert (C2 : nearest 53 (-1074) ch (0 * 1) = 0) by (rewrite (double_id ch 0 0); [lra|cbn; lra|lia|lia]).
  assert (P : cell_position3 (double ch) bad_geom (p_x bad_prt) = Some (v3 1 (-1) 0)%Z).
  { unfold cell_position3, cell_position. cbn [bad_prt bad_geom p_x pg_dxi c0 c1 c2 double rnd]. rewrite C0, C1, C2.
    rewrite (Zfloor_val (9007199254740991 * / 4503599627370496) 1) by lra. rewrite (Zfloor_val (-1 / 4) (-1)) by lra. rewrite (Zfloor_val 0 0) by lra. reflexivity. }
  unfold process_one. rewrite P. cbn [is_valid_cell_position].
  replace (is_valid_cell_position (pg_ld bad_geom) (v3 1 (-1) 0)%Z) with false by reflexivity.
  match goal with |- match ?t with _ => _ end = None => assert (E : t = None) end; [|rewrite E; reflexivity].
  assert (B : bnd_step (double ch) bad_geom (v3 1 (-1) 0)%Z (Some (p_x bad_prt, p_u bad_prt, v3 0 0 0, false)%Z) D0 = None).
  { unfold bnd_step, bnd_dir. cbn [bad_prt bad_geom p_x p_u pg_ld pg_ps pg_at_lo pg_at_hi pg_lo pg_hi get3 c0 c1 c2].
    cbn -[bnd_check bad_ps bad_x double]. unfold bnd_check.
    replace (Rlt_bool bad_x 0) with false by (symmetry; apply Rlt_bool_false; unfold bad_x; lra). cbn [andb].
    replace (Rle_bool bad_x bad_ps) with false by (symmetry; apply Rle_bool_false; unfold bad_x, bad_ps; lra). rewrite Bool.andb_false_r. reflexivity. }
  cbn [dims3 fold_left]. 
  try rewrite B. cbn -[double]. reflexivity.
Qed.
