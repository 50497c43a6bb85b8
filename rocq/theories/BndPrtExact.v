From Coq Require Import Reals Lra Psatz.
From Flocq Require Import Core.
From Verif Require Import Base Arr DomainSpec IndexerModel IndexerProofs BndPrtModel BndPrtSpec BndPrtProofs.
Local Open Scope R_scope.

Lemma floor_lt n x : (Zfloor x < n)%Z <-> x < IZR n.
Proof.
  split; intros H.
  - apply Rlt_le_trans with (IZR (Zfloor x) + 1); [apply Zfloor_ub|]. rewrite <- plus_IZR. apply IZR_le. lia.
  - apply lt_IZR. eapply Rle_lt_trans; [apply Zfloor_lb|exact H].
Qed.

Lemma floor_ge n x : (n <= Zfloor x)%Z <-> IZR n <= x.
Proof.
  split; intros H.
  - eapply Rle_trans; [apply IZR_le; exact H|apply Zfloor_lb].
  - apply Zfloor_lub. exact H.
Qed.

Section Exact.
  Variables (ld : Z) (dxi ps : R).
  Hypothesis Hdxi : 0 < dxi.
  Hypothesis Hps : ps * dxi = IZR ld.

  Lemma cell_neg x : (cell_of exact dxi x < 0)%Z <-> x < 0.
  Proof.
    unfold cell_of. cbn [rnd exact]. rewrite floor_lt. split; intros H.
    - apply (Rmult_lt_reg_r dxi); [exact Hdxi|]. lra.
    - pose proof (Rmult_lt_compat_r dxi x 0 Hdxi H). lra.
  Qed.

  Lemma cell_hi x : (ld <= cell_of exact dxi x)%Z <-> ps <= x.
  Proof.
    unfold cell_of. cbn [rnd exact]. rewrite floor_ge, <- Hps. split; intros H.
    - apply (Rmult_le_reg_r dxi); [exact Hdxi|exact H].
    - apply Rmult_le_compat_r; lra.
  Qed.

  Lemma cell_some x : (0 < ld <= 2 ^ 30)%Z -> - ps <= x < 2 * ps -> cell_position exact dxi x = Some (cell_of exact dxi x).
  Proof.
    intros HL Hx. unfold cell_position, int_op, is_int. fold (cell_of exact dxi x).
    assert (IZR (- ld) <= x * dxi < IZR (2 * ld)).
    { rewrite opp_IZR, mult_IZR, <- Hps. split.
      - replace (- (ps * dxi)) with (- ps * dxi) by ring. apply Rmult_le_compat_r; lra.
      - replace (2 * (ps * dxi)) with (2 * ps * dxi) by ring. apply Rmult_lt_compat_r; lra. }
    assert (- ld <= cell_of exact dxi x)%Z by (unfold cell_of; cbn [rnd exact]; apply floor_ge; lra).
    assert (cell_of exact dxi x < 2 * ld)%Z by (unfold cell_of; cbn [rnd exact]; apply floor_lt; lra).
    destruct (Z.leb_spec (- 2 ^ 31) (cell_of exact dxi x)); [|lia]. destruct (Z.ltb_spec (cell_of exact dxi x) (2 ^ 31)); [reflexivity|lia].
  Qed.

  Lemma ps_pos : (0 < ld)%Z -> 0 < ps.
  Proof. intros H. apply (Rmult_lt_reg_r dxi); [exact Hdxi|]. rewrite Hps, Rmult_0_l. apply IZR_lt. exact H. Qed.
End Exact.

Lemma check_ok ps x : 0 <= x <= ps -> bnd_check exact ps x = Some x.
Proof.
  intros H. unfold bnd_check. destruct (Rlt_bool_spec x 0); [lra|]. cbn [andb]. destruct (Rle_bool_spec 0 x); [|lra].
  destruct (Rle_bool_spec x ps); [reflexivity|lra].
Qed.

Section One.
  Context {T : Type}.
  Variable g : pgeom.
  Hypothesis WF : wf_geom g.
  Hypothesis EX : exact_geom g.
  Hypothesis SM : small_geom g.

  Lemma dir_exact d x u : - get3 (pg_ps g) d < x < 2 * get3 (pg_ps g) d ->
    exists m, bnd_dir exact g d (cell_of exact (get3 (pg_dxi g) d) x) x u = Some m /\
    match m with
    | Dropped => True
    | Moved y w k => 0 <= y < get3 (pg_ps g) d /\ exact_move g d x u y w k
    end.
  Proof.
    intros Hx. destruct (EX d) as [Hdxi Hps]. destruct WF as [WF1 _]. specialize (WF1 d). specialize (SM d).
    pose proof (ps_pos _ _ _ Hdxi Hps WF1) as PP.
    pose proof (fun y => cell_neg (get3 (pg_dxi g) d) Hdxi y) as CN. pose proof (fun y => cell_hi _ _ _ Hdxi Hps y) as CH.
    pose proof (fun y H => cell_some _ _ _ Hdxi Hps y (conj WF1 SM) H) as CS.
    unfold bnd_dir. set (ps := get3 (pg_ps g) d) in *. set (ld := get3 (pg_ld g) d) in *. set (dxi := get3 (pg_dxi g) d) in *.
    destruct (Z.ltb_spec (cell_of exact dxi x) 0) as [N|N].
    - apply CN in N. destruct (negb (get3 (pg_at_lo g) d) || is_periodic (get3 (pg_lo g) d)) eqn:B.
      + cbn [rnd exact]. rewrite CS by lra. eexists. split; [reflexivity|].
        destruct (Z.leb_spec ld (cell_of exact dxi (x + ps))) as [L|L]; [apply CH in L; lra|]. split; [lra|].
        apply move_pass_lo; [exact N|]. unfold passes_lo. destruct (get3 (pg_at_lo g) d); [|left; reflexivity]. right.
        destruct (get3 (pg_lo g) d); try discriminate B. reflexivity.
      + apply orb_false_iff in B. destruct B as [B1 B2]. apply negb_false_iff in B1.
        destruct (get3 (pg_lo g) d) eqn:E; try discriminate B2; (eexists; split; [reflexivity|]); try exact I.
        split; [lra|]. apply move_mirror_lo; [exact N|]. split; assumption.
    - assert (N' : 0 <= x). { destruct (Rlt_or_le x 0) as [H|H]; [apply CN in H; lia|exact H]. }
      destruct (Z.leb_spec ld (cell_of exact dxi x)) as [L|L].
      + apply CH in L. destruct (negb (get3 (pg_at_hi g) d) || is_periodic (get3 (pg_hi g) d)) eqn:B.
        * cbn [rnd exact]. rewrite CS by lra. eexists. split; [reflexivity|].
          destruct (Z.ltb_spec (cell_of exact dxi (x - ps)) 0) as [M|M]; [apply CN in M; lra|]. split; [lra|].
          apply move_pass_hi; [exact L|]. unfold passes_hi. destruct (get3 (pg_at_hi g) d); [|left; reflexivity]. right.
          destruct (get3 (pg_hi g) d); try discriminate B. reflexivity.
        * apply orb_false_iff in B. destruct B as [B1 B2]. apply negb_false_iff in B1.
          destruct (get3 (pg_hi g) d) eqn:E; try discriminate B2; try (eexists; split; [reflexivity|exact I]).
          cbn [rnd rndd shrink exact]. rewrite CS by lra. eexists. split; [reflexivity|].
          destruct (Z.leb_spec ld (cell_of exact dxi (2 * ps - x))) as [M|M].
          -- apply CH in M. assert (x = ps) by lra. replace (2 * ps - x) with ps by lra. split; [lra|]. apply move_wall; [assumption|]. split; assumption.
          -- assert (2 * ps - x < ps). { destruct (Rlt_or_le (2 * ps - x) ps) as [H|H]; [exact H|]. apply CH in H. lia. }
             split; [lra|]. apply move_mirror_hi; [unfold ps in *; lra|]. split; assumption.
      + eexists. split; [reflexivity|]. assert (x < ps). { destruct (Rlt_or_le x ps) as [H|H]; [exact H|]. apply CH in H. lia. }
        split; [lra|]. apply move_stay. unfold ps in *. lra.
  Qed.

  Lemma cell3_exact x : (forall d, - get3 (pg_ps g) d <= get3 x d < 2 * get3 (pg_ps g) d) ->
    cell_position3 exact g x = Some (gen3 (fun d => cell_of exact (get3 (pg_dxi g) d) (get3 x d))).
  Proof.
    intros H. destruct WF as [WF1 _]. unfold cell_position3.
    pose proof (fun d => cell_some _ _ _ (proj1 (EX d)) (proj2 (EX d)) (get3 x d) (conj (WF1 d) (SM d)) (H d)) as CS.
    pose proof (CS D0) as C0. pose proof (CS D1) as C1. pose proof (CS D2) as C2. cbn [get3] in C0, C1, C2. rewrite C0, C1, C2. reflexivity.
  Qed.

  Lemma process_one_exact (prt : particle T) : near g (p_x prt) ->
    exists f, process_one exact g prt = Some f /\ (f = Drop <-> beyond_open exact g (p_x prt)) /\
    match f with
    | Keep q => p_t q = p_t prt /\ inside g (p_x q) /\ forall d, exact_move g d (get3 (p_x prt) d) (get3 (p_u prt) d) (get3 (p_x q) d) (get3 (p_u q) d) 0
    | Send dir q => p_t q = p_t prt /\ inside g (p_x q) /\ (exists d, get3 dir d <> 0)%Z /\ (forall d, -1 <= get3 dir d <= 1)%Z /\
        forall d, exact_move g d (get3 (p_x prt) d) (get3 (p_u prt) d) (get3 (p_x q) d) (get3 (p_u q) d) (get3 dir d)
    | Drop => True
    end.
  Proof.
    intros HN. pose proof (fun d => dir_exact d (get3 (p_x prt) d) (get3 (p_u prt) d) (HN d)) as DE.
    assert (EP : cell_position3 exact g (p_x prt) = Some (gen3 (fun d => cell_of exact (get3 (pg_dxi g) d) (get3 (p_x prt) d)))).
    { apply cell3_exact. intros d. specialize (HN d). lra. }
    set (pos := gen3 _) in EP.
    assert (DD : forall d, dir_of exact g pos (p_x prt) (p_u prt) d = bnd_dir exact g d (cell_of exact (get3 (pg_dxi g) d) (get3 (p_x prt) d)) (get3 (p_x prt) d) (get3 (p_u prt) d)).
    { intros d. unfold dir_of, pos. rewrite get3_gen3. reflexivity. }
    assert (OK : exists f, process_one exact g prt = Some f).
    { unfold process_one. rewrite EP. destruct (is_valid_cell_position (pg_ld g) pos); [eexists; reflexivity|].
      destruct (bnd_fold_ok exact g pos (p_x prt) (p_u prt)) as [[[[x u] dir] drop] EF].
      { intros d. destruct (DE d) as [m [Em Hm]]. exists m. split; [rewrite DD; exact Em|]. destruct m as [y w k|]; [|exact I].
        rewrite check_ok; [discriminate|lra]. }
      rewrite EF. destruct drop; [eexists; reflexivity|]. destruct ((c0 dir =? 0) && (c1 dir =? 0) && (c2 dir =? 0))%Z; [|eexists; reflexivity].
      apply bnd_fold_some in EF.
      assert (IN : inside g x).
      { intros d. destruct (EF d) as [y [E1 E2]]. rewrite DD in E1. destruct (DE d) as [m [Em Hm]]. rewrite Em in E1. injection E1 as ->.
        destruct Hm as [Hm _]. rewrite check_ok in E2 by lra. injection E2 as <-. exact Hm. }
      assert (PP : forall d, 0 < get3 (pg_ps g) d) by (intros d; apply (ps_pos _ _ _ (proj1 (EX d)) (proj2 (EX d)) (proj1 WF d))).
      rewrite cell3_exact by (intros d; specialize (IN d); specialize (PP d); lra).
      destruct (valid_index g WF (gen3 (fun d => cell_of exact (get3 (pg_dxi g) d) (get3 x d)))) as [i ->]; [|eexists; reflexivity].
      intros d. rewrite get3_gen3. specialize (IN d). destruct (EX d) as [Hdxi Hps]. pose proof (cell_neg _ Hdxi (get3 x d)) as CN.
      pose proof (cell_hi _ _ _ Hdxi Hps (get3 x d)) as CH. split.
      - destruct (Z.lt_ge_cases (cell_of exact (get3 (pg_dxi g) d) (get3 x d)) 0) as [H|H]; [apply CN in H; lra|exact H].
      - destruct (Z.lt_ge_cases (cell_of exact (get3 (pg_dxi g) d) (get3 x d)) (get3 (pg_ld g) d)) as [H|H]; [exact H|apply CH in H; lra]. }
    destruct OK as [f Ef]. exists f. split; [exact Ef|]. split; [apply (dropped_iff exact g WF prt f Ef)|].
    assert (AX : forall d y w k z, dir_of exact g pos (p_x prt) (p_u prt) d = Some (Moved y w k) -> bnd_check exact (get3 (pg_ps g) d) y = Some z ->
       0 <= z < get3 (pg_ps g) d /\ exact_move g d (get3 (p_x prt) d) (get3 (p_u prt) d) z w k).
    { intros d y w k z E1 E2. rewrite DD in E1. destruct (DE d) as [m [Em Hm]]. rewrite Em in E1. injection E1 as ->.
      destruct Hm as [Hm Hm2]. rewrite check_ok in E2 by lra. injection E2 as <-. split; assumption. }
    pose proof (process_one_outcome exact g prt f Ef) as O.
    destruct O as [pos' EP' EV|pos' q cpos i EP' EV HD ET EC EI|pos' q dir EP' EV HD ET ED|pos' d EP' EV HD]; try (assert (pos' = pos) by congruence; subst pos').
    - assert (IN : inside g (p_x prt)).
      { assert (C := cell_position3_some exact g _ _ EP). pose proof (proj1 (valid_iff g WF pos (fun e => proj2 (C e))) EV) as EV'.
        intros d. specialize (EV' d). destruct (C d) as [EC _]. rewrite EC in EV'. destruct (EX d) as [Hdxi Hps].
        pose proof (cell_neg _ Hdxi (get3 (p_x prt) d)) as CN. pose proof (cell_hi _ _ _ Hdxi Hps (get3 (p_x prt) d)) as CH. split.
        - destruct (Rlt_or_le (get3 (p_x prt) d) 0) as [H|H]; [apply CN in H; lia|exact H].
        - destruct (Rlt_or_le (get3 (p_x prt) d) (get3 (pg_ps g) d)) as [H|H]; [exact H|apply CH in H; lia]. }
      split; [reflexivity|]. split; [exact IN|]. intros d. apply move_stay. apply IN.
    - split; [exact ET|]. split; intros d; destruct (HD d) as [y [E1 E2]]; destruct (AX d _ _ _ _ E1 E2); assumption.
    - split; [exact ET|]. split; [intros d; destruct (HD d) as [y [E1 E2]]; destruct (AX d _ _ _ _ E1 E2); assumption|]. split; [exact ED|].
      split; [apply (outcome_send_dir exact g prt dir q); eapply process_one_outcome; exact Ef|].
      intros d; destruct (HD d) as [y [E1 E2]]; destruct (AX d _ _ _ _ E1 E2); assumption.
    - exact I.
  Qed.
End One.
