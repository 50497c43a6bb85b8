(** C32: conducting walls. *)
From Coq Require Import Reals Lra.
From Verif Require Import Base DomainSpec FieldModel FieldSpec FieldProofs WallModel WallSpec WallProofs.
Local Open Scope R_scope.

Definition by_side {A} (a b : A) (s : side) : A := match s with Lo => a | Hi => b end.

(** the patch has a wall at this side *)
Definition wall (at_lo at_hi : V3 bool) (lo hi : V3 bnd_fld) (d : dim3) (s : side) : Prop :=
  get3 (by_side at_lo at_hi s) d = true /\ get3 (by_side lo hi s) d = BND_FLD_CONDUCTING_WALL.

(** sides of the domain are periodic or walls, the latter in y and z only (see C32_x_refuted), with at least two cells *)
Definition walls_ok (g : fgrid) (at_lo at_hi : V3 bool) (lo hi : V3 bnd_fld) : Prop :=
  forall d s, get3 (by_side at_lo at_hi s) d = true -> get3 (by_side lo hi s) d = BND_FLD_PERIODIC \/
    get3 (by_side lo hi s) d = BND_FLD_CONDUCTING_WALL /\ d <> D0 /\ get3 (invar g) d = false /\ (2 <= get3 (ldims g) d)%Z.

(** the parities the code imposes: the opposite of those of a conductor *)
Definition opposite_sign (q : qty) (d e : dim3) : R := - conductor_sign q d e.

(** from where the walls are treated along the other direction *)
Definition from_H (d : dim3) (s : side) : Z := match d, s with D1, Lo => -1 | _, _ => -2 end%Z.

Lemma E_setup g : wf_grid g ->
  (forall d s, fits g d -> idem (rowsE g d s)) /\ (forall d s, fits g d -> Forall (rows_in (-1) (get3 (ldims g) d + 2)) (rowsE g d s)).
Proof.
  intros W. split.
  - intros d s [Hd [_ HN]] e u y. rewrite !RL_E by exact Hd. cbv zeta. rewrite !RL_E by exact Hd. cbv zeta. set (n := get3 (ldims g) d) in *.
    destruct (dim3_eqb d e), s; cbn [out_n out_h in_n in_h wall_at]; ifz; reflexivity.
  - intros d s [Hd [_ HN]]. unfold rowsE. set (n := get3 (ldims g) d) in *. clearbody n. rewrite Forall_forall. intros r Hr.
    destruct d; [congruence| |]; destruct s; cbn in Hr; repeat (destruct Hr as [Hr|Hr]; [subst r; split; [cbn [rtgt]; lia|cbn [rsrc In]; intros t Ht; intuition lia]|]); destruct Hr.
Qed.

Definition relsE (g : fgrid) (d : dim3) (s : side) : list (dim3 * (R * Z * R * Z)) :=
  let n := get3 (ldims g) d in
  flat_map (fun e => if dim3_eqb d e then [(e, (1, out_h s n, 1, in_h s n))]
                     else [(e, (1, wall_at s n, 0, wall_at s n)); (e, (1, out_n s n, -1, in_n s n))]) dims3.

(** after the condition for E tangential E is zero at every wall, and the first layer beyond has the parities opposite to those of
    a conductor, at all positions along the wall.  Nothing else changes. *)
Theorem C32_E_partial : forall g at_lo at_hi lo hi be f, wf_grid g -> walls_ok g at_lo at_hi lo hi ->
  exists f', fill_ghosts_E g at_lo at_hi lo hi be f = Some f' /\
    (forall d s, wall at_lo at_hi lo hi d s -> tangential_zero g QE d s f' /\ parity opposite_sign g QE d s (-2) f') /\
    (forall q e i, q <> QE -> f' q e i = f q e i) /\
    (forall e i, in_box (ldims g) i -> (forall d, wall at_lo at_hi lo hi d Lo -> e <> d -> get3 i d <> 0%Z) -> f' QE e i = f QE e i).
Proof.
  intros g at_lo at_hi lo hi be f W OK. destruct (E_setup g W) as [HI HR].
  destruct (sides_inv g W QE (rowsE g) (fun _ _ => -2)%Z (relsE g)) with
    (at_ := by_side at_lo at_hi) (bc := by_side lo hi) (f := f)
    (op := fun s bc d f => match bc with BND_FLD_PERIODIC => Some f
       | BND_FLD_CONDUCTING_WALL => by_side conducting_wall_E_lo conducting_wall_E_hi s g d f
       | BND_FLD_OPEN => Some (by_side set_lower_ghosts set_upper_ghosts s g d QE be false f) | _ => None end) as [f' [E [R U]]].
  - lia.
  - exact HI.
  - exact HR.
  - intros d s e a y1 b y2 [Hd [_ HN]] Hr u. unfold relsE in Hr. rewrite !RL_E by exact Hd. cbv zeta in *. set (n := get3 (ldims g) d) in *.
    apply in_flat_map in Hr. destruct Hr as [e' [_ Hr]]. destruct (dim3_eqb d e') eqn:Ee.
    + destruct Hr as [Hr|[]]. injection Hr as <- <- <- <- <-. rewrite Ee. destruct s; cbn [out_h in_h]; ifz; ring.
    + destruct Hr as [Hr|[Hr|[]]]; injection Hr as <- <- <- <- <-; rewrite Ee; destruct s; cbn [out_n in_n wall_at]; ifz; ring.
  - intros d s e a y1 b y2 [Hd [_ HN]] Hr. unfold relsE in Hr. cbv zeta in *. set (n := get3 (ldims g) d) in *.
    apply in_flat_map in Hr. destruct Hr as [e' [_ Hr]]. destruct (dim3_eqb d e') eqn:Ee.
    + destruct Hr as [Hr|[]]. injection Hr as <- <- <- <- <-. destruct s; cbn [out_h in_h]; lia.
    + destruct Hr as [Hr|[Hr|[]]]; injection Hr as <- <- <- <- <-; destruct s; cbn [out_n in_n wall_at]; lia.
  - intros d s s' e a y1 b y2 [Hd [_ HN]] Hs Hr. unfold relsE in Hr. unfold untouched. cbv zeta in *. set (n := get3 (ldims g) d) in *.
    apply in_flat_map in Hr. destruct Hr as [e' [_ Hr]]. destruct (dim3_eqb d e') eqn:Ee.
    + destruct Hr as [Hr|[]]. injection Hr as <- <- <- <- <-. split; intros u; rewrite RL_E by exact Hd; cbv zeta; fold n; rewrite Ee;
      destruct s, s'; try congruence; cbn [out_h in_h]; ifz; reflexivity.
    + destruct Hr as [Hr|[Hr|[]]]; injection Hr as <- <- <- <- <-; split; intros u; rewrite RL_E by exact Hd; cbv zeta; fold n; rewrite Ee;
      destruct s, s'; try congruence; cbn [out_n in_n wall_at]; ifz; reflexivity.
  - intros d s H. destruct (OK d s H) as [H1|[H1 H2]]; [left; exact H1|right; split; [exact H1|exact H2]].
  - reflexivity.
  - intros d s f0 Hd. cbv beta iota. destruct s; cbn [by_side]; [apply E_lo_op|apply E_hi_op]; exact Hd.
  - exists f'. split; [exact E|]. split; [|split].
    + intros d s Hw. assert (Hd : d <> D0).
      { destruct Hw as [A B]. destruct (OK d s A) as [C|[_ [C _]]]; [congruence|exact C]. }
      split.
      * intros e i He Hi. pose proof (R d s (e, (1, wall_at s (get3 (ldims g) d), 0, wall_at s (get3 (ldims g) d))) Hw) as K. unfold rel in K.
        assert (HIn : In (e, (1, wall_at s (get3 (ldims g) d), 0, wall_at s (get3 (ldims g) d))) (relsE g d s)); [|specialize (K HIn i Hi); lra].
        unfold relsE. apply in_flat_map. exists e. split; [destruct e; cbn; tauto|].
        assert (dim3_eqb d e = false) as -> by (destruct d, e; try reflexivity; congruence). left. reflexivity.
      * intros e i Hi. cbv zeta. unfold between, opposite_sign, conductor_sign.
        destruct (dim3_eqb d e) eqn:Ee.
        -- pose proof (R d s (e, (1, out_h s (get3 (ldims g) d), 1, in_h s (get3 (ldims g) d))) Hw) as K. unfold rel in K.
           assert (HIn : In (e, (1, out_h s (get3 (ldims g) d), 1, in_h s (get3 (ldims g) d))) (relsE g d s)).
           { unfold relsE. apply in_flat_map. exists e. split; [destruct e; cbn; tauto|]. rewrite Ee. left. reflexivity. }
           specialize (K HIn i Hi). set (n := get3 (ldims g) d) in *. unfold image, beyond.
           destruct s; cbn [out_h in_h wall_at] in *; [replace (2 * 0 - 1 - -1)%Z with 0%Z by lia|replace (2 * n - 1 - n)%Z with (n - 1)%Z by lia]; lra.
        -- pose proof (R d s (e, (1, out_n s (get3 (ldims g) d), -1, in_n s (get3 (ldims g) d))) Hw) as K. unfold rel in K.
           assert (HIn : In (e, (1, out_n s (get3 (ldims g) d), -1, in_n s (get3 (ldims g) d))) (relsE g d s)).
           { unfold relsE. apply in_flat_map. exists e. split; [destruct e; cbn; tauto|]. rewrite Ee. right. left. reflexivity. }
           specialize (K HIn i Hi). set (n := get3 (ldims g) d) in *. unfold image, beyond.
           destruct s; cbn [out_n in_n wall_at] in *; [replace (2 * 0 - -1)%Z with 1%Z by lia|replace (2 * n - (n + 1))%Z with (n - 1)%Z by lia]; lra.
    + intros q e i Hq. apply U. left. exact Hq.
    + intros e i Hi Hb. apply U. right. intros d s Hw u.
      assert (Hd : d <> D0). { destruct Hw as [A B]. destruct (OK d s A) as [C|[_ [C _]]]; [congruence|exact C]. }
      rewrite RL_E by exact Hd. cbv zeta. specialize (Hi d). set (n := get3 (ldims g) d) in *. destruct (dim3_eqb d e) eqn:Ee.
      * destruct s; cbn [out_h]; ifz; reflexivity.
      * assert (e <> d) by (intros ->; rewrite dim3_eqb_refl in Ee; discriminate).
        destruct s; cbn [out_n wall_at]; [|ifz; reflexivity]. pose proof (Hb d Hw ltac:(assumption)). ifz; reflexivity.
Qed.
Print Assumptions C32_E_partial.

Lemma H_setup g : wf_grid g ->
  (forall d s, fits g d -> idem (rowsH g d s)) /\ (forall d s, fits g d -> Forall (rows_in (-1) (get3 (ldims g) d + 2)) (rowsH g d s)).
Proof.
  intros W. split.
  - intros d s [Hd [_ HN]] e u y. rewrite !RL_H by exact Hd. cbv zeta. rewrite !RL_H by exact Hd. cbv zeta. set (n := get3 (ldims g) d) in *.
    destruct (dim3_eqb d e), s; cbn [out_n out_h in_n in_h]; ifz; reflexivity.
  - intros d s [Hd [_ HN]]. unfold rowsH. set (n := get3 (ldims g) d) in *. clearbody n. rewrite Forall_forall. intros r Hr.
    destruct d; [congruence| |]; destruct s; cbn in Hr; repeat (destruct Hr as [Hr|Hr]; [subst r; split; [cbn [rtgt]; lia|cbn [rsrc In]; intros t Ht; intuition lia]|]); destruct Hr.
Qed.

Definition relsH (g : fgrid) (d : dim3) (s : side) : list (dim3 * (R * Z * R * Z)) :=
  let n := get3 (ldims g) d in
  map (fun e => if dim3_eqb d e then (e, (1, out_n s n, -1, in_n s n)) else (e, (1, out_h s n, 1, in_h s n))) dims3.

(** the same for H, at the lower y wall without the lowest z; the interior does not change *)
Theorem C32_H_partial : forall g at_lo at_hi lo hi be bh lower upper f, wf_grid g -> walls_ok g at_lo at_hi lo hi ->
  exists f', fill_ghosts_H g at_lo at_hi lo hi be bh lower upper f = Some f' /\
    (forall d s, wall at_lo at_hi lo hi d s -> parity opposite_sign g QH d s (from_H d s) f') /\
    (forall q e i, q <> QH -> f' q e i = f q e i) /\
    (forall e i, in_box (ldims g) i -> f' QH e i = f QH e i).
Proof.
  intros g at_lo at_hi lo hi be bh lower upper f W OK. destruct (H_setup g W) as [HI HR].
  destruct (sides_inv g W QH (rowsH g) from_H (relsH g)) with
    (at_ := by_side at_lo at_hi) (bc := by_side lo hi) (f := f)
    (op := fun s bc d f => match bc with BND_FLD_PERIODIC => Some f
       | BND_FLD_CONDUCTING_WALL => by_side conducting_wall_H_lo conducting_wall_H_hi s g d f
       | BND_FLD_OPEN => Some (by_side (radiative_H_lo g be bh lower d f) (radiative_H_hi g be bh upper d f) s) | _ => None end) as [f' [E [R U]]].
  - intros d s. destruct d, s; cbn; lia.
  - exact HI.
  - exact HR.
  - intros d s e a y1 b y2 [Hd [_ HN]] Hr u. unfold relsH in Hr. rewrite !RL_H by exact Hd. cbv zeta in *. set (n := get3 (ldims g) d) in *.
    apply in_map_iff in Hr. destruct Hr as [e' [Hr _]]. destruct (dim3_eqb d e') eqn:Ee; injection Hr as <- <- <- <- <-; rewrite Ee;
    destruct s; cbn [out_h in_h out_n in_n]; ifz; ring.
  - intros d s e a y1 b y2 [Hd [_ HN]] Hr. unfold relsH in Hr. cbv zeta in *. set (n := get3 (ldims g) d) in *.
    apply in_map_iff in Hr. destruct Hr as [e' [Hr _]]. destruct (dim3_eqb d e') eqn:Ee; injection Hr as <- <- <- <- <-;
    destruct s; cbn [out_h in_h out_n in_n]; lia.
  - intros d s s' e a y1 b y2 [Hd [_ HN]] Hs Hr. unfold relsH in Hr. unfold untouched. cbv zeta in *. set (n := get3 (ldims g) d) in *.
    apply in_map_iff in Hr. destruct Hr as [e' [Hr _]]. destruct (dim3_eqb d e') eqn:Ee; injection Hr as <- <- <- <- <-;
    split; intros u; rewrite RL_H by exact Hd; cbv zeta; fold n; rewrite Ee;
    destruct s, s'; try congruence; cbn [out_h in_h out_n in_n]; ifz; reflexivity.
  - intros d s H. destruct (OK d s H) as [H1|[H1 H2]]; [left; exact H1|right; split; [exact H1|exact H2]].
  - reflexivity.
  - intros d s f0 Hd. cbv beta iota. destruct s; cbn [by_side]; [apply H_lo_op|apply H_hi_op]; exact Hd.
  - exists f'. split; [exact E|]. split; [|split].
    + intros d s Hw. assert (Hd : d <> D0).
      { destruct Hw as [A B]. destruct (OK d s A) as [C|[_ [C _]]]; [congruence|exact C]. }
      intros e i Hi. cbv zeta. unfold between, opposite_sign, conductor_sign.
      destruct (dim3_eqb d e) eqn:Ee; cbn [negb].
      * pose proof (R d s (e, (1, out_n s (get3 (ldims g) d), -1, in_n s (get3 (ldims g) d))) Hw) as K. unfold rel in K.
        assert (HIn : In (e, (1, out_n s (get3 (ldims g) d), -1, in_n s (get3 (ldims g) d))) (relsH g d s)).
        { unfold relsH. apply in_map_iff. exists e. split; [rewrite Ee; reflexivity|destruct e; cbn; tauto]. }
        specialize (K HIn i Hi). set (n := get3 (ldims g) d) in *. unfold image, beyond.
        destruct s; cbn [out_n in_n wall_at] in *; [replace (2 * 0 - -1)%Z with 1%Z by lia|replace (2 * n - (n + 1))%Z with (n - 1)%Z by lia]; lra.
      * pose proof (R d s (e, (1, out_h s (get3 (ldims g) d), 1, in_h s (get3 (ldims g) d))) Hw) as K. unfold rel in K.
        assert (HIn : In (e, (1, out_h s (get3 (ldims g) d), 1, in_h s (get3 (ldims g) d))) (relsH g d s)).
        { unfold relsH. apply in_map_iff. exists e. split; [rewrite Ee; reflexivity|destruct e; cbn; tauto]. }
        specialize (K HIn i Hi). set (n := get3 (ldims g) d) in *. unfold image, beyond.
        destruct s; cbn [out_h in_h wall_at] in *; [replace (2 * 0 - 1 - -1)%Z with 0%Z by lia|replace (2 * n - 1 - n)%Z with (n - 1)%Z by lia]; lra.
    + intros q e i Hq. apply U. left. exact Hq.
    + intros e i Hi. apply U. right. intros d s Hw u.
      assert (Hd : d <> D0). { destruct Hw as [A B]. destruct (OK d s A) as [C|[_ [C _]]]; [congruence|exact C]. }
      rewrite RL_H by exact Hd. cbv zeta. specialize (Hi d). set (n := get3 (ldims g) d) in *. destruct (dim3_eqb d e) eqn:Ee;
      destruct s; cbn [out_h out_n]; ifz; reflexivity.
Qed.
Print Assumptions C32_H_partial.

Lemma J_setup g : wf_grid g ->
  (forall d s, fits g d -> idem (rowsJ g d s)) /\ (forall d s, fits g d -> Forall (rows_in (-1) (get3 (ldims g) d + 2)) (rowsJ g d s)).
Proof.
  intros W. split.
  - intros d s [Hd [_ HN]] e u y. rewrite !RL_J by exact Hd. cbv zeta. rewrite !RL_J by exact Hd. cbv zeta. set (n := get3 (ldims g) d) in *.
    destruct (dim3_eqb d e), s; cbn [out_n out_h in_n in_h]; ifz; ring.
  - intros d s [Hd [_ HN]]. unfold rowsJ. set (n := get3 (ldims g) d) in *. clearbody n. rewrite Forall_forall. intros r Hr.
    destruct d; [congruence| |]; destruct s; cbn in Hr; repeat (destruct Hr as [Hr|Hr]; [subst r; split; [cbn [rtgt]; lia|cbn [rsrc In]; intros t Ht; intuition lia]|]); destruct Hr.
Qed.

Definition relsJ (g : fgrid) (d : dim3) (s : side) : list (dim3 * (R * Z * R * Z)) :=
  let n := get3 (ldims g) d in
  map (fun e => let y := if dim3_eqb d e then out_h s n else out_n s n in (e, (1, y, 0, y))) dims3.

(** current in the first layer beyond every wall is removed ... *)
Theorem C32_J_partial : forall g at_lo at_hi lo hi f, wf_grid g -> walls_ok g at_lo at_hi lo hi ->
  exists f', add_ghosts_J g at_lo at_hi lo hi f = Some f' /\
    (forall d s e i, wall at_lo at_hi lo hi d s -> beside g d (-2) i -> f' QJ e (set3 i d (beyond (between QJ d e) s (get3 (ldims g) d))) = 0) /\
    (forall q e i, q <> QJ -> f' q e i = f q e i).
Proof.
  intros g at_lo at_hi lo hi f W OK. destruct (J_setup g W) as [HI HR].
  destruct (sides_inv g W QJ (rowsJ g) (fun _ _ => -2)%Z (relsJ g)) with
    (at_ := by_side at_lo at_hi) (bc := by_side lo hi) (f := f)
    (op := fun s bc d f => match bc with BND_FLD_PERIODIC | BND_FLD_OPEN => Some f
       | BND_FLD_CONDUCTING_WALL => by_side conducting_wall_J_lo conducting_wall_J_hi s g d f | _ => None end) as [f' [E [R U]]].
  - lia.
  - exact HI.
  - exact HR.
  - intros d s e a y1 b y2 [Hd [_ HN]] Hr u. unfold relsJ in Hr. rewrite !RL_J by exact Hd. cbv zeta in *. set (n := get3 (ldims g) d) in *.
    apply in_map_iff in Hr. destruct Hr as [e' [Hr _]]. injection Hr as <- <- <- <- <-.
    destruct (dim3_eqb d e') eqn:Ee; destruct s; cbn [out_h in_h out_n in_n]; ifz; ring.
  - intros d s e a y1 b y2 [Hd [_ HN]] Hr. unfold relsJ in Hr. cbv zeta in *. set (n := get3 (ldims g) d) in *.
    apply in_map_iff in Hr. destruct Hr as [e' [Hr _]]. injection Hr as <- <- <- <- <-.
    destruct (dim3_eqb d e') eqn:Ee; destruct s; cbn [out_h in_h out_n in_n]; lia.
  - intros d s s' e a y1 b y2 [Hd [_ HN]] Hs Hr. unfold relsJ in Hr. unfold untouched. cbv zeta in *. set (n := get3 (ldims g) d) in *.
    apply in_map_iff in Hr. destruct Hr as [e' [Hr _]]. injection Hr as <- <- <- <- <-.
    split; intros u; rewrite RL_J by exact Hd; cbv zeta; fold n; destruct (dim3_eqb d e') eqn:Ee;
    destruct s, s'; try congruence; cbn [out_h in_h out_n in_n]; ifz; reflexivity.
  - intros d s H. destruct (OK d s H) as [H1|[H1 H2]]; [left; exact H1|right; split; [exact H1|exact H2]].
  - reflexivity.
  - intros d s f0 Hd. cbv beta iota. destruct s; cbn [by_side]; [apply J_lo_op|apply J_hi_op]; exact Hd.
  - exists f'. split; [exact E|]. split.
    + intros d s e i Hw Hi. set (n := get3 (ldims g) d). set (y := beyond (between QJ d e) s n).
      pose proof (R d s (e, (1, y, 0, y)) Hw) as K. unfold rel in K.
      assert (HIn : In (e, (1, y, 0, y)) (relsJ g d s)).
      { unfold relsJ. apply in_map_iff. exists e. split; [|destruct e; cbn; tauto]. fold n. unfold y, between, beyond. destruct (dim3_eqb d e), s; reflexivity. }
      specialize (K HIn i Hi). lra.
    + intros q e i Hq. apply U. left. exact Hq.
Qed.
Print Assumptions C32_J_partial.

(** ... and added to its mirror image with the sign of the velocity of the mirrored particles: reversed normal to the wall *)
Theorem C32_J_fold_partial : forall g d s f, wf_grid g -> d <> D0 -> get3 (invar g) d = false -> (2 <= get3 (ldims g) d)%Z ->
  exists f', by_side conducting_wall_J_lo conducting_wall_J_hi s g d f = Some f' /\
    forall e i, beside g d (-2) i ->
      let n := get3 (ldims g) d in
      let y := beyond (between QJ d e) s n in
      let y' := image (between QJ d e) (wall_at s n) y in
      f' QJ e (set3 i d y) = 0 /\
      f' QJ e (set3 i d y') = f QJ e (set3 i d y') + (if dim3_eqb d e then -1 else 1) * f QJ e (set3 i d y) /\
      (forall z, z <> y -> z <> y' -> f' QJ e (set3 i d z) = f QJ e (set3 i d z)).
Proof.
  intros g d s f W Hd Hi HN. destruct (J_setup g W) as [HI HR].
  assert (Hf : fits g d) by (repeat split; assumption).
  destruct (wall_val g W QJ d Hi Hd (-2) (rowsJ g d s) f) as [f' [E V]]; [lia|apply HI; exact Hf| |].
  - generalize (HR d s Hf). apply Forall_impl. intros r [A B]. split; [lia|]. intros t Ht. specialize (B t Ht). lia.
  - exists f'. split; [destruct s; cbn [by_side]; [rewrite J_lo_op|rewrite J_hi_op]; assumption|].
    intros e i Hb. cbv zeta. set (n := get3 (ldims g) d) in *.
    assert (K : forall z, f' QJ e (set3 i d z) = RL (rowsJ g d s) e (row f QJ d e i) z).
    { intros z. rewrite V. cbn [qty_eqb andb]. rewrite (proj2 (treated_iff g d (-2) (set3 i d z))).
      - rewrite get3_set3_same. apply RL_ext. intros t. unfold row. rewrite set3_set3. reflexivity.
      - intros e' He'. rewrite get3_set3_other by congruence. apply Hb. exact He'. }
    rewrite !K, !RL_J by exact Hd. cbv zeta. fold n. unfold between, beyond, image, row.
    assert (L : forall z, f' QJ e (set3 i d z) = RL (rowsJ g d s) e (row f QJ d e i) z) by exact K.
    destruct (dim3_eqb d e) eqn:Ee; destruct s; cbn [out_h in_h out_n in_n wall_at];
    (split; [ifz; reflexivity|]; split;
     [ifz; (replace (2 * 0 - 1 - -1)%Z with 0%Z by lia || replace (2 * n - 1 - n)%Z with (n - 1)%Z by lia || replace (2 * 0 - -1)%Z with 1%Z by lia || replace (2 * n - (n + 1))%Z with (n - 1)%Z by lia); ring
     |intros z Z1 Z2; rewrite L, RL_J by exact Hd; cbv zeta; fold n; rewrite Ee; cbn [out_h in_h out_n in_n]; ifz; reflexivity]).
Qed.
Print Assumptions C32_J_fold_partial.

(** ** What does not hold *)

Definition wg : fgrid := FGrid (v3 4 4 4)%Z (v3 2 2 2)%Z (v3 1 1 1) (1 / 2) (v3 false false false).
Definition y_lo : V3 bnd_fld := v3 BND_FLD_PERIODIC BND_FLD_CONDUCTING_WALL BND_FLD_PERIODIC.
Definition in_y : V3 bool := v3 false true false.
Definition nowhere : V3 bool := v3 false false false.

Lemma wg_wf : wf_grid wg.
Proof. intros d. destruct d; cbn; repeat split; try lia; lra. Qed.
Lemma wg_ok : walls_ok wg in_y nowhere y_lo y_lo.
Proof. intros d s. destruct d, s; cbn; intros H; try discriminate H. right. repeat split; try congruence; lia. Qed.

(** the parities are not those of a conductor, for E and for H *)
Theorem C32_parity_refuted : exists g at_lo at_hi lo hi f fE fH, wf_grid g /\ walls_ok g at_lo at_hi lo hi /\ wall at_lo at_hi lo hi D1 Lo /\
  fill_ghosts_E g at_lo at_hi lo hi (v3 0 0 0) f = Some fE /\ ~ parity conductor_sign g QE D1 Lo 0 fE /\
  fill_ghosts_H g at_lo at_hi lo hi (v3 0 0 0) (v3 0 0 0) (Pulses (fun _ _ _ => 0) (fun _ _ _ => 0)) (Pulses (fun _ _ _ => 0) (fun _ _ _ => 0)) f = Some fH /\
  ~ parity conductor_sign g QH D1 Lo 0 fH.
Proof.
  pose (f := (fun _ _ _ => 1) : pf).
  destruct (C32_E_partial wg in_y nowhere y_lo y_lo (v3 0 0 0) f wg_wf wg_ok) as [fE [EE [PE [_ UE]]]].
  destruct (C32_H_partial wg in_y nowhere y_lo y_lo (v3 0 0 0) (v3 0 0 0) (Pulses (fun _ _ _ => 0) (fun _ _ _ => 0)) (Pulses (fun _ _ _ => 0) (fun _ _ _ => 0)) f wg_wf wg_ok) as [fH [EH [PH [_ UH]]]].
  exists wg, in_y, nowhere, y_lo, y_lo, f, fE, fH. assert (Hw : wall in_y nowhere y_lo y_lo D1 Lo) by (split; reflexivity).
  split; [exact wg_wf|]. split; [exact wg_ok|]. split; [exact Hw|]. split; [exact EE|]. split.
  - intros P. destruct (PE D1 Lo Hw) as [_ Q].
    assert (B : forall from, (from <= 0)%Z -> beside wg D1 from (v3 0 0 0)%Z) by (intros from Hf e He; destruct e; cbn; try congruence; lia).
    specialize (P D1 (v3 0 0 0)%Z (B 0%Z ltac:(lia))). specialize (Q D1 (v3 0 0 0)%Z (B (-2)%Z ltac:(lia))). cbv zeta in *. rewrite P in Q.
    assert (I : fE QE D1 (v3 0 0 0)%Z = 1).
    { rewrite UE; [reflexivity| |]; [intros e; destruct e; cbn; lia|]. intros d [H1 H2] Hd. destruct d; cbn in H1; try discriminate H1. congruence. }
    unfold opposite_sign, conductor_sign, between, image, beyond, wall_at in Q. cbn [dim3_eqb set3 c0 c1 c2] in Q.
    replace (2 * 0 - 1 - -1)%Z with 0%Z in Q by lia. rewrite I in Q. lra.
  - split; [exact EH|]. intros P. pose proof (PH D1 Lo Hw) as Q.
    assert (B : forall from, (from <= 0)%Z -> beside wg D1 from (v3 0 0 0)%Z) by (intros from Hf e He; destruct e; cbn; try congruence; lia).
    specialize (P D0 (v3 0 0 0)%Z (B 0%Z ltac:(lia))). specialize (Q D0 (v3 0 0 0)%Z (B (from_H D1 Lo) ltac:(cbn; lia))). cbv zeta in *. rewrite P in Q.
    assert (I : fH QH D0 (v3 0 0 0)%Z = 1) by (rewrite UH; [reflexivity|intros e; destruct e; cbn; lia]).
    unfold opposite_sign, conductor_sign, between, image, beyond, wall_at in Q. cbn [dim3_eqb negb set3 c0 c1 c2] in Q.
    replace (2 * 0 - 1 - -1)%Z with 0%Z in Q by lia. rewrite I in Q. lra.
Qed.
Print Assumptions C32_parity_refuted.

Lemma by_side_Lo {A} (a b : A) : by_side a b Lo = a.
Proof. reflexivity. Qed.

Lemma J_only_y g f : add_ghosts_J g in_y nowhere y_lo y_lo f = conducting_wall_J_lo g D1 f.
Proof. unfold add_ghosts_J, sides. cbn [fold_left dims3 get3 in_y nowhere y_lo c0 c1 c2]. destruct (conducting_wall_J_lo g D1 f); reflexivity. Qed.

(** current in the second layer beyond the wall stays there *)
Theorem C32_J_second_layer_refuted : exists g at_lo at_hi lo hi f f' i, wf_grid g /\ walls_ok g at_lo at_hi lo hi /\ wall at_lo at_hi lo hi D1 Lo /\ beside g D1 0 i /\
  add_ghosts_J g at_lo at_hi lo hi f = Some f' /\ f' QJ D0 (set3 i D1 (-2)%Z) <> 0.
Proof.
  destruct (C32_J_fold_partial wg D1 Lo (fun _ _ _ => 1) wg_wf ltac:(discriminate) eq_refl ltac:(cbn; lia)) as [f' [E V]].
  exists wg, in_y, nowhere, y_lo, y_lo, (fun _ _ _ => 1), f', (v3 0 0 0)%Z.
  split; [exact wg_wf|]. split; [exact wg_ok|]. split; [split; reflexivity|]. split; [intros e He; destruct e; cbn; try congruence; lia|]. split.
  - rewrite J_only_y. rewrite by_side_Lo in E. exact E.
  - destruct (V D0 (v3 0 0 0)%Z) as [_ [_ K]]; [intros e He; destruct e; cbn; try congruence; lia|].
    rewrite K; [lra| |]; cbn; lia.
Qed.
Print Assumptions C32_J_second_layer_refuted.

(** the lower y wall is not treated for H at the lowest z *)
Theorem C32_corner_refuted : exists g f f' i, wf_grid g /\ beside g D1 (-2) i /\ conducting_wall_H_lo g D1 f = Some f' /\
  f' QH D0 (set3 i D1 (-1)%Z) <> f' QH D0 (set3 i D1 0%Z) /\ f' QH D0 (set3 i D1 (-1)%Z) <> - f' QH D0 (set3 i D1 0%Z).
Proof.
  pose (f := (fun _ _ i => if (c1 i =? 0)%Z then 1 else 0) : pf).
  destruct (H_setup wg wg_wf) as [HI HR]. assert (Hf : fits wg D1) by (repeat split; [discriminate|cbn; lia]).
  destruct (wall_val wg wg_wf QH D1 eq_refl ltac:(discriminate) (-1) (rowsH wg D1 Lo) f) as [f' [E V]]; [lia|apply HI; exact Hf| |].
  - generalize (HR D1 Lo Hf). apply Forall_impl. intros r [A B]. split; [lia|]. intros t Ht. specialize (B t Ht). lia.
  - exists wg, f, f', (v3 0 0 (-2))%Z. split; [exact wg_wf|]. split; [intros e He; destruct e; cbn; try congruence; lia|].
    split; [rewrite H_lo_op by discriminate; exact E|]. rewrite !V. change (treated wg D1 (-1) (set3 (v3 0 0 (-2))%Z D1 (-1)%Z)) with false. change (treated wg D1 (-1) (set3 (v3 0 0 (-2))%Z D1 0%Z)) with false.
    cbn [andb qty_eqb set3]. unfold f. cbn [c1 c0 c2 Z.eqb]. split; lra.
Qed.
Print Assumptions C32_corner_refuted.

(** a conducting wall in x ends the program *)
Theorem C32_x_refuted : forall g at_lo at_hi lo hi be f, wall at_lo at_hi lo hi D0 Lo ->
  fill_ghosts_E g at_lo at_hi lo hi be f = None /\ add_ghosts_J g at_lo at_hi lo hi f = None.
Proof.
  intros g at_lo at_hi lo hi be f [H1 H2]. cbn in H1, H2. unfold fill_ghosts_E, add_ghosts_J, sides. cbn [fold_left dims3 get3]. rewrite H1, H2. split; reflexivity.
Qed.
Print Assumptions C32_x_refuted.

(** ** Examples *)

(** a patch with walls at three sides, y below and above and z above, and invariant in x *)
Definition ex_wall_grid : fgrid := FGrid (v3 1 4 2)%Z (v3 0 2 3)%Z (v3 1 1 1) (1 / 2) (v3 true false false).
Definition ex_wall_lo : V3 bnd_fld := v3 BND_FLD_PERIODIC BND_FLD_CONDUCTING_WALL BND_FLD_PERIODIC.
Definition ex_wall_hi : V3 bnd_fld := v3 BND_FLD_PERIODIC BND_FLD_CONDUCTING_WALL BND_FLD_CONDUCTING_WALL.
Example ex_C32 : wf_grid ex_wall_grid /\ walls_ok ex_wall_grid (v3 true true false) (v3 true true true) ex_wall_lo ex_wall_hi /\
  wall (v3 true true false) (v3 true true true) ex_wall_lo ex_wall_hi D1 Lo /\ wall (v3 true true false) (v3 true true true) ex_wall_lo ex_wall_hi D2 Hi /\
  beside ex_wall_grid D1 (-2) (v3 0 0 3)%Z.
Proof.
  split; [intros d; destruct d; cbn; repeat split; try lia; lra|]. split.
  - intros d s. destruct d, s; cbn; intros H; try discriminate H; try (left; reflexivity); right; repeat split; try congruence; lia.
  - split; [split; reflexivity|]. split; [split; reflexivity|]. intros e He. destruct e; cbn; try congruence; lia.
Qed.

Example ex_C32_x : wall (v3 true false false) nowhere (v3 BND_FLD_CONDUCTING_WALL BND_FLD_PERIODIC BND_FLD_PERIODIC) y_lo D0 Lo.
Proof. split; reflexivity. Qed.
