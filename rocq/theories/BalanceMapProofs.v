From Coq Require Import Reals Lra Psatz.
From Flocq Require Import Core.Core.
From Flocq Require Import Relative.
From Verif Require Import Base DomainModel MpiModel BalanceModel.
Local Open Scope Z_scope.

Section Generic.
  Variable rnd : R -> R.

  Lemma find_middle_ok : forall k target load pm rest,
    (0 < k)%nat -> (k <= length rest)%nat ->
    (target < fold_left (fun s x => rnd (s + x)) (firstn k rest) load)%R ->
    exists m, find_middle rnd target load pm rest = Some m /\ pm <= m <= pm + Z.of_nat k.
  Proof.
    induction k as [|k IH]; intros target load pm rest Hk Hl Hf; [lia|].
    destruct rest as [|l r]; [cbn in Hl; lia|]. cbn [firstn fold_left] in Hf.
    cbn [find_middle length] in *. destruct (Rlt_bool target (rnd (load + l))) eqn:E.
    - eexists. split; [reflexivity|]. destruct (Rlt_bool (rnd _) (rnd _)); lia.
    - destruct k as [|k].
      + exfalso. cbn in Hf. rewrite Rlt_bool_true in E by exact Hf. discriminate.
      + destruct (IH target (rnd (load + l)) (pm + 1) r ltac:(lia) ltac:(lia) Hf) as [m [Em Hm]].
        exists m. split; [exact Em|]. lia.
  Qed.

  Variables (loads : list R) (n_procs : Z).
  Hypothesis Htgt : forall i k a b, (0 < k)%nat -> (i + k <= length loads)%nat ->
    0 < a < b -> b <= n_procs ->
    exists k', (0 < k')%nat /\ (i + k' <= length loads)%nat /\
    (rnd (rnd (accumulate rnd (firstn k (skipn i loads)) * IZR a) / IZR b)
     < accumulate rnd (firstn k' (skipn i loads)))%R.

  Lemma best_mapping_recursive_ok : forall fuel pb pe ab ae,
    0 <= pb < pe -> pe <= n_procs -> pe - pb <= Z.of_nat fuel ->
    0 <= ab -> ae <= Z.of_nat (length loads) -> pe - pb <= ae - ab ->
    exists l, best_mapping_recursive rnd fuel loads pb pe ab ae = Some l /\
      Z.of_nat (length l) = pe - pb /\ Forall (fun c => 1 <= c) l /\ zsum l = ae - ab.
  Proof.
    induction fuel as [|fuel IH]; intros pb pe ab ae Hp Hpn Hf Hab Hae Hn; [lia|].
    cbn [best_mapping_recursive]. destruct (Z.ltb_spec (ae - ab) (pe - pb)); [lia|].
    destruct (Z.eqb_spec pe (pb + 1)) as [E|E].
    - exists [ae - ab]. split; [reflexivity|]. cbn. split; [lia|]. split; [|lia].
      repeat constructor. lia.
    - set (pm := (pb + pe) / 2).
      assert (Hpm : pb < pm < pe) by (unfold pm; lia).
      pose proof (Htgt (Z.to_nat ab) (Z.to_nat (ae - ab)) (pm - pb) (pe - pb)
                       ltac:(lia) ltac:(lia) ltac:(lia) ltac:(lia)) as [k' [Hk' [Hl' HT]]].
      unfold accumulate in HT at 2.
      destruct (find_middle_ok k' _ 0%R ab (skipn (Z.to_nat ab) loads)
                  Hk' ltac:(rewrite skipn_length; lia) HT) as [m [Em Hm]].
      cbv zeta. rewrite Em.
      assert (HC : pm - pb <= clamp_middle pb pm pe ab ae m - ab /\ pe - pm <= ae - clamp_middle pb pm pe ab ae m).
      { unfold clamp_middle. destruct (Z.ltb_spec (m - ab) (pm - pb));
          [destruct (Z.ltb_spec (ae - (ab + (pm - pb))) (pe - pm))|destruct (Z.ltb_spec (ae - m) (pe - pm))]; lia. }
      set (q := clamp_middle pb pm pe ab ae m) in *.
      destruct (IH pb pm ab q) as [l1 [E1 [L1 [F1 S1]]]]; try lia.
      destruct (IH pm pe q ae) as [l2 [E2 [L2 [F2 S2]]]]; try lia.
      rewrite E1, E2. exists (l1 ++ l2). split; [reflexivity|].
      rewrite app_length, zsum_app. split; [lia|]. split; [|lia]. apply Forall_app. auto.
  Qed.

  Lemma best_mapping_ok : 1 <= n_procs <= Z.of_nat (length loads) ->
    exists l, best_mapping rnd n_procs loads = Some l /\
      Z.of_nat (length l) = n_procs /\ Forall (fun c => 1 <= c) l /\ zsum l = Z.of_nat (length loads).
  Proof.
    intros H. unfold best_mapping.
    destruct (best_mapping_recursive_ok (Z.to_nat n_procs) 0 n_procs 0 (Z.of_nat (length loads)))
      as [l [E [L [F S]]]]; try lia.
    exists l. split; [exact E|]. split; [lia|]. split; [exact F|]. lia.
  Qed.
End Generic.

Lemma Forall_firstn_skipn {A} (Q : A -> Prop) l i k : Forall Q l -> Forall Q (firstn k (skipn i l)).
Proof.
  intros H. rewrite Forall_forall in *. intros x Hx. apply H.
  rewrite <- (firstn_skipn i l). apply in_or_app. right.
  rewrite <- (firstn_skipn k (skipn i l)). apply in_or_app. now left.
Qed.

Lemma firstn_skipn_ne {A} (l : list A) i k : (0 < k)%nat -> (i + k <= length l)%nat ->
  firstn k (skipn i l) <> [].
Proof.
  intros Hk Hl H. apply (f_equal (@length A)) in H. rewrite firstn_length, skipn_length in H.
  cbn in H. lia.
Qed.

(** ** Exact arithmetic *)

Lemma exact_target (l : list R) a b : Forall (fun x => 0 < x)%R l -> l <> [] ->
  0 < a < b ->
  (accumulate (fun x => x) l * IZR a / IZR b < accumulate (fun x => x) l)%R.
Proof.
  intros Hl Hne Hab.
  assert (Ht : (0 < accumulate (fun x => x) l)%R).
  { unfold accumulate. assert (G : forall l s, Forall (fun x => 0 < x)%R l -> (0 <= s)%R ->
      (s <= fold_left (fun s x => s + x) l s)%R).
    { induction l0 as [|x l0 IHl]; intros s HF Hs; cbn; [lra|].
      inversion HF; subst. specialize (IHl (s + x)%R H2 ltac:(lra)). lra. }
    destruct l as [|x l]; [congruence|]. inversion Hl; subst. cbn.
    specialize (G l (0 + x)%R H2 ltac:(lra)). lra. }
  set (t := accumulate _ l) in *.
  assert (Hb : (0 < IZR b)%R) by (apply IZR_lt; lia).
  assert (Hab' : (IZR a < IZR b)%R) by (apply IZR_lt; lia).
  apply Rmult_lt_reg_r with (IZR b); [exact Hb|].
  unfold Rdiv. rewrite Rmult_assoc, Rinv_l by lra. rewrite Rmult_1_r.
  apply Rmult_lt_compat_l; lra.
Qed.

Lemma best_mapping_exact loads n_procs :
  Forall (fun x => 0 < x)%R loads -> 1 <= n_procs <= Z.of_nat (length loads) ->
  exists l, best_mapping (fun x => x) n_procs loads = Some l /\
    Z.of_nat (length l) = n_procs /\ Forall (fun c => 1 <= c) l /\ zsum l = Z.of_nat (length loads).
Proof.
  intros Hl Hn. apply best_mapping_ok; [|exact Hn].
  intros i k a b Hk Hik Hab Hb. exists k. split; [exact Hk|]. split; [exact Hik|]. apply exact_target; [|apply firstn_skipn_ne; assumption|exact Hab].
  apply Forall_firstn_skipn. exact Hl.
Qed.

(** ** Floating-point arithmetic *)

Section Float.
  Variables (emin prec : Z).
  Hypothesis Hprec : 2 < prec.
  Let fexp := FLT_exp emin prec.
  Let rnd := round radix2 fexp ZnearestE.

  Instance prec_gt : Prec_gt_0 prec.
  Proof. unfold Prec_gt_0. lia. Qed.

  Let rnd_mono x y : (x <= y)%R -> (rnd x <= rnd y)%R.
  Proof. apply round_le; [apply FLT_exp_valid, prec_gt|apply valid_rnd_N]. Qed.

  Let lo := bpow radix2 (emin + prec).

  Let lo_fmt : rnd lo = lo.
  Proof.
    apply round_generic; [apply valid_rnd_N|]. apply generic_format_bpow.
    unfold fexp, FLT_exp. lia.
  Qed.

  Let rnd_idem x : rnd (rnd x) = rnd x.
  Proof.
    apply round_generic; [apply valid_rnd_N|].
    apply generic_format_round; [apply FLT_exp_valid, prec_gt|apply valid_rnd_N].
  Qed.

  Lemma rel_err x : (bpow radix2 (emin + prec - 1) <= Rabs x)%R ->
    (rnd x <= x + bpow radix2 (- prec) * Rabs x)%R.
  Proof.
    intros H. pose proof (relative_error_N_FLT radix2 emin prec prec_gt (fun x => negb (Z.even x)) x H) as E.
    unfold rnd, fexp. 
    assert (E2 : (/ 2 * bpow radix2 (- prec + 1) = bpow radix2 (- prec))%R).
    { rewrite bpow_plus. change (bpow radix2 1) with 2%R. field. }
    rewrite E2 in E. apply Rabs_le_inv in E. 
    change (Znearest (fun x : Z => negb (Z.even x))) with ZnearestE in E. lra.
  Qed.

  Lemma acc_ge (l : list R) : Forall (fun x => lo <= x)%R l -> l <> [] ->
    (lo <= accumulate rnd l)%R /\ rnd (accumulate rnd l) = accumulate rnd l.
  Proof.
    intros Hl Hne. assert (H0 : (0 < lo)%R) by apply bpow_gt_0.
    unfold accumulate.
    assert (G : forall l s, Forall (fun x => lo <= x)%R l -> (lo <= s)%R -> rnd s = s ->
      (lo <= fold_left (fun s x => rnd (s + x)) l s)%R /\
      rnd (fold_left (fun s x => rnd (s + x)) l s) = fold_left (fun s x => rnd (s + x)) l s).
    { induction l0 as [|x l0 IHl]; intros s HF Hs Hr; cbn; [auto|].
      inversion HF; subst. apply IHl; [assumption| |apply rnd_idem].
      rewrite <- lo_fmt. apply rnd_mono. lra. }
    destruct l as [|x l]; [congruence|]. inversion Hl; subst. cbn.
    apply G; [assumption| |apply rnd_idem].
    rewrite <- lo_fmt. apply rnd_mono. lra.
  Qed.

  Lemma float_target (l : list R) a b : Forall (fun x => lo <= x)%R l -> l <> [] ->
    0 < a < b -> b <= 2 ^ (prec - 2) ->
    (rnd (rnd (accumulate rnd l * IZR a) / IZR b) < accumulate rnd l)%R.
  Proof.
    intros Hl Hne Hab Hb. destruct (acc_ge l Hl Hne) as [Ht _].
    set (t := accumulate rnd l) in *.
    assert (H0 : (0 < lo)%R) by apply bpow_gt_0.
    assert (Hb0 : (2 <= IZR b)%R) by (apply IZR_le; lia).
    assert (Ha0 : (1 <= IZR a)%R) by (apply IZR_le; lia).
    assert (Hab' : (IZR a <= IZR b - 1)%R) by (rewrite <- minus_IZR; apply IZR_le; lia).
    assert (Hb2 : (IZR b <= bpow radix2 (prec - 2))%R).
    { change (bpow radix2 (prec - 2)) with (bpow radix2 (prec - 2)).
      rewrite <- IZR_Zpower by lia. apply IZR_le. exact Hb. }
    set (u := bpow radix2 (- prec)).
    assert (Hu0 : (0 < u)%R) by apply bpow_gt_0.
    assert (Hub : (u * IZR b <= / 4)%R).
    { apply Rle_trans with (u * bpow radix2 (prec - 2))%R; [apply Rmult_le_compat_l; lra|].
      unfold u. rewrite <- bpow_plus. replace (- prec + (prec - 2)) with (-2) by lia.
      cbn. lra. }
    assert (Hlow : (bpow radix2 (emin + prec - 1) < lo)%R) by (apply bpow_lt; lia).
    set (x := rnd (t * IZR a)).
    assert (Hta : (lo <= t * IZR a)%R) by nra.
    assert (Hx : (x <= t * IZR a * (1 + u))%R).
    { unfold x. eapply Rle_trans; [apply rel_err|].
      - rewrite Rabs_pos_eq by lra. lra.
      - rewrite Rabs_pos_eq by lra. fold u. lra. }
    assert (Hx0 : (0 < x)%R).
    { apply Rlt_le_trans with lo; [exact H0|]. unfold x. rewrite <- lo_fmt. apply rnd_mono. exact Hta. }
    assert (Hq0 : (0 < x / IZR b)%R) by (apply Rdiv_lt_0_compat; lra).
    destruct (Rlt_le_dec (x / IZR b) (bpow radix2 (emin + prec - 1))) as [Hs|Hs].
    - apply Rle_lt_trans with (bpow radix2 (emin + prec - 1)); [|lra].
      assert (E : rnd (bpow radix2 (emin + prec - 1)) = bpow radix2 (emin + prec - 1)).
      { apply round_generic; [apply valid_rnd_N|]. apply generic_format_bpow. unfold fexp, FLT_exp. lia. }
      rewrite <- E. apply rnd_mono. lra.
    - apply Rle_lt_trans with (x / IZR b * (1 + u))%R.
      { eapply Rle_trans; [apply rel_err; rewrite Rabs_pos_eq by lra; exact Hs|].
        rewrite Rabs_pos_eq by lra. fold u. lra. }
      apply Rmult_lt_reg_r with (IZR b); [lra|].
      replace (x / IZR b * (1 + u) * IZR b)%R with (x * (1 + u))%R by (field; lra).
      apply Rle_lt_trans with (t * IZR a * (1 + u) * (1 + u))%R.
      { apply Rmult_le_compat_r; lra. }
      replace (t * IZR a * (1 + u) * (1 + u))%R with (t * (IZR a * ((1 + u) * (1 + u))))%R by ring.
      apply Rmult_lt_compat_l; [lra|].
      apply Rle_lt_trans with ((IZR b - 1) * ((1 + u) * (1 + u)))%R.
      { apply Rmult_le_compat_r; nra. }
      assert (Hu1 : (u <= / 8)%R) by nra.
      nra.
  Qed.

  Lemma best_mapping_float loads n_procs :
    Forall (fun x => lo <= x)%R loads -> n_procs <= 2 ^ (prec - 2) ->
    1 <= n_procs <= Z.of_nat (length loads) ->
    exists l, best_mapping rnd n_procs loads = Some l /\
      Z.of_nat (length l) = n_procs /\ Forall (fun c => 1 <= c) l /\ zsum l = Z.of_nat (length loads).
  Proof.
    intros Hl Hp Hn. apply best_mapping_ok; [|exact Hn].
    intros i k a b Hk Hik Hab Hb. exists k. split; [exact Hk|]. split; [exact Hik|]. apply float_target; [|apply firstn_skipn_ne; assumption|exact Hab|lia].
    apply Forall_firstn_skipn. exact Hl.
  Qed.
End Float.

(** ** Zero loads *)

Lemma find_middle_zero : forall rest pm, Forall (fun x => x = 0)%R rest ->
  find_middle (fun x => x) 0 0 pm rest = None.
Proof.
  induction rest as [|x r IH]; intros pm HF; cbn; [reflexivity|].
  inversion HF; subst. rewrite Rplus_0_l, Rlt_bool_false by lra. apply IH. assumption.
Qed.

Lemma acc_zero : forall l, Forall (fun x => x = 0)%R l -> accumulate (fun x => x) l = 0%R.
Proof.
  intros l H. unfold accumulate. induction H as [|x l Hx Hl IH]; cbn; [reflexivity|].
  subst x. rewrite Rplus_0_l. exact IH.
Qed.

(** all loads zero: for two or more processes the search always runs off the end *)
Lemma best_mapping_all_zero loads n_procs :
  Forall (fun x => x = 0)%R loads -> 2 <= n_procs -> best_mapping (fun x => x) n_procs loads = None.
Proof.
  intros Hl Hn. unfold best_mapping.
  destruct (Z.to_nat n_procs) as [|f] eqn:Ef; [lia|]. cbn [best_mapping_recursive].
  destruct (Z.ltb_spec (Z.of_nat (length loads) - 0) (n_procs - 0)); [reflexivity|].
  destruct (Z.eqb_spec n_procs (0 + 1)); [lia|].
  rewrite acc_zero by (apply Forall_firstn_skipn; exact Hl).
  rewrite Rmult_0_l. unfold Rdiv. rewrite Rmult_0_l.
  rewrite find_middle_zero; [reflexivity|]. cbn [Z.to_nat skipn]. exact Hl.
Qed.

(** some load, but the tail of the patches is empty *)
Lemma best_mapping_tail_zero : best_mapping (fun x => x) 4 [1; 0; 0; 0]%R = None.
Proof.
  unfold best_mapping. change (Z.to_nat 4) with 4%nat.
  cbn [length Z.of_nat Pos.of_succ_nat Pos.succ].
  cbn [best_mapping_recursive].
  change (4 - 0 <? 4 - 0) with false. change (4 =? 0 + 1) with false. cbv iota zeta.
  change ((0 + 4) / 2) with 2. change (Z.to_nat (4 - 0)) with 4%nat. change (Z.to_nat 0) with 0%nat.
  cbn [skipn firstn]. unfold accumulate at 1. cbn [fold_left].
  change (IZR (2 - 0)) with 2%R. change (IZR (4 - 0)) with 4%R.
  replace ((0 + 1 + 0 + 0 + 0) * 2 / 4)%R with (/ 2)%R by field.
  cbn [find_middle]. rewrite Rlt_bool_true by lra. rewrite Rlt_bool_false by lra.
  change (clamp_middle 0 2 4 0 4 (0 + 1)) with 2.
  match goal with |- match ?a with _ => _ end = _ => destruct a as [l|]; [|reflexivity] end.
  change (4 - 2 <? 4 - 2) with false. change (4 =? 2 + 1) with false. cbv iota zeta.
  change ((2 + 4) / 2) with 3. change (Z.to_nat (4 - 2)) with 2%nat. change (Z.to_nat 2) with 2%nat.
  cbn [skipn firstn]. unfold accumulate at 1. cbn [fold_left].
  replace ((0 + 0 + 0) * IZR (3 - 2) / IZR (4 - 2))%R with 0%R.
  2:{ change (IZR (3 - 2)) with 1%R. change (IZR (4 - 2)) with 2%R. field. }
  rewrite find_middle_zero by (repeat constructor). reflexivity.
Qed.

Lemma patch_load_pos factor ldims n : (0 < factor)%R -> (forall d, 0 < get3 ldims d) -> 0 <= n ->
  (0 < patch_load (fun x => x) factor ldims n)%R.
Proof.
  intros Hf Hl Hn. unfold patch_load.
  pose proof (IZR_lt _ _ (Hl D0)) as A0. pose proof (IZR_lt _ _ (Hl D1)) as A1.
  pose proof (IZR_lt _ _ (Hl D2)) as A2. pose proof (IZR_le _ _ Hn) as An. cbn [get3] in *.
  assert (0 < factor * IZR (c0 ldims) * IZR (c1 ldims) * IZR (c2 ldims))%R
    by (repeat apply Rmult_lt_0_compat; assumption). lra.
Qed.

Lemma find_best_mapping_ok old loads :
  Forall (fun x => 0 < x)%R loads -> (1 <= length old <= length loads)%nat ->
  exists new, find_best_mapping (fun x => x) old loads = Some new /\ length new = length old /\
    (Forall (fun c => c = -1) new /\ best_mapping (fun x => x) (Z.of_nat (length old)) loads = Some old \/
     Forall (fun c => 1 <= c) new /\ zsum new = Z.of_nat (length loads) /\ new <> old).
Proof.
  intros Hl Hn. destruct (best_mapping_exact loads (Z.of_nat (length old)) Hl ltac:(lia))
    as [l [E [L [F S]]]].
  unfold find_best_mapping. rewrite E. eexists. split; [reflexivity|].
  destruct (list_eq_dec Z.eq_dec l old) as [->|Hne].
  - rewrite map_length. split; [reflexivity|]. left. split; [|reflexivity].
    apply Forall_forall. intros x Hx. apply in_map_iff in Hx. destruct Hx as [? [<- _]]. reflexivity.
  - split; [lia|]. right. auto.
Qed.

(** loads may vanish as long as the last one does not *)
Lemma accumulate_ge l : Forall (fun x => 0 <= x)%R l -> (0 <= accumulate (fun x => x) l)%R.
Proof.
  intros H. unfold accumulate.
  assert (G : forall l s, Forall (fun x => 0 <= x)%R l -> (s <= fold_left (fun s x => s + x) l s)%R).
  { induction l0 as [|x l0 IHl]; intros s HF; cbn; [lra|].
    inversion HF; subst. specialize (IHl (s + x)%R H3). lra. }
  apply G, H.
Qed.

Lemma best_mapping_last loads n_procs last :
  Forall (fun x => 0 <= x)%R loads -> (0 < last)%R -> 1 <= n_procs <= Z.of_nat (length (loads ++ [last])) ->
  exists l, best_mapping (fun x => x) n_procs (loads ++ [last]) = Some l /\
    Z.of_nat (length l) = n_procs /\ Forall (fun c => 1 <= c) l /\
    zsum l = Z.of_nat (length (loads ++ [last])).
Proof.
  intros Hl Hlast Hn. apply best_mapping_ok; [|exact Hn].
  intros i k a b Hk Hik Hab Hb.
  assert (HF : Forall (fun x => 0 <= x)%R (loads ++ [last])).
  { apply Forall_app. split; [exact Hl|]. repeat constructor. lra. }
  rewrite app_length in Hik. cbn [length] in Hik.
  pose proof (accumulate_ge (firstn k (skipn i (loads ++ [last]))) (Forall_firstn_skipn _ _ _ _ HF)) as HT.
  set (T := accumulate _ (firstn k (skipn i (loads ++ [last])))) in *.
  assert (Hb' : (0 < IZR b)%R) by (apply IZR_lt; lia).
  assert (Hab' : (IZR a < IZR b)%R) by (apply IZR_lt; lia).
  destruct (Rle_lt_or_eq_dec _ _ HT) as [Hp|Hz].
  - exists k. rewrite app_length. cbn [length]. split; [exact Hk|]. split; [lia|]. fold T.
    apply Rmult_lt_reg_r with (IZR b); [exact Hb'|].
    unfold Rdiv. rewrite Rmult_assoc, Rinv_l by lra. rewrite Rmult_1_r.
    apply Rmult_lt_compat_l; lra.
  - exists (length (loads ++ [last]) - i)%nat. rewrite app_length. cbn [length].
    split; [lia|]. split; [lia|]. rewrite <- Hz.
    replace (0 * IZR a / IZR b)%R with 0%R by (field; lra).
    rewrite firstn_all2 by (rewrite skipn_length, app_length; cbn [length]; lia).
    rewrite skipn_app.
    replace (i - length loads)%nat with 0%nat by lia. cbn [skipn].
    unfold accumulate. rewrite fold_left_app. cbn [fold_left].
    pose proof (accumulate_ge (skipn i loads)) as HA. unfold accumulate in HA.
    enough (0 <= fold_left (fun s x => s + x) (skipn i loads) 0)%R by lra. apply HA.
    rewrite Forall_forall in *. intros x Hx. apply Hl. rewrite <- (firstn_skipn i loads).
    apply in_or_app. now right.
Qed.

Lemma best_mapping_example : best_mapping (fun x => x) 2 [3; 1; 1; 1]%R = Some [1; 3].
Proof.
  unfold best_mapping. change (Z.to_nat 2) with 2%nat.
  cbn [length Z.of_nat Pos.of_succ_nat Pos.succ].
  cbn [best_mapping_recursive].
  change (4 - 0 <? 2 - 0) with false. change (2 =? 0 + 1) with false. cbv iota zeta.
  change ((0 + 2) / 2) with 1. change (Z.to_nat (4 - 0)) with 4%nat. change (Z.to_nat 0) with 0%nat.
  cbn [skipn firstn]. unfold accumulate at 1. cbn [fold_left].
  change (IZR (1 - 0)) with 1%R. change (IZR (2 - 0)) with 2%R.
  replace ((0 + 3 + 1 + 1 + 1) * 1 / 2)%R with 3%R by field.
  cbn [find_middle]. rewrite Rplus_0_l.
  rewrite (Rlt_bool_false 3 3) by lra. rewrite (Rlt_bool_true 3 (3 + 1)) by lra.
  rewrite (Rlt_bool_true (3 - 3)) by lra. reflexivity.
Qed.
