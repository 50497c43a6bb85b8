(** The numbering of processes, and what holds in every state of the set-up. *)
From Verif Require Import Base SimpleModel SimpleSpec.
Local Open Scope Z_scope.

Lemma inside_pos np p : inside np p -> forall d, 0 < get3 np d.
Proof. intros H d. specialize (H d). lia. Qed.

Lemma number_range np p : inside np p -> 0 <= number np p < c0 np * c1 np * c2 np.
Proof.
  intros H. pose proof (H D0) as A. pose proof (H D1) as B. pose proof (H D2) as C. destruct np as [a b c], p as [x y z]. unfold number. cbn [get3 c0 c1 c2] in *.
  assert (0 <= b * z) by nia. assert (y + b * z + 1 <= b * c) by nia. assert (0 <= a * (y + b * z)) by nia. assert (a * (y + b * z + 1) <= a * (b * c)) by nia. lia.
Qed.

Lemma rank2proc_number np p : inside np p -> rank2proc np (number np p) = p.
Proof.
  intros H. pose proof (number_range np p H) as N. pose proof (H D0) as A. pose proof (H D1) as B. pose proof (H D2) as C. destruct np as [a b c], p as [x y z]. unfold number, rank2proc in *. cbn [get3 c0 c1 c2] in *.
  assert (0 <= b * z) by nia. assert (0 <= a * (y + b * z)) by nia. rewrite !(Z.rem_mod_nonneg (x + _)), !(Z.quot_div_nonneg (x + _)) by lia.
  rewrite (Z.mul_comm a), Z.mod_add, Z.div_add, Z.mod_small, Z.div_small by lia. cbn [Z.add]. rewrite !(Z.rem_mod_nonneg (y + _)), !(Z.quot_div_nonneg (y + _)) by lia.
  rewrite (Z.mul_comm b), Z.mod_add, Z.div_add, Z.mod_small, Z.div_small by lia. cbn [Z.add]. rewrite Z.rem_small by lia. reflexivity.
Qed.

Lemma proc2rank_number np p : inside np p -> proc2rank np p = number np p.
Proof.
  intros H. unfold proc2rank. assert (E : existsb (fun d => (get3 p d <? 0) || (get3 np d <=? get3 p d)) dims3 = false).
  { cbn [existsb dims3]. pose proof (H D0). pose proof (H D1). pose proof (H D2). repeat match goal with |- context [?a <? ?b] => destruct (Z.ltb_spec a b); [lia|] end. repeat match goal with |- context [?a <=? ?b] => destruct (Z.leb_spec a b); [lia|] end. reflexivity. }
  rewrite E. unfold number. ring.
Qed.

Lemma proc2rank_outside np p : ~ inside np p -> proc2rank np p = -1.
Proof.
  intros H. unfold proc2rank. destruct (existsb _ dims3) eqn:E; [reflexivity|]. exfalso. apply H. intros d. assert (K : forall d, (get3 p d <? 0) || (get3 np d <=? get3 p d) = false).
  { intros d'. destruct ((get3 p d' <? 0) || _) eqn:Q; [|reflexivity]. rewrite <- E. symmetry. apply existsb_exists. exists d'. split; [apply in_dims3|exact Q]. }
  specialize (K d). apply orb_false_iff in K. destruct K as [K1 K2]. apply Z.ltb_ge in K1. apply Z.leb_gt in K2. lia.
Qed.

(** every rank has coordinates *)
Lemma rank2proc_inside np r : (forall d, 0 < get3 np d) -> 0 <= r < c0 np * c1 np * c2 np -> inside np (rank2proc np r) /\ number np (rank2proc np r) = r.
Proof.
  intros P H. pose proof (P D0) as A. pose proof (P D1) as B. pose proof (P D2) as C. destruct np as [a b c]. unfold number, rank2proc. cbn [get3 c0 c1 c2] in *.
  pose proof (Z.quot_rem' r a) as E1. pose proof (Z.rem_bound_pos r a ltac:(lia) A). assert (Q1 : 0 <= Z.quot r a) by (apply Z.quot_pos; lia).
  pose proof (Z.quot_rem' (Z.quot r a) b) as E2. pose proof (Z.rem_bound_pos (Z.quot r a) b Q1 B). assert (Q2 : 0 <= Z.quot (Z.quot r a) b) by (apply Z.quot_pos; lia).
  set (q1 := Z.quot r a) in *. set (q2 := Z.quot q1 b) in *. assert (q1 < b * c) by nia. assert (q2 < c) by nia. rewrite (Z.rem_small q2 c) by lia. split; [intros [| |]; cbn [get3 c0 c1 c2]; lia|lia].
Qed.

Lemma number_inj np p q : inside np p -> inside np q -> number np p = number np q -> p = q.
Proof. intros Hp Hq E. rewrite <- (rank2proc_number np p Hp), <- (rank2proc_number np q Hq), E. reflexivity. Qed.

(** the neighbour of p in direction d *)
Definition beside (p : V3 Z) (d : dim3) (s : Z) : V3 Z := set3 p d (get3 p d + s).

Lemma inside_set np p d i : inside np p -> 0 <= i < get3 np d -> inside np (set3 p d i).
Proof. intros H Hi d'. destruct p as [x y z], d, d'; cbn [set3 get3 c0 c1 c2] in *; try exact Hi; first [exact (H D0)|exact (H D1)|exact (H D2)]. Qed.

Lemma neighbor_inside np p d s : inside np p -> 0 <= get3 p d + s < get3 np d -> get_neighbor_rank np (number np p) d s = number np (beside p d s).
Proof. intros H Hi. unfold get_neighbor_rank. rewrite (rank2proc_number np p H). apply proc2rank_number. apply inside_set; assumption. Qed.

Lemma set3_set3 (p : V3 Z) d i j : set3 (set3 p d i) d j = set3 p d j.
Proof. destruct p, d; reflexivity. Qed.

Lemma set3_get (p : V3 Z) d : set3 p d (get3 p d) = p.
Proof. destruct p, d; reflexivity. Qed.

Lemma beside_back p d s : beside (beside p d s) d (- s) = p.
Proof. unfold beside. rewrite get3_set3_same, set3_set3. replace (get3 p d + s + - s) with (get3 p d) by lia. apply set3_get. Qed.

Lemma before_zero np lm p d : get3 p d = 0 -> before np lm p d = 0.
Proof. intros E. unfold before, upto. rewrite E. reflexivity. Qed.

Lemma before_next np lm p d : 0 <= get3 p d -> before np lm (beside p d 1) d = before np lm p d + get3 (lm (number np p)) d.
Proof.
  intros H. unfold before, upto, beside. rewrite get3_set3_same, zrange_snoc by lia. rewrite map_app, zsum_app. cbn [map zsum]. rewrite set3_set3, set3_get, Z.add_0_r. f_equal. f_equal. apply map_ext. intros i. rewrite set3_set3. reflexivity.
Qed.

Definition idx (d : dim3) : Z := match d with D0 => 0 | D1 => 2 | D2 => 4 end.

Lemma dim_at_spec k : 0 <= k < 6 -> (k = idx (dim_at k) /\ Z.even k = true) \/ (k = idx (dim_at k) + 1 /\ Z.even k = false).
Proof. intros H. assert (k = 0 \/ k = 1 \/ k = 2 \/ k = 3 \/ k = 4 \/ k = 5) as [-> | [-> | [-> | [-> | [-> | ->]]]]] by lia; cbn; auto. Qed.

Lemma idx_inj d d' : idx d = idx d' -> d = d'.
Proof. destruct d, d'; cbn; intros; congruence || lia. Qed.

Section Inv.
  Variables (np : V3 Z) (lm : Z -> V3 Z).
  Let N := number np.

  Record Inv (s : st) : Prop := {
    i_pc : forall p, inside np p -> 0 <= pc s (N p) <= 6;
    i_off : forall p d, inside np p -> idx d < pc s (N p) -> off s (N p) d = before np lm p d;
    i_msg : forall p d v, inside np p -> get3 p d + 1 < get3 np d -> msg s (N p) (N (beside p d 1)) d = Some v -> v = before np lm (beside p d 1) d /\ idx d + 1 < pc s (N p);
    i_sent : forall p d, inside np p -> get3 p d + 1 < get3 np d -> idx d + 1 < pc s (N p) -> msg s (N p) (N (beside p d 1)) d <> None;
    i_order : forall p d, inside np p -> get3 p d + 1 < get3 np d -> idx d < pc s (N (beside p d 1)) -> idx d + 1 < pc s (N p) }.

  Lemma inv_init : Inv init.
  Proof. constructor; cbn [init pc off msg]; intros; try discriminate; try lia; destruct d; cbn in *; lia. Qed.

  Lemma N_eqb p q : inside np p -> inside np q -> N p =? N q = true -> p = q.
  Proof. intros Hp Hq H. apply Z.eqb_eq in H. apply (number_inj np); assumption. Qed.

  Lemma beside_inside p d : inside np p -> get3 p d + 1 < get3 np d -> inside np (beside p d 1).
  Proof. intros H E. apply inside_set; [exact H|]. specialize (H d). lia. Qed.

  Lemma beside_inj p q d : beside p d 1 = beside q d 1 -> p = q.
  Proof. intros E. rewrite <- (beside_back p d 1), <- (beside_back q d 1), E. reflexivity. Qed.

  Lemma inv_next s r s' : Inv s -> (exists p, inside np p /\ r = N p) -> next np lm s r = Some s' -> Inv s'.
  Proof.
    intros [I1 I2 I3 I4 I5] (p & Hp & ->) H. unfold next in H. unfold N in H. rewrite (rank2proc_number np p Hp) in H. fold N in H.
    set (k := pc s (N p)) in *. assert (K := I1 p Hp). fold k in K.
    destruct (Z.ltb_spec k 0); [lia|]. destruct (Z.leb_spec 6 k); [discriminate|]. cbn [orb] in H.
    assert (PN : forall q, inside np q -> upd (pc s) (N p) (k + 1) (N q) = pc s (N q) /\ q <> p \/ q = p /\ upd (pc s) (N p) (k + 1) (N q) = k + 1).
    { intros q Hq. unfold upd. destruct (N q =? N p) eqn:E; [right; split; [apply N_eqb; assumption|reflexivity]|left; split; [reflexivity|]]. intros ->. rewrite Z.eqb_refl in E. discriminate. }
    assert (MONO : forall q, inside np q -> pc s (N q) <= upd (pc s) (N p) (k + 1) (N q)).
    { intros q Hq. destruct (PN q Hq) as [[-> _]|[-> ->]]; [lia|fold k; lia]. }
    destruct (dim_at_spec k ltac:(lia)) as [[KD KE]|[KD KE]]; rewrite KE in H; set (d := dim_at k) in *.
    - (* the offset becomes known *)
      assert (V : exists v, s' = St (upd (pc s) (N p) (k + 1)) (upd (off s) (N p) (updd (off s (N p)) d v)) (msg s) /\ v = before np lm p d /\ (0 < get3 p d -> idx d + 1 < pc s (N (beside p d (-1))))).
      { destruct (Z.ltb_spec 0 (get3 p d)) as [G|G].
        - assert (HB : inside np (beside p d (-1))) by (apply inside_set; [exact Hp|]; specialize (Hp d); lia). assert (NB : get_neighbor_rank np (N p) d (-1) = N (beside p d (-1))) by (apply neighbor_inside; [exact Hp|specialize (Hp d); lia]). rewrite NB in H.
          destruct (msg s (N (beside p d (-1))) (N p) d) as [v|] eqn:EM; [|discriminate]. injection H as <-. exists v. split; [reflexivity|].
          assert (BB : beside (beside p d (-1)) d 1 = p) by (apply (beside_back p d (-1))). assert (GB : get3 (beside p d (-1)) d + 1 < get3 np d) by (unfold beside; rewrite get3_set3_same; specialize (Hp d); lia).
          specialize (I3 (beside p d (-1)) d v HB GB). rewrite BB in I3. destruct (I3 EM) as [-> Q]. split; [reflexivity|intros _; exact Q].
        - injection H as <-. exists 0. split; [reflexivity|]. split; [symmetry; apply before_zero; specialize (Hp d); lia|lia]. }
      destruct V as (v & -> & -> & LEFT). clear H. constructor; cbn [pc off msg].
      + intros q Hq. destruct (PN q Hq) as [[-> _]|[_ ->]]; [apply I1, Hq|lia].
      + intros q d' Hq L. unfold upd in *. destruct (N q =? N p) eqn:E; [|apply I2; assumption]. apply (N_eqb q p Hq Hp) in E. subst q. unfold updd. destruct (dim3_eqb d' d) eqn:ED; [apply dim3_eqb_eq in ED; subst d'; reflexivity|].
        apply I2; [exact Hp|]. fold k. destruct (Z.eq_dec (idx d') k) as [C|C]; [|lia]. exfalso. rewrite KD in C. apply idx_inj in C. subst d'. rewrite dim3_eqb_refl in ED. discriminate.
      + intros q d' v Hq G E. destruct (I3 q d' v Hq G E) as [A B]. split; [exact A|]. specialize (MONO q Hq). lia.
      + intros q d' Hq G L. apply I4; try assumption. destruct (PN q Hq) as [[E _]|[-> E]]; rewrite E in L; [exact L|]. fold k. destruct (Z.eq_dec (idx d' + 1) k) as [C|C]; [exfalso; destruct d', d; cbn in *; lia|lia].
      + intros q d' Hq G L. pose proof (beside_inside q d' Hq G) as HB. specialize (MONO q Hq). destruct (PN (beside q d' 1) HB) as [[E _]|[EB E]]; rewrite E in L; [specialize (I5 q d' Hq G L); lia|].
        destruct (Z.eq_dec (idx d') k) as [C|C]; [|specialize (I5 q d' Hq G); rewrite EB in I5; fold k in I5; lia].
        assert (d' = d) by (apply idx_inj; lia). subst d'. assert (Q : beside p d (-1) = q) by (rewrite <- EB; apply (beside_back q d 1)). rewrite Q in LEFT. assert (0 < get3 p d) by (rewrite <- EB; unfold beside; rewrite get3_set3_same; specialize (Hq d); lia). specialize (LEFT H). lia.
    - (* the next offset is sent *)
      assert (OFF : off s (N p) d = before np lm p d) by (apply I2; [exact Hp|fold k; lia]).
      assert (V : exists m, s' = St (upd (pc s) (N p) (k + 1)) (off s) m /\
        (forall q d', inside np q -> get3 q d' + 1 < get3 np d' -> (q = p /\ d' = d /\ m (N q) (N (beside q d' 1)) d' = Some (before np lm (beside p d 1) d)) \/ (~ (q = p /\ d' = d) /\ m (N q) (N (beside q d' 1)) d' = msg s (N q) (N (beside q d' 1)) d'))).
      { destruct (Z.ltb_spec (get3 p d) (get3 np d - 1)) as [G|G]; injection H as <-; eexists; (split; [reflexivity|]); intros q d' Hq G'.
        - assert (NB : get_neighbor_rank np (N p) d 1 = N (beside p d 1)) by (apply neighbor_inside; [exact Hp|specialize (Hp d); lia]). rewrite NB. assert (HB : inside np (beside p d 1)) by (apply beside_inside; [exact Hp|lia]). assert (HB' := beside_inside q d' Hq G').
          unfold upd. destruct (N q =? N p) eqn:E1.
          + apply (N_eqb q p Hq Hp) in E1. subst q. destruct (N (beside p d' 1) =? N (beside p d 1)) eqn:E2.
            * apply (N_eqb _ _ HB' HB) in E2. rewrite E2. unfold updd. destruct (dim3_eqb d' d) eqn:E3; [left; apply dim3_eqb_eq in E3; subst d'; split; [reflexivity|split; [reflexivity|]]; rewrite before_next by (specialize (Hp d); lia); rewrite OFF; reflexivity|].
              right. split; [intros [_ ->]; rewrite dim3_eqb_refl in E3; discriminate|reflexivity].
            * right. split; [intros [_ ->]; rewrite Z.eqb_refl in E2; discriminate|reflexivity].
          + right. split; [intros [-> _]; rewrite Z.eqb_refl in E1; discriminate|reflexivity].
        - right. split; [|reflexivity]. intros [-> ->]. lia. }
      destruct V as (m & -> & VM). clear H. constructor; cbn [pc off msg].
      + intros q Hq. destruct (PN q Hq) as [[-> _]|[_ ->]]; [apply I1, Hq|lia].
      + intros q d' Hq L. apply I2; [exact Hq|]. destruct (PN q Hq) as [[E _]|[-> E]]; rewrite E in L; [exact L|]. fold k. destruct (Z.eq_dec (idx d') k) as [C|C]; [exfalso; destruct d', d; cbn in *; lia|lia].
      + intros q d' v Hq G E. destruct (VM q d' Hq G) as [(-> & -> & EM)|(_ & EM)]; rewrite EM in E.
        * injection E as <-. split; [reflexivity|]. unfold upd. rewrite Z.eqb_refl. lia.
        * destruct (I3 q d' v Hq G E) as [A B]. split; [exact A|]. specialize (MONO q Hq). lia.
      + intros q d' Hq G L. destruct (VM q d' Hq G) as [(-> & -> & EM)|(NE & EM)]; rewrite EM; [discriminate|]. apply I4; try assumption. destruct (PN q Hq) as [[E _]|[-> E]]; rewrite E in L; [exact L|].
        fold k. destruct (Z.eq_dec (idx d' + 1) k) as [C|C]; [|lia]. exfalso. apply NE. split; [reflexivity|]. apply idx_inj. lia.
      + intros q d' Hq G L. pose proof (beside_inside q d' Hq G) as HB. specialize (MONO q Hq). destruct (PN (beside q d' 1) HB) as [[E _]|[EB E]]; rewrite E in L; [specialize (I5 q d' Hq G L); lia|].
        specialize (I5 q d' Hq G). rewrite EB in I5. fold k in I5. destruct (Z.eq_dec (idx d') k) as [C|C]; [exfalso; destruct d', d; cbn in *; lia|]. specialize (I5 ltac:(lia)). lia.
  Qed.

  Lemma inv_reach n s : (forall d, 0 < get3 np d) -> reach np lm (c0 np * c1 np * c2 np) n s -> Inv s.
  Proof.
    intros P H. induction H as [|n s r s' _ IH Hr E]; [exact inv_init|]. apply (inv_next s r s' IH); [|exact E]. destruct (rank2proc_inside np r P Hr) as [A B]. exists (rank2proc np r). split; [exact A|symmetry; exact B].
  Qed.
End Inv.
