(** Proofs about the Hilbert curve conversion. *)
From Coq Require Import NArith List Lia.
From Verif Require Import Base HilbertModel.
Local Open Scope N_scope.

(** ** Bit-level helpers *)

Ltac bitwise := apply N.bits_inj; intros ?k;
  repeat (rewrite ?N.lor_spec, ?N.land_spec, ?N.lxor_spec, ?N.ldiff_spec).

Lemma shl64_lor a b k : shl64 (N.lor a b) k = N.lor (shl64 a k) (shl64 b k).
Proof. unfold shl64. rewrite N.shiftl_lor. apply N.land_lor_distr_l. Qed.

Lemma shl64_0 k : shl64 0 k = 0.
Proof. unfold shl64. rewrite N.shiftl_0_l. reflexivity. Qed.

Lemma lor4 a b c d : N.lor (N.lor a b) (N.lor c d) = N.lor (N.lor a c) (N.lor b d).
Proof. bitwise. repeat match goal with |- context [N.testbit ?x ?k] => destruct (N.testbit x k) end; reflexivity. Qed.

Lemma ldiff_lor a b m : N.ldiff (N.lor a b) m = N.lor (N.ldiff a m) (N.ldiff b m).
Proof. bitwise. repeat match goal with |- context [N.testbit ?x ?k] => destruct (N.testbit x k) end; reflexivity. Qed.

(** ** bitTranspose distributes over bitwise or *)

Lemma bt_even_lor n : forall d inB utB sh m um x y u v,
  bt_even n d inB utB sh m um (N.lor x y) (N.lor u v) =
  N.lor (bt_even n d inB utB sh m um x u) (bt_even n d inB utB sh m um y v).
Proof.
  induction n as [|n IH]; intros; cbn [bt_even]; [reflexivity|].
  rewrite <- IH. f_equal.
  - apply N.shiftr_lor.
  - rewrite (N.land_lor_distr_l x y m), (shl64_lor (N.land x m)), (lor4 (N.land x m) (N.land y m)),
      (N.land_lor_distr_l _ _ um), (shl64_lor _ _ (d * utB)), lor4.
    reflexivity.
Qed.

Lemma bt_odd_lor n : forall d os inB utB sh m fs um x y c c' u v,
  bt_odd n d os inB utB sh m fs um (N.lor x y) (N.lor c c') (N.lor u v) =
  (N.lor (fst (bt_odd n d os inB utB sh m fs um x c u))
         (fst (bt_odd n d os inB utB sh m fs um y c' v)),
   N.lor (snd (bt_odd n d os inB utB sh m fs um x c u))
         (snd (bt_odd n d os inB utB sh m fs um y c' v))).
Proof.
  induction n as [|n IH]; intros; cbn [bt_odd]; [reflexivity|].
  rewrite <- IH. f_equal.
  - apply N.shiftr_lor.
  - rewrite (N.land_lor_distr_l x y m), (N.land_lor_distr_l _ _ fs), shl64_lor, lor4. reflexivity.
  - rewrite (N.land_lor_distr_l x y m), ldiff_lor, (shl64_lor (N.ldiff (N.land x m) fs)),
      (lor4 (N.ldiff (N.land x m) fs) (N.ldiff (N.land y m) fs)),
      (N.land_lor_distr_l _ _ um), (shl64_lor _ _ (d * utB)), lor4.
    reflexivity.
Qed.

Lemma bt_loop_lor fuel : forall nD inB fe m x y c c',
  bt_loop fuel nD inB fe m (N.lor x y) (N.lor c c') =
  N.lor (bt_loop fuel nD inB fe m x c) (bt_loop fuel nD inB fe m y c').
Proof.
  induction fuel as [|f IH]; intros; cbn [bt_loop].
  - apply lor4.
  - destruct (inB / 2 =? 0); [apply lor4|].
    destruct (N.odd inB).
    + rewrite (bt_odd_lor _ _ _ _ _ _ _ _ _ x y c c' 0 0 : bt_odd _ _ _ _ _ _ _ _ _ _ _ 0 = _).
      destruct (bt_odd _ _ _ _ _ _ _ _ _ x c 0) as [a b].
      destruct (bt_odd _ _ _ _ _ _ _ _ _ y c' 0) as [a' b'].
      cbn [fst snd]. apply IH.
    + rewrite (bt_even_lor _ _ _ _ _ _ _ x y 0 0 : bt_even _ _ _ _ _ _ _ _ 0 = _). apply IH.
Qed.

Lemma bitTranspose_lor nD nB x y :
  bitTranspose nD nB (N.lor x y) = N.lor (bitTranspose nD nB x) (bitTranspose nD nB y).
Proof.
  unfold bitTranspose. exact (bt_loop_lor _ _ _ _ _ x y 0 0).
Qed.

Lemma bt_even_0 n : forall d inB utB sh m um, bt_even n d inB utB sh m um 0 0 = 0.
Proof.
  induction n as [|n IH]; intros; cbn [bt_even]; [reflexivity|].
  rewrite ?N.land_0_l, ?N.shiftr_0_l, ?shl64_0, ?N.lor_0_l, ?N.land_0_l, ?shl64_0. apply IH.
Qed.

Lemma bt_odd_0 n : forall d os inB utB sh m fs um, bt_odd n d os inB utB sh m fs um 0 0 0 = (0, 0).
Proof.
  induction n as [|n IH]; intros; cbn [bt_odd]; [reflexivity|].
  rewrite ?N.land_0_l, ?N.shiftr_0_l, ?N.ldiff_0_l, ?shl64_0, ?N.lor_0_l, ?N.land_0_l, ?shl64_0. apply IH.
Qed.

Lemma bt_loop_0 fuel : forall nD inB fe m, bt_loop fuel nD inB fe m 0 0 = 0.
Proof.
  induction fuel as [|f IH]; intros; cbn [bt_loop]; [reflexivity|].
  destruct (_ =? 0); [reflexivity|].
  destruct (N.odd inB); [rewrite bt_odd_0 | rewrite bt_even_0]; apply IH.
Qed.

Lemma bitTranspose_0 nD nB : bitTranspose nD nB 0 = 0.
Proof. apply bt_loop_0. Qed.

(** A map distributing over [lor] that fixes all powers of two below [2^m]
    is the identity below [2^m]. *)
Lemma lor_linear_id (f : N -> N) m :
  (forall x y, f (N.lor x y) = N.lor (f x) (f y)) -> f 0 = 0 ->
  (forall i, i < m -> f (2 ^ i) = 2 ^ i) ->
  forall x, x < 2 ^ m -> f x = x.
Proof.
  intros Hl H0 Hb. revert Hb.
  induction m as [|m IH] using N.peano_ind; intros Hb x Hx.
  - assert (x = 0) as -> by (simpl in Hx; lia). exact H0.
  - assert (Hdec : x = N.lor (x mod 2 ^ m) (if N.testbit x m then 2 ^ m else 0)).
    { apply N.bits_inj. intros k. rewrite N.lor_spec.
      destruct (N.lt_ge_cases k m) as [Hk|Hk].
      - rewrite N.mod_pow2_bits_low by exact Hk.
        destruct (N.testbit x m); [rewrite N.pow2_bits_false by lia|rewrite N.bits_0];
          now rewrite orb_false_r.
      - rewrite N.mod_pow2_bits_high by exact Hk. simpl.
        destruct (N.eq_dec k m) as [->|Hne].
        + destruct (N.testbit x m) eqn:E; [now rewrite N.pow2_bits_true|now rewrite N.bits_0].
        + destruct (N.eq_dec x 0) as [->|Hnz].
          { rewrite !N.bits_0. reflexivity. }
          rewrite N.bits_above_log2.
          2:{ apply N.log2_lt_pow2 in Hx; lia. }
          destruct (N.testbit x m); [now rewrite N.pow2_bits_false by lia|now rewrite N.bits_0]. }
    rewrite Hdec at 1. rewrite Hl.
    rewrite IH.
    + rewrite Hdec at 3. f_equal.
      destruct (N.testbit x m); [apply Hb; lia|exact H0].
    + intros i Hi. apply Hb. lia.
    + apply N.mod_lt. apply N.pow_nonzero. lia.
Qed.

(** [f x] stays below [2^m'] when powers of two do. *)
Lemma lor_lt_pow2 a b m : a < 2 ^ m -> b < 2 ^ m -> N.lor a b < 2 ^ m.
Proof.
  intros Ha Hb. destruct (N.eq_dec (N.lor a b) 0) as [->|Hz].
  - lia.
  - apply N.log2_lt_pow2; [lia|]. rewrite N.log2_lor.
    destruct (N.eq_dec a 0) as [->|Ha0]; destruct (N.eq_dec b 0) as [->|Hb0]; simpl in *.
    + elim Hz. reflexivity.
    + rewrite N.max_r by apply N.le_0_l. apply N.log2_lt_pow2; lia.
    + rewrite N.max_l by apply N.le_0_l. apply N.log2_lt_pow2; lia.
    + apply N.max_lub_lt; apply N.log2_lt_pow2; lia.
Qed.

Lemma lxor_lt_pow2 a b m : a < 2 ^ m -> b < 2 ^ m -> N.lxor a b < 2 ^ m.
Proof.
  intros Ha Hb. destruct (N.eq_dec (N.lxor a b) 0) as [->|Hz].
  - lia.
  - apply N.log2_lt_pow2; [lia|].
    eapply N.le_lt_trans; [apply N.log2_lxor|].
    destruct (N.eq_dec a 0) as [->|Ha0]; destruct (N.eq_dec b 0) as [->|Hb0]; simpl in *.
    + elim Hz. reflexivity.
    + rewrite N.max_r by apply N.le_0_l. apply N.log2_lt_pow2; lia.
    + rewrite N.max_l by apply N.le_0_l. apply N.log2_lt_pow2; lia.
    + apply N.max_lub_lt; apply N.log2_lt_pow2; lia.
Qed.

Lemma shiftr_lt_pow2 a k m : a < 2 ^ m -> N.shiftr a k < 2 ^ m.
Proof.
  intros H. rewrite N.shiftr_div_pow2.
  eapply N.le_lt_trans; [|exact H]. apply N.div_le_upper_bound.
  - apply N.pow_nonzero; lia.
  - assert (2 ^ k <> 0) by (apply N.pow_nonzero; lia). nia.
Qed.

Lemma lor_linear_bound (f : N -> N) m m' :
  (forall x y, f (N.lor x y) = N.lor (f x) (f y)) -> f 0 = 0 ->
  (forall i, i < m -> f (2 ^ i) < 2 ^ m') ->
  forall x, x < 2 ^ m -> f x < 2 ^ m'.
Proof.
  intros Hl H0 Hb.
  revert Hb.
  induction m as [|m IH] using N.peano_ind; intros Hb x Hx.
  - assert (x = 0) as -> by (simpl in Hx; lia). rewrite H0.
    apply N.neq_0_lt_0. apply N.pow_nonzero. lia.
  - assert (Hdec : exists r (b : bool), r < 2 ^ m /\ x = N.lor r (if b then 2 ^ m else 0)).
    { exists (x mod 2 ^ m), (N.testbit x m). split.
      - apply N.mod_lt, N.pow_nonzero. lia.
      - apply N.bits_inj. intros k. rewrite N.lor_spec.
        destruct (N.lt_ge_cases k m) as [Hk|Hk].
        + rewrite N.mod_pow2_bits_low by exact Hk.
          destruct (N.testbit x m); [rewrite N.pow2_bits_false by lia|rewrite N.bits_0];
            now rewrite orb_false_r.
        + rewrite N.mod_pow2_bits_high by exact Hk. simpl.
          destruct (N.eq_dec k m) as [->|Hne].
          * destruct (N.testbit x m) eqn:E; [now rewrite N.pow2_bits_true|now rewrite N.bits_0].
          * destruct (N.eq_dec x 0) as [->|Hnz].
            { rewrite !N.bits_0. reflexivity. }
            rewrite N.bits_above_log2.
            2:{ apply N.log2_lt_pow2 in Hx; lia. }
            destruct (N.testbit x m); [now rewrite N.pow2_bits_false by lia|now rewrite N.bits_0]. }
    destruct Hdec as [r [b [Hr ->]]]. rewrite Hl. apply lor_lt_pow2.
    + apply IH; [|exact Hr]. intros i Hi. apply Hb. lia.
    + destruct b; [apply Hb; lia|]. rewrite H0.
      apply N.neq_0_lt_0. apply N.pow_nonzero. lia.
Qed.

(** ** All admissible parameters (2 or 3 directions, at most 64 bits) *)

Definition nrange (n : N) : list N := map N.of_nat (seq 0 (N.to_nat n)).

Lemma in_nrange i n : In i (nrange n) <-> i < n.
Proof.
  unfold nrange. rewrite in_map_iff. split.
  - intros [k [<- Hk]]. apply in_seq in Hk. lia.
  - intros H. exists (N.to_nat i). split; [lia|]. apply in_seq. lia.
Qed.

Definition params : list (N * N) :=
  flat_map (fun d => map (fun n => (d, n)) (filter (fun n => (2 <=? n) && (d * n <=? 64)) (nrange 65)))
           [2; 3].

Lemma in_params d n : (d = 2 \/ d = 3) -> 2 <= n -> d * n <= 64 -> In (d, n) params.
Proof.
  intros Hd Hn Hb. unfold params. apply in_flat_map. exists d. split.
  - simpl. destruct Hd as [->| ->]; auto.
  - apply in_map. apply filter_In. split.
    + apply in_nrange. destruct Hd; lia.
    + apply andb_true_intro. split; apply N.leb_le; lia.
Qed.

Definition bt_one (d n i : N) : bool :=
  (bitTranspose d n (bitTranspose n d (2 ^ i)) =? 2 ^ i)
  && (bitTranspose n d (bitTranspose d n (2 ^ i)) =? 2 ^ i)
  && (bitTranspose n d (2 ^ i) <? 2 ^ (d * n))
  && (bitTranspose d n (2 ^ i) <? 2 ^ (d * n)).

Definition bt_pair (p : N * N) : bool := forallb (bt_one (fst p) (snd p)) (nrange (fst p * snd p)).

Lemma bt_check_ok : forallb bt_pair params = true.
Proof. vm_cast_no_check (eq_refl true). Qed.

Lemma bt_pair_spec p : bt_pair p = true ->
  forall i, i < fst p * snd p -> bt_one (fst p) (snd p) i = true.
Proof.
  unfold bt_pair. rewrite forallb_forall. intros H i Hi. apply H. now apply in_nrange.
Qed.

Lemma bt_one_spec d n i : bt_one d n i = true ->
  bitTranspose d n (bitTranspose n d (2 ^ i)) = 2 ^ i
  /\ bitTranspose n d (bitTranspose d n (2 ^ i)) = 2 ^ i
  /\ bitTranspose n d (2 ^ i) < 2 ^ (d * n)
  /\ bitTranspose d n (2 ^ i) < 2 ^ (d * n).
Proof. unfold bt_one. rewrite !andb_true_iff, !N.eqb_eq, !N.ltb_lt. tauto. Qed.

Lemma bt_pairs p : In p params -> bt_pair p = true.
Proof. revert p. apply forallb_forall. exact bt_check_ok. Qed.

Section Admissible.
  Variables d n : N.
  Hypothesis Hd : d = 2 \/ d = 3.
  Hypothesis Hn : 2 <= n.
  Hypothesis Hb : d * n <= 64.

  Lemma bt_basis i : i < d * n ->
    bitTranspose d n (bitTranspose n d (2 ^ i)) = 2 ^ i
    /\ bitTranspose n d (bitTranspose d n (2 ^ i)) = 2 ^ i
    /\ bitTranspose n d (2 ^ i) < 2 ^ (d * n)
    /\ bitTranspose d n (2 ^ i) < 2 ^ (d * n).
  Proof.
    intros Hi. apply bt_one_spec.
    exact (bt_pair_spec (d, n) (bt_pairs (d, n) (in_params d n Hd Hn Hb)) i Hi).
  Qed.

  Lemma bt_round1 x : x < 2 ^ (d * n) -> bitTranspose d n (bitTranspose n d x) = x.
  Proof.
    apply (lor_linear_id (fun x => bitTranspose d n (bitTranspose n d x))).
    - intros. now rewrite !bitTranspose_lor.
    - now rewrite !bitTranspose_0.
    - intros i Hi. apply bt_basis. exact Hi.
  Qed.

  Lemma bt_round2 x : x < 2 ^ (d * n) -> bitTranspose n d (bitTranspose d n x) = x.
  Proof.
    apply (lor_linear_id (fun x => bitTranspose n d (bitTranspose d n x))).
    - intros. now rewrite !bitTranspose_lor.
    - now rewrite !bitTranspose_0.
    - intros i Hi. apply bt_basis. exact Hi.
  Qed.

  Lemma bt_bound1 x : x < 2 ^ (d * n) -> bitTranspose n d x < 2 ^ (d * n).
  Proof.
    apply lor_linear_bound.
    - intros. now rewrite !bitTranspose_lor.
    - now rewrite !bitTranspose_0.
    - intros i Hi. apply bt_basis. exact Hi.
  Qed.

  Lemma bt_bound2 x : x < 2 ^ (d * n) -> bitTranspose d n x < 2 ^ (d * n).
  Proof.
    apply lor_linear_bound.
    - intros. now rewrite !bitTranspose_lor.
    - now rewrite !bitTranspose_0.
    - intros i Hi. apply bt_basis. exact Hi.
  Qed.
End Admissible.

(** ** Prefix xor *)

Lemma shiftr_small x b lim : x < 2 ^ lim -> lim <= b -> N.shiftr x b = 0.
Proof.
  intros Hx Hl. rewrite N.shiftr_div_pow2. apply N.div_small.
  eapply N.lt_le_trans; [exact Hx|]. apply N.pow_le_mono_r; lia.
Qed.

Lemma xor_fold_undo fuel : forall b lim x,
  0 < b -> x < 2 ^ lim -> lim <= b * 2 ^ N.of_nat fuel ->
  xor_fold fuel b lim (N.lxor x (N.shiftr x b)) = x.
Proof.
  induction fuel as [|f IH]; intros b lim x Hb Hx Hl; cbn [xor_fold].
  - rewrite (shiftr_small x b lim); [apply N.lxor_0_r|exact Hx|]. simpl in Hl. lia.
  - destruct (N.ltb_spec b lim) as [Hlt|Hge].
    + replace (N.lxor (N.lxor x (N.shiftr x b)) (N.shiftr (N.lxor x (N.shiftr x b)) b))
        with (N.lxor x (N.shiftr x (b * 2))).
      * apply IH; [lia|exact Hx|].
        rewrite Nat2N.inj_succ, N.pow_succ_r' in Hl. lia.
      * rewrite N.shiftr_lxor, N.shiftr_shiftr. replace (b + b) with (b * 2) by lia.
        bitwise. repeat match goal with |- context [N.testbit ?x ?k] => destruct (N.testbit x k) end; reflexivity.
    + rewrite (shiftr_small x b lim); [apply N.lxor_0_r|exact Hx|exact Hge].
Qed.

Lemma xor_fold_comm fuel : forall b lim x c,
  xor_fold fuel b lim (N.lxor x (N.shiftr x c)) =
  N.lxor (xor_fold fuel b lim x) (N.shiftr (xor_fold fuel b lim x) c).
Proof.
  induction fuel as [|f IH]; intros b lim x c; cbn [xor_fold]; [reflexivity|].
  destruct (b <? lim); [|reflexivity].
  rewrite <- IH. f_equal.
  rewrite !N.shiftr_lxor, !N.shiftr_shiftr, (N.add_comm c b).
  bitwise. repeat match goal with |- context [N.testbit ?x ?k] => destruct (N.testbit x k) end; reflexivity.
Qed.

Lemma xor_fold_redo fuel b lim x :
  0 < b -> x < 2 ^ lim -> lim <= b * 2 ^ N.of_nat fuel ->
  N.lxor (xor_fold fuel b lim x) (N.shiftr (xor_fold fuel b lim x) b) = x.
Proof. intros. rewrite <- xor_fold_comm. now apply xor_fold_undo. Qed.

Lemma xor_fold_bound fuel : forall b lim m x, x < 2 ^ m -> xor_fold fuel b lim x < 2 ^ m.
Proof.
  induction fuel as [|f IH]; intros; cbn [xor_fold]; [assumption|].
  destruct (b <? lim); [|assumption]. apply IH. apply lxor_lt_pow2; [assumption|].
  now apply shiftr_lt_pow2.
Qed.

(** ** Digits *)

Definition digit (d x : N) (k : nat) : N := N.land (N.shiftr x (N.of_nat k * d)) (N.ones d).

(** most significant first *)
Fixpoint digits (n : nat) (d x : N) : list N :=
  match n with O => [] | S n' => digit d x n' :: digits n' d x end.

Definition undigits (d : N) (acc : N) (l : list N) : N :=
  fold_left (fun a b => N.lor (N.shiftl a d) b) l acc.

Lemma digit_lt d x k : digit d x k < 2 ^ d.
Proof.
  unfold digit. rewrite N.land_ones. apply N.mod_lt, N.pow_nonzero. lia.
Qed.

Lemma testbit_small x m k : x < 2 ^ m -> m <= k -> N.testbit x k = false.
Proof.
  intros Hx Hk. destruct (N.eq_dec x 0) as [->|Hz]; [apply N.bits_0|].
  apply N.bits_above_log2. apply N.log2_lt_pow2 in Hx; lia.
Qed.

Lemma lor_shift_add a b d : b < 2 ^ d -> N.lor (N.shiftl a d) b = a * 2 ^ d + b.
Proof.
  intros Hb. rewrite <- (N.shiftl_mul_pow2 a d).
  rewrite <- N.lxor_lor, <- N.add_nocarry_lxor; [reflexivity| |].
  - bitwise. rewrite N.bits_0.
    destruct (N.lt_ge_cases k d) as [H|H].
    + rewrite N.shiftl_spec_low by exact H. reflexivity.
    + rewrite (testbit_small b d k) by assumption. apply andb_false_r.
  - bitwise. rewrite N.bits_0.
    destruct (N.lt_ge_cases k d) as [H|H].
    + rewrite N.shiftl_spec_low by exact H. reflexivity.
    + rewrite (testbit_small b d k) by assumption. apply andb_false_r.
Qed.

Lemma undigits_digits n : forall d x acc, x < 2 ^ (N.of_nat n * d) ->
  undigits d acc (digits n d x) = acc * 2 ^ (N.of_nat n * d) + x.
Proof.
  induction n as [|n IH]; intros d x acc Hx.
  - cbn. simpl in Hx. rewrite N.mul_1_r. lia.
  - cbn [digits]. unfold undigits. cbn [fold_left].
    fold (undigits d (N.lor (N.shiftl acc d) (digit d x n)) (digits n d x)).
    assert (Hdg : digits n d x = digits n d (x mod 2 ^ (N.of_nat n * d))).
    { assert (G : forall m, (m <= n)%nat -> digits m d x = digits m d (x mod 2 ^ (N.of_nat n * d))).
      { induction m as [|m IHm]; intros Hm; [reflexivity|]. cbn [digits]. f_equal.
        - unfold digit. apply N.bits_inj. intros k. rewrite !N.land_spec.
          destruct (N.lt_ge_cases k d) as [Hk|Hk].
          + rewrite !N.shiftr_spec by lia. rewrite N.mod_pow2_bits_low; [reflexivity|]. nia.
          + rewrite N.ones_spec_high by exact Hk. now rewrite !andb_false_r.
        - apply IHm. lia. }
      apply G. lia. }
    rewrite Hdg. rewrite IH.
    2:{ apply N.mod_lt, N.pow_nonzero. lia. }
    rewrite lor_shift_add by apply digit_lt.
    assert (Hq : digit d x n = x / 2 ^ (N.of_nat n * d)).
    { unfold digit. rewrite N.land_ones, N.shiftr_div_pow2. apply N.mod_small.
      apply N.div_lt_upper_bound; [apply N.pow_nonzero; lia|].
      rewrite <- N.pow_add_r. eapply N.lt_le_trans; [exact Hx|].
      apply N.pow_le_mono_r; lia. }
    rewrite Hq.
    pose proof (N.div_mod x (2 ^ (N.of_nat n * d)) ltac:(apply N.pow_nonzero; lia)) as E.
    replace (2 ^ (N.of_nat (S n) * d)) with (2 ^ d * 2 ^ (N.of_nat n * d)).
    2:{ rewrite <- N.pow_add_r. f_equal. lia. }
    nia.
Qed.

Lemma undigits_app d acc l1 l2 : undigits d acc (l1 ++ l2) = undigits d (undigits d acc l1) l2.
Proof. unfold undigits. apply fold_left_app. Qed.

Lemma undigits_value l : forall d acc, Forall (fun b => b < 2 ^ d) l ->
  undigits d acc l = acc * 2 ^ (N.of_nat (length l) * d) + undigits d 0 l
  /\ undigits d 0 l < 2 ^ (N.of_nat (length l) * d).
Proof.
  induction l as [|b l IH]; intros d acc Hl.
  - cbn. lia.
  - inversion Hl as [|? ? Hb Hr]; subst.
    unfold undigits. cbn [fold_left length].
    fold (undigits d (N.lor (N.shiftl acc d) b) l).
    fold (undigits d (N.lor (N.shiftl 0 d) b) l).
    rewrite !lor_shift_add by assumption.
    destruct (IH d (acc * 2 ^ d + b) Hr) as [-> HB].
    destruct (IH d (0 * 2 ^ d + b) Hr) as [-> _].
    replace (2 ^ (N.of_nat (S (length l)) * d)) with (2 ^ d * 2 ^ (N.of_nat (length l) * d)).
    2:{ rewrite <- N.pow_add_r. f_equal. lia. }
    split; nia.
Qed.

Lemma digits_undigits l : forall d, Forall (fun b => b < 2 ^ d) l ->
  digits (length l) d (undigits d 0 l) = l.
Proof.
  assert (G : forall l d acc, Forall (fun b => b < 2 ^ d) l ->
              digits (length l) d (undigits d acc l) = l).
  { clear l. induction l as [|b l IH]; intros d acc Hl; [reflexivity|].
    inversion Hl as [|? ? Hb Hr]; subst.
    unfold undigits. cbn [fold_left length digits].
    fold (undigits d (N.lor (N.shiftl acc d) b) l). f_equal.
    - destruct (undigits_value l d (N.lor (N.shiftl acc d) b) Hr) as [-> HB].
      unfold digit. rewrite N.land_ones, N.shiftr_div_pow2.
      rewrite N.div_add_l by (apply N.pow_nonzero; lia).
      rewrite (N.div_small (undigits d 0 l)) by exact HB. rewrite N.add_0_r.
      rewrite lor_shift_add by assumption.
      rewrite N.add_comm, N.mod_add by (apply N.pow_nonzero; lia).
      now apply N.mod_small.
    - apply IH. exact Hr. }
  intros d. apply G.
Qed.

(** ** The rotation state machine *)

Fixpoint run_i2c (d nd1 rot flip : N) (ds : list N) : list N :=
  match ds with
  | [] => []
  | b :: r => N.lxor (rotateLeft b rot d) flip
              :: run_i2c d nd1 (adjust_rotation rot d nd1 b) (shl64 1 rot) r
  end.

Fixpoint run_c2i (d nd1 rot flip : N) (cs : list N) : list N :=
  match cs with
  | [] => []
  | c :: r => let b := rotateRight (N.lxor flip c) rot d in
              b :: run_c2i d nd1 (adjust_rotation rot d nd1 b) (shl64 1 rot) r
  end.

Definition state_check (d : N) : bool :=
  forallb (fun rot =>
    (shl64 1 rot <? 2 ^ d) &&
    forallb (fun b =>
      (adjust_rotation rot d (N.shiftr (ones_ d) 1) b <? d)
      && (rotateRight (rotateLeft b rot d) rot d =? b)
      && (rotateLeft (rotateRight b rot d) rot d =? b)
      && (rotateLeft b rot d <? 2 ^ d)
      && (rotateRight b rot d <? 2 ^ d)) (nrange (2 ^ d))) (nrange d).

Lemma state_check_ok : state_check 2 = true /\ state_check 3 = true.
Proof. split; vm_compute; reflexivity. Qed.

Lemma ones_ok d : 0 < d -> d <= 64 -> ones_ d = N.ones d.
Proof.
  intros H0 H1.
  assert (C : forallb (fun k => (k =? 0) || (ones_ k =? N.ones k)) (nrange 65) = true)
    by (vm_compute; reflexivity).
  rewrite forallb_forall in C. specialize (C d (proj2 (in_nrange d 65) ltac:(lia))).
  apply orb_true_iff in C. rewrite !N.eqb_eq in C. destruct C; [lia|assumption].
Qed.

  Lemma shl64_small x k m : x < 2 ^ m -> m + k <= 64 -> shl64 x k = N.shiftl x k.
  Proof.
    intros Hx Hk. unfold shl64, mask64. rewrite N.land_ones. apply N.mod_small.
    rewrite N.shiftl_mul_pow2.
    apply N.lt_le_trans with (2 ^ m * 2 ^ k).
    - apply N.mul_lt_mono_pos_r; [|exact Hx]. apply N.neq_0_lt_0, N.pow_nonzero. lia.
    - rewrite <- N.pow_add_r. apply N.pow_le_mono_r; lia.
  Qed.

Section Machine.
  Variable d : N.
  Hypothesis Hd : d = 2 \/ d = 3.
  Let nd1 := N.shiftr (ones_ d) 1.

  Lemma state_ok rot : rot < d ->
    shl64 1 rot < 2 ^ d /\
    forall b, b < 2 ^ d ->
      adjust_rotation rot d nd1 b < d
      /\ rotateRight (rotateLeft b rot d) rot d = b
      /\ rotateLeft (rotateRight b rot d) rot d = b
      /\ rotateLeft b rot d < 2 ^ d
      /\ rotateRight b rot d < 2 ^ d.
  Proof.
    intros Hr.
    assert (H : state_check d = true) by (destruct Hd as [->| ->]; apply state_check_ok).
    unfold state_check in H. rewrite forallb_forall in H.
    specialize (H rot (proj2 (in_nrange _ _) Hr)). rewrite andb_true_iff, N.ltb_lt in H.
    destruct H as [H1 H]. split; [exact H1|].
    rewrite forallb_forall in H. intros b Hb'.
    specialize (H b (proj2 (in_nrange _ _) Hb')).
    rewrite !andb_true_iff, !N.eqb_eq, !N.ltb_lt in H. unfold nd1. tauto.
  Qed.

  Lemma run_i2c_spec ds : forall rot flip, rot < d -> flip < 2 ^ d ->
    Forall (fun b => b < 2 ^ d) ds ->
    run_c2i d nd1 rot flip (run_i2c d nd1 rot flip ds) = ds
    /\ Forall (fun b => b < 2 ^ d) (run_i2c d nd1 rot flip ds)
    /\ length (run_i2c d nd1 rot flip ds) = length ds.
  Proof.
    induction ds as [|b ds IH]; intros rot flip Hr Hf Hds; cbn [run_i2c run_c2i length].
    - auto.
    - inversion Hds as [|? ? Hb' Hr']; subst.
      destruct (state_ok rot Hr) as [Hfl Hst]. destruct (Hst b Hb') as [Ha [HRL [HLR [HbL HbR]]]].
      assert (E : N.lxor flip (N.lxor (rotateLeft b rot d) flip) = rotateLeft b rot d).
      { bitwise. repeat match goal with |- context [N.testbit ?x ?k] => destruct (N.testbit x k) end; reflexivity. }
      rewrite E, HRL.
      destruct (IH (adjust_rotation rot d nd1 b) (shl64 1 rot) Ha Hfl Hr') as [IH1 [IH2 IH3]].
      rewrite IH1, IH3. split; [reflexivity|]. split; [|reflexivity].
      constructor; [|exact IH2]. apply lxor_lt_pow2; assumption.
  Qed.

  Lemma run_c2i_spec cs : forall rot flip, rot < d -> flip < 2 ^ d ->
    Forall (fun b => b < 2 ^ d) cs ->
    run_i2c d nd1 rot flip (run_c2i d nd1 rot flip cs) = cs
    /\ Forall (fun b => b < 2 ^ d) (run_c2i d nd1 rot flip cs)
    /\ length (run_c2i d nd1 rot flip cs) = length cs.
  Proof.
    induction cs as [|c cs IH]; intros rot flip Hr Hf Hcs; cbn [run_i2c run_c2i length].
    - auto.
    - inversion Hcs as [|? ? Hc Hr']; subst.
      assert (Hx : N.lxor flip c < 2 ^ d) by (apply lxor_lt_pow2; assumption).
      destruct (state_ok rot Hr) as [Hfl Hst].
      destruct (Hst (N.lxor flip c) Hx) as [_ [HRL [HLR [HbL HbR]]]].
      destruct (Hst _ HbR) as [Ha _].
      destruct (IH _ _ Ha Hfl Hr') as [IH1 [IH2 IH3]].
      rewrite HLR, IH1, IH3. split; [|split; [constructor; assumption|reflexivity]].
      f_equal. bitwise. repeat match goal with |- context [N.testbit ?x ?k] => destruct (N.testbit x k) end; reflexivity.
  Qed.

  Lemma digit_ones x k : N.land (N.shiftr x (N.of_nat k * d)) (ones_ d) = digit d x k.
  Proof. unfold digit. rewrite ones_ok by (destruct Hd; lia). reflexivity. Qed.

  Lemma i2c_loop_run n : forall x rot flip acc m,
    rot < d -> flip < 2 ^ d -> acc < 2 ^ (m * d) -> (m + N.of_nat n) * d <= 64 ->
    i2c_loop n d (ones_ d) nd1 x rot flip acc =
    undigits d acc (run_i2c d nd1 rot flip (digits n d x)).
  Proof.
    induction n as [|n IH]; intros x rot flip acc m Hr Hf Hacc Hm; cbn [i2c_loop digits run_i2c].
    - reflexivity.
    - rewrite (digit_ones x n).
      destruct (state_ok rot Hr) as [Hfl Hst]. destruct (Hst _ (digit_lt d x n)) as [Ha [HRL [HLR [HbL HbR]]]].
      rewrite (shl64_small acc d (m * d)) by (assumption || lia).
      assert (Hv : N.lxor (rotateLeft (digit d x n) rot d) flip < 2 ^ d) by (apply lxor_lt_pow2; assumption).
      rewrite (IH _ _ _ _ (m + 1)); try assumption.
      + reflexivity.
      + rewrite lor_shift_add by exact Hv.
        replace ((m + 1) * d) with (d + m * d) by lia. rewrite N.pow_add_r. nia.
      + lia.
  Qed.

  Lemma c2i_loop_run n : forall x rot flip acc m,
    rot < d -> flip < 2 ^ d -> acc < 2 ^ (m * d) -> (m + N.of_nat n) * d <= 64 ->
    c2i_loop n d (ones_ d) nd1 x rot flip acc =
    undigits d acc (run_c2i d nd1 rot flip (digits n d x)).
  Proof.
    induction n as [|n IH]; intros x rot flip acc m Hr Hf Hacc Hm; cbn [c2i_loop digits run_c2i].
    - reflexivity.
    - rewrite (digit_ones x n).
      destruct (state_ok rot Hr) as [Hfl Hst].
      assert (Hx : N.lxor flip (digit d x n) < 2 ^ d) by (apply lxor_lt_pow2; [assumption|apply digit_lt]).
      destruct (Hst _ Hx) as [_ [HRL [HLR [HbL HbR]]]].
      destruct (Hst _ HbR) as [Ha _].
      rewrite (shl64_small acc d (m * d)) by (assumption || lia).
      cbv zeta. rewrite (IH _ _ _ _ (m + 1)); try assumption.
      + reflexivity.
      + rewrite lor_shift_add by exact HbR.
        replace ((m + 1) * d) with (d + m * d) by lia. rewrite N.pow_add_r. nia.
      + lia.
  Qed.

  Lemma digits_lt n x : Forall (fun b => b < 2 ^ d) (digits n d x).
  Proof. induction n; cbn; constructor; [apply digit_lt|assumption]. Qed.

  Lemma digits_length n x : length (digits n d x) = n.
  Proof. induction n; cbn; congruence. Qed.

  (** the two loops are inverse of each other *)
  Lemma loops_round1 n x : N.of_nat n * d <= 64 -> x < 2 ^ (N.of_nat n * d) ->
    c2i_loop n d (ones_ d) nd1 (i2c_loop n d (ones_ d) nd1 x 0 0 0) 0 0 0 = x
    /\ i2c_loop n d (ones_ d) nd1 x 0 0 0 < 2 ^ (N.of_nat n * d).
  Proof.
    intros Hn Hx.
    assert (H0 : 0 < d) by (destruct Hd; lia).
    assert (H2 : 0 < 2 ^ d) by (apply N.neq_0_lt_0, N.pow_nonzero; lia).
    rewrite (i2c_loop_run n x 0 0 0 0) by (simpl; lia).
    rewrite (c2i_loop_run n _ 0 0 0 0) by (simpl; lia).
    destruct (run_i2c_spec (digits n d x) 0 0 H0 H2 (digits_lt n x)) as [HA [HB HC]].
    rewrite digits_length in HC.
    split.
    - rewrite <- HC at 1. rewrite digits_undigits by exact HB. rewrite HA.
      rewrite undigits_digits by exact Hx. lia.
    - destruct (undigits_value _ d 0 HB) as [_ HV]. rewrite HC in HV. exact HV.
  Qed.

  Lemma loops_round2 n x : N.of_nat n * d <= 64 -> x < 2 ^ (N.of_nat n * d) ->
    i2c_loop n d (ones_ d) nd1 (c2i_loop n d (ones_ d) nd1 x 0 0 0) 0 0 0 = x
    /\ c2i_loop n d (ones_ d) nd1 x 0 0 0 < 2 ^ (N.of_nat n * d).
  Proof.
    intros Hn Hx.
    assert (H0 : 0 < d) by (destruct Hd; lia).
    assert (H2 : 0 < 2 ^ d) by (apply N.neq_0_lt_0, N.pow_nonzero; lia).
    rewrite (c2i_loop_run n x 0 0 0 0) by (simpl; lia).
    rewrite (i2c_loop_run n _ 0 0 0 0) by (simpl; lia).
    destruct (run_c2i_spec (digits n d x) 0 0 H0 H2 (digits_lt n x)) as [HA [HB HC]].
    rewrite digits_length in HC.
    split.
    - rewrite <- HC at 1. rewrite digits_undigits by exact HB. rewrite HA.
      rewrite undigits_digits by exact Hx. lia.
    - destruct (undigits_value _ d 0 HB) as [_ HV]. rewrite HC in HV. exact HV.
  Qed.
End Machine.

(** ** Splitting and joining coordinates *)

Lemma join_split n : forall nB x,
  0 < nB -> N.of_nat n * nB <= 64 -> x < 2 ^ (N.of_nat n * nB) ->
  join_coords nB (split_coords n nB (N.ones nB) x) = x.
Proof.
  induction n as [|n IH]; intros nB x H0 H1 Hx; cbn [split_coords join_coords fold_right].
  - simpl in Hx. lia.
  - fold (join_coords nB (split_coords n nB (N.ones nB) (N.shiftr x nB))).
    assert (Hs : N.shiftr x nB < 2 ^ (N.of_nat n * nB)).
    { rewrite N.shiftr_div_pow2. apply N.div_lt_upper_bound; [apply N.pow_nonzero; lia|].
      rewrite <- N.pow_add_r. eapply N.lt_le_trans; [exact Hx|]. apply N.pow_le_mono_r; lia. }
    rewrite IH by (assumption || lia).
    rewrite (shl64_small _ _ (N.of_nat n * nB)) by (assumption || lia).
    rewrite N.land_ones.
    rewrite lor_shift_add by (apply N.mod_lt, N.pow_nonzero; lia).
    rewrite N.shiftr_div_pow2.
    pose proof (N.div_mod x (2 ^ nB) ltac:(apply N.pow_nonzero; lia)). lia.
Qed.

Lemma split_join l : forall nB,
  0 < nB -> N.of_nat (length l) * nB <= 64 -> Forall (fun c => c < 2 ^ nB) l ->
  split_coords (length l) nB (N.ones nB) (join_coords nB l) = l
  /\ join_coords nB l < 2 ^ (N.of_nat (length l) * nB).
Proof.
  induction l as [|c l IH]; intros nB H0 H1 Hl; cbn [length split_coords join_coords fold_right].
  - split; [reflexivity|]. simpl. lia.
  - fold (join_coords nB l). cbn [length] in H1.
    inversion Hl as [|? ? Hc Hr]; subst.
    destruct (IH nB H0 ltac:(lia) Hr) as [IH1 IH2].
    rewrite (shl64_small _ _ (N.of_nat (length l) * nB)) by (assumption || lia).
    rewrite lor_shift_add by exact Hc.
    assert (Hp : 2 ^ nB <> 0) by (apply N.pow_nonzero; lia).
    split.
    + f_equal.
      * rewrite N.land_ones, N.add_comm, N.mod_add by exact Hp. now apply N.mod_small.
      * rewrite N.shiftr_div_pow2, N.div_add_l by exact Hp.
        rewrite (N.div_small c) by exact Hc. rewrite N.add_0_r. exact IH1.
    + replace (N.of_nat (S (length l)) * nB) with (nB + N.of_nat (length l) * nB) by lia.
      rewrite N.pow_add_r. nia.
Qed.

Lemma split_coords_spec n : forall nB x,
  length (split_coords n nB (N.ones nB) x) = n
  /\ Forall (fun c => c < 2 ^ nB) (split_coords n nB (N.ones nB) x).
Proof.
  induction n as [|n IH]; intros nB x; cbn [split_coords length].
  - auto.
  - destruct (IH nB (N.shiftr x nB)) as [H1 H2]. rewrite H1. split; [reflexivity|].
    constructor; [|exact H2]. rewrite N.land_ones. apply N.mod_lt, N.pow_nonzero. lia.
Qed.

(** ** Main results *)

Definition nthbits_of (d n : N) : N := ones_ (d * n) / ones_ d.

Lemma nthbits_bound d n : 0 < d -> 0 < d * n -> d * n <= 64 -> nthbits_of d n < 2 ^ (d * n).
Proof.
  intros H0 H1 H2. unfold nthbits_of.
  assert (Hn1 : 1 <= n) by (destruct n; lia). assert (Hd1 : d <= 64) by nia.
  rewrite (ones_ok (d * n)), (ones_ok d) by lia.
  assert (H3 : 1 <= N.ones d).
  { rewrite N.ones_equiv. assert (2 ^ 1 <= 2 ^ d) by (apply N.pow_le_mono_r; lia). simpl in *. lia. }
  apply N.le_lt_trans with (N.ones (d * n)).
  - apply N.div_le_upper_bound; [lia|]. nia.
  - rewrite N.ones_equiv. assert (2 ^ (d * n) <> 0) by (apply N.pow_nonzero; lia). lia.
Qed.

Lemma xor_fold_fuel b lim : 0 < b -> lim <= 64 -> lim <= b * 2 ^ N.of_nat 64.
Proof.
  intros Hb Hl. replace (2 ^ N.of_nat 64) with 18446744073709551616 by reflexivity. lia.
Qed.

Lemma gray_undo d n (x nb : N) :
  x < 2 ^ (d * n) -> nb < 2 ^ (d * n) -> d * n <= 64 ->
  xor_fold 64 1 (d * n)
    (N.lxor (N.lxor x (N.shiftr (N.lxor x nb) 1)) (N.shiftr nb 1)) = x.
Proof.
  intros Hx Hnb Hb.
  replace (N.lxor (N.lxor x (N.shiftr (N.lxor x nb) 1)) (N.shiftr nb 1))
    with (N.lxor x (N.shiftr x 1)).
  - apply xor_fold_undo; [lia|exact Hx|]. apply xor_fold_fuel; lia.
  - rewrite N.shiftr_lxor. bitwise.
    repeat match goal with |- context [N.testbit ?x ?k] => destruct (N.testbit x k) end; reflexivity.
Qed.

Lemma gray_redo d n (y nb : N) :
  y < 2 ^ (d * n) -> nb < 2 ^ (d * n) -> d * n <= 64 ->
  let x := xor_fold 64 1 (d * n) (N.lxor y (N.shiftr nb 1)) in
  N.lxor x (N.shiftr (N.lxor x nb) 1) = y.
Proof.
  intros Hy Hnb Hb x.
  assert (E : N.lxor x (N.shiftr x 1) = N.lxor y (N.shiftr nb 1)).
  { apply xor_fold_redo; [lia| |apply xor_fold_fuel; lia].
    apply lxor_lt_pow2; [exact Hy|now apply shiftr_lt_pow2]. }
  rewrite N.shiftr_lxor, <- N.lxor_assoc, E, N.lxor_assoc, N.lxor_nilpotent. apply N.lxor_0_r.
Qed.

Section Main.
  Variables d n : N.
  Hypothesis Hd : d = 2 \/ d = 3.
  Hypothesis Hn : 1 <= n.
  Hypothesis Hb : d * n <= 64.

  Let Hd64 : 0 < d /\ d <= 64. Proof. destruct Hd; lia. Qed.
  Let Hn64 : n <= 64. Proof. destruct Hd; lia. Qed.

  Lemma i2c_wf index :
    length (hilbert_i2c d n index) = N.to_nat d
    /\ Forall (fun c => c < 2 ^ n) (hilbert_i2c d n index).
  Proof.
    unfold hilbert_i2c. destruct (N.ltb_spec 1 d) as [_|H]; [|destruct Hd; lia].
    cbv zeta. rewrite (ones_ok n) by lia. apply split_coords_spec.
  Qed.

  Lemma c2i_i2c index : index < 2 ^ (d * n) ->
    hilbert_c2i d n (hilbert_i2c d n index) = Some index.
  Proof.
    intros Hi. unfold hilbert_c2i.
    destruct (i2c_wf index) as [Hlen _].
    destruct (N.ltb_spec 1 d) as [H1|H]; [|destruct Hd; lia].
    rewrite Hlen, N2Nat.id, N.eqb_refl. cbn [negb].
    unfold hilbert_i2c. destruct (N.ltb_spec 1 d) as [_|H]; [|lia].
    rewrite (ones_ok n) by lia. cbv zeta.
    destruct (N.ltb_spec 1 n) as [Hn1|Hn1].
    - assert (Hbd : forall y, y < 2 ^ (d * n) -> y < 2 ^ (N.of_nat (N.to_nat d) * n))
        by (intros y Hy; rewrite N2Nat.id; exact Hy).
      fold (nthbits_of d n).
      pose proof (nthbits_bound d n ltac:(lia) ltac:(lia) Hb) as Hnb.
      set (g := N.lxor index (N.shiftr (N.lxor index (nthbits_of d n)) 1)).
      assert (Hg : g < 2 ^ (N.of_nat (N.to_nat n) * d)).
      { rewrite N2Nat.id, N.mul_comm. apply lxor_lt_pow2; [exact Hi|].
        apply shiftr_lt_pow2. apply lxor_lt_pow2; assumption. }
      destruct (loops_round1 d Hd (N.to_nat n) g ltac:(lia) Hg) as [HR HB].
      rewrite N2Nat.id, (N.mul_comm n d) in HB.
      set (D := i2c_loop _ _ _ _ g _ _ _) in *.
      assert (HP : xor_fold 64 d (d * n) D < 2 ^ (d * n)) by (apply xor_fold_bound; exact HB).
      rewrite join_split.
      2: lia. 2: lia. 2:{ apply Hbd. apply bt_bound1; try assumption; lia. }
      rewrite bt_round1; try assumption; [|lia].
      rewrite xor_fold_redo; [|lia|exact HB|apply xor_fold_fuel; lia].
      rewrite HR. f_equal. unfold g. apply gray_undo; assumption.
    - assert (n = 1) as -> by lia. rewrite N.mul_1_r in *.
      rewrite join_split.
      + f_equal. apply xor_fold_undo; [lia|exact Hi|]. apply xor_fold_fuel; lia.
      + lia.
      + lia.
      + rewrite N2Nat.id, N.mul_1_r. apply lxor_lt_pow2; [exact Hi|now apply shiftr_lt_pow2].
  Qed.

  Lemma i2c_c2i coord : length coord = N.to_nat d -> Forall (fun c => c < 2 ^ n) coord ->
    exists index, hilbert_c2i d n coord = Some index /\ index < 2 ^ (d * n)
                  /\ hilbert_i2c d n index = coord.
  Proof.
    intros Hlen Hc. unfold hilbert_c2i.
    destruct (N.ltb_spec 1 d) as [H1|H]; [|destruct Hd; lia].
    rewrite Hlen, N2Nat.id, N.eqb_refl. cbn [negb]. cbv zeta.
    destruct (split_join coord n ltac:(lia) ltac:(rewrite Hlen, N2Nat.id; exact Hb) Hc) as [HS HJ].
    rewrite Hlen in HS, HJ. rewrite N2Nat.id in HJ.
    destruct (N.ltb_spec 1 n) as [Hn1|Hn1].
    - fold (nthbits_of d n).
      pose proof (nthbits_bound d n ltac:(lia) ltac:(lia) Hb) as Hnb.
      eexists. split; [reflexivity|].
      set (J := join_coords n coord) in *.
      assert (HT : bitTranspose d n J < 2 ^ (d * n)) by (apply bt_bound2; try assumption; lia).
      set (T := bitTranspose d n J) in *.
      assert (HQ : N.lxor T (N.shiftr T d) < 2 ^ (N.of_nat (N.to_nat n) * d)).
      { rewrite N2Nat.id, (N.mul_comm n d). apply lxor_lt_pow2; [exact HT|now apply shiftr_lt_pow2]. }
      destruct (loops_round2 d Hd (N.to_nat n) _ ltac:(lia) HQ) as [HR HB].
      rewrite N2Nat.id, (N.mul_comm n d) in HB.
      set (I := c2i_loop _ _ _ _ _ _ _ _) in *.
      split.
      + apply xor_fold_bound. apply lxor_lt_pow2; [exact HB|now apply shiftr_lt_pow2].
      + unfold hilbert_i2c. destruct (N.ltb_spec 1 d) as [_|H]; [|lia].
        destruct (N.ltb_spec 1 n) as [_|H]; [|lia].
        rewrite (ones_ok n) by lia. cbv zeta. fold (nthbits_of d n).
        rewrite (gray_redo d n I (nthbits_of d n)) by assumption.
        rewrite HR.
        rewrite xor_fold_undo; [|lia|exact HT|apply xor_fold_fuel; lia].
        unfold T. rewrite bt_round2; try assumption; lia.
    - assert (n = 1) as -> by lia. rewrite N.mul_1_r in *.
      eexists. split; [reflexivity|]. split.
      + apply xor_fold_bound. exact HJ.
      + unfold hilbert_i2c. destruct (N.ltb_spec 1 d) as [_|H]; [|lia].
        destruct (N.ltb_spec 1 1) as [H|_]; [lia|].
        rewrite (ones_ok 1) by lia. cbv zeta.
        rewrite xor_fold_redo; [exact HS|lia|exact HJ|apply xor_fold_fuel; lia].
  Qed.
End Main.
