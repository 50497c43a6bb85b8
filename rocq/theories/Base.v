(** Common vocabulary: three-component vectors, list helpers, sums. *)
From Coq Require Export List ZArith Lia Bool Arith Permutation Sorted.
From Coq Require Export ZifyBool ZifyNat.
Export ListNotations.

Ltac Zify.zify_post_hook ::= Z.div_mod_to_equations.

(** Space directions; the C code writes [for (int d = 0; d < 3; d++)]. *)
Inductive dim3 := D0 | D1 | D2.

Definition dim3_eqb (a b : dim3) : bool :=
  match a, b with D0, D0 | D1, D1 | D2, D2 => true | _, _ => false end.

Lemma dim3_eqb_eq a b : dim3_eqb a b = true <-> a = b.
Proof. destruct a, b; simpl; split; congruence. Qed.

Lemma dim3_eqb_refl a : dim3_eqb a a = true.
Proof. destruct a; reflexivity. Qed.

Definition dims3 : list dim3 := [D0; D1; D2].

Lemma in_dims3 d : In d dims3.
Proof. destruct d; simpl; auto. Qed.

Record V3 (A : Type) := v3 { c0 : A; c1 : A; c2 : A }.
Arguments v3 {A} _ _ _.
Arguments c0 {A} _.
Arguments c1 {A} _.
Arguments c2 {A} _.

(** [v[d]] *)
Definition get3 {A} (v : V3 A) (d : dim3) : A :=
  match d with D0 => c0 v | D1 => c1 v | D2 => c2 v end.

(** [v[d] = a] *)
Definition set3 {A} (v : V3 A) (d : dim3) (a : A) : V3 A :=
  match d with
  | D0 => v3 a (c1 v) (c2 v)
  | D1 => v3 (c0 v) a (c2 v)
  | D2 => v3 (c0 v) (c1 v) a
  end.

Definition gen3 {A} (f : dim3 -> A) : V3 A := v3 (f D0) (f D1) (f D2).

Lemma get3_gen3 {A} (f : dim3 -> A) d : get3 (gen3 f) d = f d.
Proof. destruct d; reflexivity. Qed.

Lemma get3_set3_same {A} (v : V3 A) d a : get3 (set3 v d a) d = a.
Proof. destruct d; reflexivity. Qed.

Lemma get3_set3_other {A} (v : V3 A) d d' a :
  d <> d' -> get3 (set3 v d a) d' = get3 v d'.
Proof. destruct d, d'; intros H; try reflexivity; congruence. Qed.

Lemma v3_ext {A} (v w : V3 A) : (forall d, get3 v d = get3 w d) -> v = w.
Proof.
  intros H. destruct v as [a b c], w as [a' b' c'].
  generalize (H D0) (H D1) (H D2). simpl. intros -> -> ->. reflexivity.
Qed.

(** Sum of a list of integers. *)
Fixpoint zsum (l : list Z) : Z :=
  match l with [] => 0%Z | x :: r => (x + zsum r)%Z end.

Lemma zsum_app l1 l2 : zsum (l1 ++ l2) = (zsum l1 + zsum l2)%Z.
Proof. induction l1 as [|x l IH]; simpl; lia. Qed.

Lemma zsum_nonneg l : Forall (fun c => 0 <= c)%Z l -> (0 <= zsum l)%Z.
Proof. induction 1; simpl; lia. Qed.

Lemma zsum_perm l1 l2 : Permutation l1 l2 -> zsum l1 = zsum l2.
Proof. induction 1; simpl; lia. Qed.

Lemma zsum_firstn_le l n :
  Forall (fun c => 0 <= c)%Z l -> (zsum (firstn n l) <= zsum l)%Z.
Proof.
  intros H. rewrite <- (firstn_skipn n l) at 2. rewrite zsum_app.
  assert (0 <= zsum (skipn n l))%Z; [|lia].
  apply zsum_nonneg. rewrite Forall_forall in *. intros x Hx. apply H.
  rewrite <- (firstn_skipn n l). apply in_or_app. auto.
Qed.

Lemma zsum_firstn_S l n c :
  nth_error l n = Some c -> zsum (firstn (S n) l) = (zsum (firstn n l) + c)%Z.
Proof.
  revert n. induction l as [|x l IH]; intros [|n]; simpl; try discriminate.
  - intros [= ->]. lia.
  - intros H. specialize (IH n H). simpl in IH. lia.
Qed.

(** Inclusive lower / exclusive upper range of integers. *)
Definition zrange (lo : Z) (hi : Z) : list Z :=
  map (fun n => (lo + Z.of_nat n)%Z) (seq 0 (Z.to_nat (hi - lo))).

Lemma in_zrange lo hi x : In x (zrange lo hi) <-> (lo <= x < hi)%Z.
Proof.
  unfold zrange. rewrite in_map_iff. split.
  - intros [n [<- Hn]]. apply in_seq in Hn. lia.
  - intros H. exists (Z.to_nat (x - lo)). split; [lia|]. apply in_seq. lia.
Qed.

Lemma NoDup_zrange lo hi : NoDup (zrange lo hi).
Proof.
  unfold zrange. apply FinFun.Injective_map_NoDup; [|apply seq_NoDup].
  intros a b H. lia.
Qed.

Lemma zrange_length lo hi : length (zrange lo hi) = Z.to_nat (hi - lo).
Proof. unfold zrange. rewrite map_length, seq_length. reflexivity. Qed.

Lemma zrange_empty lo hi : (hi <= lo)%Z -> zrange lo hi = [].
Proof. intros H. unfold zrange. replace (Z.to_nat (hi - lo)) with 0%nat by lia. reflexivity. Qed.

Lemma zrange_cons lo hi : (lo < hi)%Z -> zrange lo hi = lo :: zrange (lo + 1) hi.
Proof.
  intros H. unfold zrange.
  replace (Z.to_nat (hi - lo)) with (S (Z.to_nat (hi - (lo + 1)))) by lia.
  cbn [seq map]. f_equal; [lia|]. rewrite <- seq_shift, map_map.
  apply map_ext. intros a. lia.
Qed.

Lemma zrange_snoc lo hi : (lo <= hi)%Z -> zrange lo (hi + 1) = zrange lo hi ++ [hi].
Proof.
  intros H. unfold zrange.
  replace (Z.to_nat (hi + 1 - lo)) with (S (Z.to_nat (hi - lo))) by lia.
  rewrite seq_S, map_app. cbn [map]. f_equal. f_equal. lia.
Qed.

Lemma Forall_nth_error {A} (P : A -> Prop) l n x :
  Forall P l -> nth_error l n = Some x -> P x.
Proof. intros H Hn. rewrite Forall_forall in H. apply H. eapply nth_error_In; eauto. Qed.
