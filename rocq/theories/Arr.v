(** C arrays as lists: read and write with bounds check ([None] is undefined
    behaviour).  Not modelling a part of /repo by itself. *)
From Verif Require Import Base.
Local Open Scope Z_scope.

Definition aget {A} (l : list A) (i : Z) : option A :=
  if i <? 0 then None else nth_error l (Z.to_nat i).

Fixpoint nset {A} (l : list A) (n : nat) (a : A) : option (list A) :=
  match l, n with
  | [], _ => None
  | _ :: r, O => Some (a :: r)
  | x :: r, S n => match nset r n a with Some r' => Some (x :: r') | None => None end
  end.

Definition aset {A} (l : list A) (i : Z) (a : A) : option (list A) :=
  if i <? 0 then None else nset l (Z.to_nat i) a.

Definition alen {A} (l : list A) : Z := Z.of_nat (length l).

Lemma nset_some {A} (l : list A) n a : (n < length l)%nat ->
  exists l', nset l n a = Some l' /\ length l' = length l /\
    forall m, nth_error l' m = if Nat.eqb m n then Some a else nth_error l m.
Proof.
  revert n. induction l as [|x l IH]; intros n H; [cbn in H; lia|].
  destruct n as [|n]; cbn [nset].
  - eexists. split; [reflexivity|]. split; [reflexivity|]. intros [|m]; reflexivity.
  - destruct (IH n ltac:(cbn in H; lia)) as [l' [E [L N]]]. rewrite E. eexists. split; [reflexivity|].
    split; [cbn; lia|]. intros [|m]; [reflexivity|]. cbn. apply N.
Qed.

Lemma nset_none {A} (l : list A) n a : (length l <= n)%nat -> nset l n a = None.
Proof.
  revert n. induction l as [|x l IH]; intros n H; [reflexivity|].
  destruct n as [|n]; cbn in H; [lia|]. cbn. rewrite IH by lia. reflexivity.
Qed.

Lemma aset_some {A} (l : list A) i a : 0 <= i < alen l ->
  exists l', aset l i a = Some l' /\ alen l' = alen l /\
    forall j, aget l' j = if j =? i then Some a else aget l j.
Proof.
  unfold alen, aset, aget. intros H. destruct (Z.ltb_spec i 0); [lia|].
  destruct (nset_some l (Z.to_nat i) a ltac:(lia)) as [l' [E [L N]]]. exists l'.
  split; [exact E|]. split; [lia|]. intros j. destruct (Z.ltb_spec j 0); destruct (Z.eqb_spec j i); try lia.
  - reflexivity.
  - subst. rewrite N, Nat.eqb_refl. reflexivity.
  - rewrite N. destruct (Nat.eqb_spec (Z.to_nat j) (Z.to_nat i)); [lia|reflexivity].
Qed.

Lemma aset_none {A} (l : list A) i a : ~ 0 <= i < alen l -> aset l i a = None.
Proof.
  unfold aset, alen. intros H. destruct (Z.ltb_spec i 0); [reflexivity|]. apply nset_none. lia.
Qed.

Lemma aset_bounds {A} (l l' : list A) i a : aset l i a = Some l' -> 0 <= i < alen l.
Proof.
  intros E. destruct (Z_lt_dec i 0) as [H|H]; [rewrite aset_none in E by lia; discriminate|].
  destruct (Z_lt_dec i (alen l)); [lia|]. rewrite aset_none in E by lia. discriminate.
Qed.

Lemma aset_get {A} (l l' : list A) i a : aset l i a = Some l' ->
  alen l' = alen l /\ forall j, aget l' j = if j =? i then Some a else aget l j.
Proof.
  intros E. destruct (aset_some l i a (aset_bounds _ _ _ _ E)) as [l2 [E2 H]].
  rewrite E in E2. injection E2 as <-. exact H.
Qed.

Lemma aget_some {A} (l : list A) i : 0 <= i < alen l -> exists x, aget l i = Some x.
Proof.
  unfold aget, alen. intros H. destruct (Z.ltb_spec i 0); [lia|].
  destruct (nth_error l (Z.to_nat i)) eqn:E; [eauto|]. apply nth_error_None in E. lia.
Qed.

Lemma aget_none {A} (l : list A) i : ~ 0 <= i < alen l -> aget l i = None.
Proof.
  unfold aget, alen. intros H. destruct (Z.ltb_spec i 0); [reflexivity|]. apply nth_error_None. lia.
Qed.

Lemma aget_bounds {A} (l : list A) i x : aget l i = Some x -> 0 <= i < alen l.
Proof.
  intros E. destruct (Z_lt_dec i 0) as [H|H]; [rewrite aget_none in E by lia; discriminate|].
  destruct (Z_lt_dec i (alen l)); [lia|]. rewrite aget_none in E by lia. discriminate.
Qed.

Lemma aget_In {A} (l : list A) i x : aget l i = Some x -> In x l.
Proof. unfold aget. destruct (i <? 0); [discriminate|]. apply nth_error_In. Qed.

Lemma In_aget {A} (l : list A) x : In x l -> exists i, aget l i = Some x.
Proof.
  intros H. apply In_nth_error in H. destruct H as [n Hn]. exists (Z.of_nat n).
  unfold aget. destruct (Z.ltb_spec (Z.of_nat n) 0); [lia|]. rewrite Nat2Z.id. exact Hn.
Qed.

Lemma nth_error_ext' {A} (l1 l2 : list A) : (forall n, nth_error l1 n = nth_error l2 n) -> l1 = l2.
Proof.
  revert l2. induction l1 as [|x l1 IH]; intros [|y l2] H; [reflexivity|specialize (H 0%nat); discriminate..|].
  pose proof (H 0%nat) as H0. injection H0 as ->. f_equal. apply IH. intros n. exact (H (S n)).
Qed.

Lemma alist_ext {A} (l1 l2 : list A) : alen l1 = alen l2 ->
  (forall i, 0 <= i < alen l1 -> aget l1 i = aget l2 i) -> l1 = l2.
Proof.
  unfold alen, aget. intros HL HG. apply nth_error_ext'. intros n.
  destruct (Nat.lt_ge_cases n (length l1)) as [H|H].
  - specialize (HG (Z.of_nat n) ltac:(lia)). destruct (Z.ltb_spec (Z.of_nat n) 0); [lia|].
    rewrite Nat2Z.id in HG. exact HG.
  - rewrite (proj2 (nth_error_None l1 n)), (proj2 (nth_error_None l2 n)) by lia. reflexivity.
Qed.

Lemma alen_app {A} (l1 l2 : list A) : alen (l1 ++ l2) = alen l1 + alen l2.
Proof. unfold alen. rewrite app_length. lia. Qed.

Lemma alen_cons {A} (x : A) l : alen (x :: l) = 1 + alen l.
Proof. unfold alen. cbn [length]. lia. Qed.

Lemma alen_nil {A} : alen (@nil A) = 0.
Proof. reflexivity. Qed.

Lemma alen_nonneg {A} (l : list A) : 0 <= alen l.
Proof. unfold alen. lia. Qed.

Lemma aget_app {A} (l1 l2 : list A) i :
  aget (l1 ++ l2) i = if i <? alen l1 then aget l1 i else aget l2 (i - alen l1).
Proof.
  unfold aget, alen. destruct (Z.ltb_spec i (Z.of_nat (length l1))), (Z.ltb_spec i 0); try lia; try reflexivity.
  - apply nth_error_app1. lia.
  - destruct (Z.ltb_spec (i - Z.of_nat (length l1)) 0); [lia|].
    rewrite nth_error_app2 by lia. f_equal. lia.
Qed.

Lemma aget_cons {A} (x : A) l i : aget (x :: l) i = if i =? 0 then Some x else aget l (i - 1).
Proof.
  unfold aget. destruct (Z.eqb_spec i 0) as [->|]; [reflexivity|].
  destruct (Z.ltb_spec i 0), (Z.ltb_spec (i - 1) 0); try lia; try reflexivity.
  replace (Z.to_nat i) with (S (Z.to_nat (i - 1))) by lia. reflexivity.
Qed.

Lemma aget_repeat {A} (x : A) n i : aget (repeat x n) i = if (0 <=? i) && (i <? Z.of_nat n) then Some x else None.
Proof.
  unfold aget. destruct (Z.ltb_spec i 0); destruct (Z.leb_spec 0 i); try lia; [reflexivity|]. cbn [andb].
  destruct (Z.ltb_spec i (Z.of_nat n)).
  - apply nth_error_repeat. lia.
  - apply nth_error_None. rewrite repeat_length. lia.
Qed.

Lemma alen_repeat {A} (x : A) n : alen (repeat x n) = Z.of_nat n.
Proof. unfold alen. rewrite repeat_length. reflexivity. Qed.

Lemma aget_map {A B} (f : A -> B) l i : aget (map f l) i = option_map f (aget l i).
Proof. unfold aget. destruct (i <? 0); [reflexivity|]. apply nth_error_map. Qed.

Lemma alen_map {A B} (f : A -> B) l : alen (map f l) = alen l.
Proof. unfold alen. rewrite map_length. reflexivity. Qed.

Lemma aget_zrange lo hi i : aget (zrange lo hi) i = if (0 <=? i) && (i <? hi - lo) then Some (lo + i) else None.
Proof.
  destruct (Z.leb_spec 0 i), (Z.ltb_spec i (hi - lo)); cbn [andb];
    try (apply aget_none; unfold alen; rewrite zrange_length; lia).
  unfold aget. destruct (Z.ltb_spec i 0); [lia|]. unfold zrange. rewrite nth_error_map.
  rewrite (nth_error_nth' _ 0%nat) by (rewrite seq_length; lia).
  cbn. rewrite seq_nth by lia. f_equal. lia.
Qed.

Lemma alen_zrange lo hi : lo <= hi -> alen (zrange lo hi) = hi - lo.
Proof. unfold alen. rewrite zrange_length. lia. Qed.

(** [sequence] for arrays of possibly uninitialised elements *)
Fixpoint all_some {A} (l : list (option A)) : option (list A) :=
  match l with
  | [] => Some []
  | Some a :: r => match all_some r with Some r' => Some (a :: r') | None => None end
  | None :: _ => None
  end.

Lemma all_some_map {A} (l : list A) : all_some (map Some l) = Some l.
Proof. induction l as [|a l IH]; [reflexivity|]. cbn. rewrite IH. reflexivity. Qed.
