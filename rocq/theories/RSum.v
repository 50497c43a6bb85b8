(** Finite sums of real numbers. *)
From Coq Require Import Reals Lra Psatz.
From Verif Require Import Base CollisionProofs.
Local Open Scope R_scope.

Definition rsum (l : list R) : R := fold_right Rplus 0 l.

Lemma rsum_cons a l : rsum (a :: l) = a + rsum l.
Proof. reflexivity. Qed.

Lemma rsum_app l l' : rsum (l ++ l') = rsum l + rsum l'.
Proof. induction l as [|a l IH]; cbn [app]; [unfold rsum at 2; cbn; ring|]. rewrite !rsum_cons, IH. ring. Qed.

Lemma rsum_ext {A} (f f' : A -> R) l : (forall x, In x l -> f x = f' x) -> rsum (map f l) = rsum (map f' l).
Proof. intros H. f_equal. apply map_ext_in. exact H. Qed.

Lemma rsum_plus {A} (f f' : A -> R) l : rsum (map (fun x => f x + f' x) l) = rsum (map f l) + rsum (map f' l).
Proof. induction l as [|a l IH]; cbn [map]; [cbn; ring|]. rewrite !rsum_cons, IH. ring. Qed.

Lemma rsum_mul {A} c (f : A -> R) l : rsum (map (fun x => c * f x) l) = c * rsum (map f l).
Proof. induction l as [|a l IH]; cbn [map]; [cbn; ring|]. rewrite !rsum_cons, IH. ring. Qed.

Lemma rsum_zero {A} (f : A -> R) l : (forall x, In x l -> f x = 0) -> rsum (map f l) = 0.
Proof.
  induction l as [|a l IH]; intros H; cbn [map]; [reflexivity|]. rewrite rsum_cons, IH by (intros; apply H; now right).
  rewrite H by now left. ring.
Qed.

Lemma rsum_swap {A B} (f : A -> B -> R) l l' :
  rsum (map (fun a => rsum (map (f a) l')) l) = rsum (map (fun b => rsum (map (fun a => f a b) l)) l').
Proof.
  induction l as [|a l IH]; cbn [map rsum fold_right].
  - symmetry. apply rsum_zero. reflexivity.
  - change (fold_right Rplus 0 ?x) with (rsum x). rewrite IH, <- rsum_plus. reflexivity.
Qed.

(** telescoping over a period *)
Lemma rsum_tele (u : Z -> R) n : (0 <= n)%Z -> rsum (map (fun i => u (i + 1)%Z - u i) (zrange 0 n)) = u n - u 0%Z.
Proof.
  intros Hn. pattern n. apply natlike_ind; [| |exact Hn].
  - cbn. ring.
  - intros m Hm IH. unfold Z.succ. rewrite zrange_snoc by lia. rewrite map_app, rsum_app, IH. cbn. ring.
Qed.

Lemma rsum_split (u : Z -> R) m n : (0 <= m)%Z -> (0 <= n)%Z ->
  rsum (map u (zrange 0 (m * n))) = rsum (map (fun p => rsum (map (fun i => u (p * n + i)%Z) (zrange 0 n))) (zrange 0 m)).
Proof.
  intros Hm Hn. pattern m. apply natlike_ind; [| |exact Hm].
  - rewrite Z.mul_0_l. reflexivity.
  - intros x Hx IH. unfold Z.succ. rewrite (zrange_snoc 0 x), map_app, rsum_app, <- IH by lia. cbn [map rsum fold_right].
    rewrite (zrange_split 0 (x * n) ((x + 1) * n)) by nia. rewrite map_app, rsum_app. f_equal.
    rewrite Rplus_0_r. replace ((x + 1) * n)%Z with (x * n + n)%Z by ring.
    assert (Z : zrange (x * n) (x * n + n) = map (fun i => (x * n + i)%Z) (zrange 0 n)).
    { rewrite <- zrange_shift. f_equal; ring. }
    rewrite Z, map_map. reflexivity.
Qed.


Lemma rsum_nonneg {A} (f : A -> R) l : (forall x, In x l -> 0 <= f x) -> 0 <= rsum (map f l).
Proof.
  induction l as [|a l IH]; intros H; cbn [map]; [cbn; lra|]. rewrite rsum_cons.
  pose proof (H a (or_introl eq_refl)). specialize (IH (fun x Hx => H x (or_intror Hx))). lra.
Qed.

(** ** Deltas: 1 at an integer, 0 elsewhere *)

Definition delta (a n : Z) : R := if (a =? n)%Z then 1 else 0.

Lemma delta_same a : delta a a = 1.
Proof. unfold delta. now rewrite Z.eqb_refl. Qed.

Lemma delta_diff a n : a <> n -> delta a n = 0.
Proof. intros H. unfold delta. apply Z.eqb_neq in H. now rewrite H. Qed.

Lemma rsum_delta (f : Z -> R) a lo hi : rsum (map (fun n => f n * delta a n) (zrange lo hi)) = if ((lo <=? a) && (a <? hi))%Z then f a else 0.
Proof.
  destruct (lo <=? a)%Z eqn:E1; cbn [andb]; [destruct (a <? hi)%Z eqn:E2|].
  - apply Z.leb_le in E1. apply Z.ltb_lt in E2. rewrite (zrange_split lo a hi) by lia. rewrite (zrange_cons a hi) by lia.
    rewrite map_app, rsum_app. cbn [map]. rewrite rsum_cons, delta_same.
    rewrite !rsum_zero; [ring| |]; intros n Hn; apply in_zrange in Hn; rewrite delta_diff by lia; ring.
  - apply Z.ltb_ge in E2. apply rsum_zero. intros n Hn. apply in_zrange in Hn. rewrite delta_diff by lia. ring.
  - apply Z.leb_gt in E1. apply rsum_zero. intros n Hn. apply in_zrange in Hn. rewrite delta_diff by lia. ring.
Qed.

Lemma delta_shift a n k : delta (a + k) n = delta a (n - k).
Proof. unfold delta. destruct (Z.eqb_spec (a + k) n), (Z.eqb_spec a (n - k)); try lia; reflexivity. Qed.
