(** C42: the ends of the table. *)
From Coq Require Import Reals Lra.
From Verif Require Import Base RngModel RngSpec RngProofs.
Local Open Scope R_scope.

(** how far from 0 a search of n steps gets: 3/2 + (3/2)^2 + ... *)
Fixpoint reach (n : nat) : R := match n with O => 0 | S n => 3 / 2 * reach n + 3 / 2 end.

(** F takes the value p, or jumps over it, between l and u *)
Definition brackets (F : R -> R) (p l u : R) : Prop := l <= u /\ F l <= p <= F u.

Lemma reach_pow n : reach n = 3 * ((3 / 2) ^ n - 1).
Proof. induction n as [|n IH]; cbn [reach pow]; [lra|]. rewrite IH. lra. Qed.

Lemma reach_nonneg n : 0 <= reach n.
Proof. induction n as [|n IH]; cbn [reach]; lra. Qed.

(** the search downwards, step k *)
Lemma down_search (more : R -> bool) : forall n k, exists j, (j <= n)%nat /\
  search more (-1) n ((3 / 2) ^ k) (- reach k) = - reach (k + j) /\
  (j <> n -> more (- reach (k + j)) = false) /\ (j <> O -> more (- reach (k + j - 1)) = true).
Proof.
  induction n as [|n IH]; intros k; cbn [search].
  - exists O. rewrite Nat.add_0_r. repeat split; try lia; congruence.
  - destruct (more (- reach k)) eqn:E.
    + destruct (IH (S k)) as [j [Hj [E1 [E2 E3]]]].
      replace ((3 / 2) ^ k * (3 / 2)) with ((3 / 2) ^ S k) by (cbn [pow]; lra).
      replace (- reach k + -1 * (3 / 2) ^ S k) with (- reach (S k)) by (rewrite !reach_pow; cbn [pow]; lra).
      exists (S j). replace (k + S j)%nat with (S k + j)%nat by lia. split; [lia|]. split; [exact E1|]. split; [intros H; apply E2; lia|].
      intros _. destruct j as [|j]; [replace (S k + 0 - 1)%nat with k by lia; exact E|apply E3; lia].
    + exists O. rewrite Nat.add_0_r. repeat split; try lia; try congruence; intros _; exact E.
Qed.

Lemma up_search (more : R -> bool) : forall n k, exists j, (j <= n)%nat /\
  search more 1 n ((3 / 2) ^ k) (reach k) = reach (k + j) /\
  (j <> n -> more (reach (k + j)) = false) /\ (j <> O -> more (reach (k + j - 1)) = true).
Proof.
  induction n as [|n IH]; intros k; cbn [search].
  - exists O. rewrite Nat.add_0_r. repeat split; try lia; congruence.
  - destruct (more (reach k)) eqn:E.
    + destruct (IH (S k)) as [j [Hj [E1 [E2 E3]]]].
      replace ((3 / 2) ^ k * (3 / 2)) with ((3 / 2) ^ S k) by (cbn [pow]; lra).
      replace (reach k + 1 * (3 / 2) ^ S k) with (reach (S k)) by (rewrite !reach_pow; cbn [pow]; lra).
      exists (S j). replace (k + S j)%nat with (S k + j)%nat by lia. split; [lia|]. split; [exact E1|]. split; [intros H; apply E2; lia|].
      intros _. destruct j as [|j]; [replace (S k + 0 - 1)%nat with k by lia; exact E|apply E3; lia].
    + exists O. rewrite Nat.add_0_r. repeat split; try lia; try congruence; intros _; exact E.
Qed.

Lemma ltb_true a b : ltb a b = true -> a < b.
Proof. destruct (ltb_spec' a b) as [[E L]|[E L]]; [auto|congruence]. Qed.
Lemma ltb_false a b : ltb a b = false -> b <= a.
Proof. destruct (ltb_spec' a b) as [[E L]|[E L]]; [congruence|auto]. Qed.

(** bisection: the intervals still bracket, and are narrow enough unless there are no rounds left *)
Lemma bisect_ok F tol diff width : forall n k b w w', brackets F tol (xmin_lb b) (xmin_ub b) -> brackets F (1 - tol) (xmax_lb b) (xmax_ub b) ->
  xmin_ub b - xmin_lb b = w / 2 ^ k -> xmax_ub b - xmax_lb b = w' / 2 ^ k ->
  let b' := bisect F tol diff width n k b in
  brackets F tol (xmin_lb b') (xmin_ub b') /\ brackets F (1 - tol) (xmax_lb b') (xmax_ub b') /\
  exists j, (j <= n)%nat /\ xmin_ub b' - xmin_lb b' = w / 2 ^ (k + j) /\ xmax_ub b' - xmax_lb b' = w' / 2 ^ (k + j) /\ (j <> n -> precise (k + j) diff width = false).
Proof.
  induction n as [|n IH]; intros k b w w' H1 H2 E1 E2; cbn [bisect].
  - split; [exact H1|]. split; [exact H2|]. exists O. rewrite Nat.add_0_r. repeat split; try assumption; try lia; congruence.
  - destruct (precise k diff width) eqn:P; [|split; [exact H1|]; split; [exact H2|]; exists O; rewrite Nat.add_0_r; repeat split; try assumption; try lia; intros _; exact P].
    assert (H2k : 0 < 2 ^ k) by (apply pow_lt; lra).
    assert (D : forall v, v / 2 ^ S k = v / 2 ^ k / 2) by (intros v; cbn [pow]; field; lra).
    set (lu := if ltb (F (mid_min b)) tol then (mid_min b, xmin_ub b) else (xmin_lb b, mid_min b)).
    set (lu' := if ltb (1 - tol) (F (mid_max b)) then (xmax_lb b, mid_max b) else (mid_max b, xmax_ub b)).
    assert (A : brackets F tol (fst lu) (snd lu) /\ snd lu - fst lu = w / 2 ^ S k).
    { unfold lu, brackets, mid_min in *. rewrite D, <- E1. destruct (ltb_spec' (F ((xmin_lb b + xmin_ub b) / 2)) tol) as [[E L]|[E L]]; rewrite E; cbn [fst snd]; lra. }
    assert (A' : brackets F (1 - tol) (fst lu') (snd lu') /\ snd lu' - fst lu' = w' / 2 ^ S k).
    { unfold lu', brackets, mid_max in *. rewrite D, <- E2. destruct (ltb_spec' (1 - tol) (F ((xmax_lb b + xmax_ub b) / 2))) as [[E L]|[E L]]; rewrite E; cbn [fst snd]; lra. }
    clearbody lu lu'. destruct lu as [l u], lu' as [l' u']. cbn [fst snd] in A, A'. destruct A as [A B], A' as [A' B'].
    destruct (IH (S k) (Bounds l u l' u') w w' A A' B B') as [I1 [I2 [j [Hj [I3 [I4 I5]]]]]]. split; [exact I1|]. split; [exact I2|].
    exists (S j). replace (k + S j)%nat with (S k + j)%nat by lia. repeat split; try assumption; try lia. intros H. apply I5. lia.
Qed.

(** Let the tolerance and its complement be reached within the search.  Then each end of the table is the middle of an interval in
    which the distribution function takes the value it was searched for.  The interval is not wider than 1/1024 of half of the distance
    between the points at which the searches stopped, a and b, or the number of halvings was exhausted.  These points are at most one step too far. *)
Theorem C42_support_ends F tol max_n_iter : is_cdf F -> tol <= F 0 <= 1 - tol -> F (- reach max_n_iter) <= tol -> 1 - tol <= F (reach max_n_iter) ->
  let (xmin, xmax) := findPdfSupport F tol max_n_iter in
  exists l u l' u' a b, brackets F tol l u /\ xmin = (l + u) / 2 /\ brackets F (1 - tol) l' u' /\ xmax = (l' + u') / 2 /\
    brackets F tol a 0 /\ (a = 0 \/ exists p, tol < F p /\ a = 3 / 2 * p - 3 / 2) /\
    brackets F (1 - tol) 0 b /\ (b = 0 \/ exists p, F p < 1 - tol /\ b = 3 / 2 * p + 3 / 2) /\
    ((u - l <= (b - a) / 2 / 1024 /\ u' - l' <= (b - a) / 2 / 1024) \/ (u - l = - a / 2 ^ max_n_iter /\ u' - l' = b / 2 ^ max_n_iter)).
Proof.
  intros HF H0 Hl Hu. unfold findPdfSupport.
  assert (S0 : forall more dir, more 0 = false -> search more dir max_n_iter 1 0 = 0) by (intros more dir E; destruct max_n_iter; cbn [search]; [reflexivity|rewrite E; reflexivity]).
  rewrite (S0 (fun x => ltb (F x) tol)) by (destruct (ltb_spec' (F 0) tol) as [[E L]|[E L]]; [lra|exact E]).
  rewrite (S0 (fun x => ltb (1 - tol) (F x))) by (destruct (ltb_spec' (1 - tol) (F 0)) as [[E L]|[E L]]; [lra|exact E]).
  destruct (down_search (fun x => ltb tol (F x)) max_n_iter 0) as [j [Hj [E1 [E2 E3]]]]. destruct (up_search (fun x => ltb (F x) (1 - tol)) max_n_iter 0) as [j' [Hj' [E1' [E2' E3']]]].
  cbn [pow reach] in E1, E1'. rewrite Ropp_0 in E1. rewrite E1, E1'. clear S0 E1 E1'. rewrite Nat.add_0_l in *.
  set (a := - reach j) in *. set (b := reach j') in *. pose proof (reach_nonneg j). pose proof (reach_nonneg j').
  assert (BA : brackets F tol a 0).
  { split; [unfold a; lra|]. split; [|lra]. destruct (Nat.eq_dec j max_n_iter) as [->|N]; [exact Hl|]. apply ltb_false, E2, N. }
  assert (BB : brackets F (1 - tol) 0 b).
  { split; [unfold b; lra|]. split; [lra|]. destruct (Nat.eq_dec j' max_n_iter) as [->|N]; [exact Hu|]. apply ltb_false, E2', N. }
  set (bd := Bounds a 0 0 b).
  destruct (bisect_ok F tol (mid_max bd - mid_min bd) (Rmax (b - 0) (0 - a)) max_n_iter 0 bd (- a) b BA BB) as [I1 [I2 [k [Hk [I3 [I4 I5]]]]]]; [cbn; lra|cbn; lra|].
  set (b' := bisect _ _ _ _ _ _ _) in *. exists (xmin_lb b'), (xmin_ub b'), (xmax_lb b'), (xmax_ub b'), a, b.
  split; [exact I1|]. split; [reflexivity|]. split; [exact I2|]. split; [reflexivity|]. split; [exact BA|]. split.
  { destruct j as [|j]; [left; unfold a; cbn [reach]; lra|right]. exists (- reach j). split; [apply ltb_true; specialize (E3 ltac:(lia)); cbn [Nat.sub] in E3; rewrite Nat.sub_0_r in E3; exact E3|unfold a; cbn [reach]; lra]. }
  split; [exact BB|]. split.
  { destruct j' as [|j']; [left; unfold b; cbn [reach]; lra|right]. exists (reach j'). split; [apply ltb_true; specialize (E3' ltac:(lia)); cbn [Nat.sub] in E3'; rewrite Nat.sub_0_r in E3'; exact E3'|unfold b; cbn [reach]; lra]. }
  rewrite I3, I4. rewrite Nat.add_0_l in *. destruct (Nat.eq_dec k max_n_iter) as [->|N]; [right; auto|left]. specialize (I5 N).
  assert (Ha : a <= 0) by (unfold a; lra). assert (Hb : 0 <= b) by (unfold b; lra). clear - I5 Ha Hb.
  assert (H2k : 0 < 2 ^ k) by (apply pow_lt; lra).
  replace (mid_max bd - mid_min bd) with ((b - a) / 2) in I5 by (unfold mid_max, mid_min, bd; cbn; lra).
  set (wd := Rmax (b - 0) (0 - a)) in *. assert (W1 : b <= wd) by (unfold wd; pose proof (Rmax_l (b - 0) (0 - a)); lra). assert (W2 : - a <= wd) by (unfold wd; pose proof (Rmax_r (b - 0) (0 - a)); lra).
  assert (K : wd / 2 ^ k <= (b - a) / 2 / 1024).
  { unfold precise, eqb in I5. destruct (Req_EM_T wd 0) as [E|E].
    - rewrite E. unfold Rdiv at 1. rewrite Rmult_0_l. lra.
    - assert (Wp : 0 < wd) by lra. assert (Q : 0 <= (b - a) / 2 / wd) by (apply Rmult_le_pos; [lra|left; apply Rinv_0_lt_compat; exact Wp]).
      destruct (ltb_spec' ((b - a) / 2 / wd) 0) as [[X L]|[X L]]; [lra|]. rewrite X in I5. apply ltb_false in I5. replace (2 ^ 10) with 1024 in I5 by ring.
      apply Rmult_le_reg_r with (2 ^ k); [exact H2k|]. replace (wd / 2 ^ k * 2 ^ k) with wd by (field; lra).
      apply Rmult_le_compat_r with (r := wd / 1024) in I5; [|lra]. replace (1024 * (wd / 1024)) with wd in I5 by field.
      replace (2 ^ k * ((b - a) / 2 / wd) * (wd / 1024)) with ((b - a) / 2 / 1024 * 2 ^ k) in I5 by (field; lra). exact I5. }
  assert (M : forall x, x <= wd -> x / 2 ^ k <= wd / 2 ^ k) by (intros x Hx; apply Rmult_le_compat_r; [left; apply Rinv_0_lt_compat; exact H2k|exact Hx]).
  split; (eapply Rle_trans; [apply M; lra|exact K]).
Qed.
Print Assumptions C42_support_ends.

(** the uniform distribution on [-1, 3] with the default arguments *)
Example ex_C42_support_ends : let F x := Rmax 0 (Rmin 1 ((x + 1) / 4)) in
  is_cdf F /\ 1 / 10000 <= F 0 <= 1 - 1 / 10000 /\ F (- reach 50) <= 1 / 10000 /\ 1 - 1 / 10000 <= F (reach 50).
Proof.
  cbv zeta. assert (R50 : 9 / 2 <= reach 50) by (rewrite reach_pow; pose proof (pow_lt (3 / 2) 46 ltac:(lra)); assert (1 <= (3 / 2) ^ 46) by (apply pow_R1_Rle; lra); replace ((3 / 2) ^ 50) with ((3 / 2) ^ 46 * (3 / 2) ^ 4) by (rewrite <- pow_add; reflexivity); cbn [pow] in *; lra).
  split; [split|split; [|split]].
  - intros x. unfold Rmax, Rmin. repeat destruct (Rle_dec _ _); lra.
  - intros x y H. unfold Rmax, Rmin. repeat destruct (Rle_dec _ _); lra.
  - unfold Rmax, Rmin. repeat destruct (Rle_dec _ _); lra.
  - unfold Rmax, Rmin. repeat destruct (Rle_dec _ _); lra.
  - unfold Rmax, Rmin. repeat destruct (Rle_dec _ _); lra.
Qed.
