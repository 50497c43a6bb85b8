(** C42: sampling from a tabulated distribution. *)
From Coq Require Import Reals Lra.
From Verif Require Import Base Arr RngModel RngSpec RngProofs.
Local Open Scope R_scope.

(** C42, for each random number but 0 and each distribution whose support, up to the tolerance,
    contains 0: the sample exists, lies between the ends xmin and xmax of the table, lies on the broken line
    through the tabulated points, and does not decrease when u grows. Missing: u = 0, see
    [C42_zero_refuted], and supports that do not contain 0, see [C42_support_refuted]. *)
Theorem C42_sample_partial F n_points tolerance max_n_iter :
  is_cdf F -> (2 <= n_points)%Z -> tolerance <= F 0 <= 1 - tolerance ->
  let x := fst (inverted_cdf F n_points tolerance max_n_iter) in
  let c := snd (inverted_cdf F n_points tolerance max_n_iter) in
  exists xmin xmax, is_table x c xmin xmax /\ xmin <= 0 <= xmax /\
  (forall u, uniform u -> u <> 0 -> exists v, get x c u = Some v /\ xmin <= v <= xmax /\ on_line x c v u) /\
  (forall u u' v v', uniform u -> uniform u' -> u <> 0 -> u <= u' -> get x c u = Some v -> get x c u' = Some v' -> v <= v').
Proof.
  intros HF Hn H0. cbv zeta. unfold inverted_cdf. pose proof (support_ok F tolerance max_n_iter H0) as S.
  destruct (findPdfSupport F tolerance max_n_iter) as [xmin xmax]. cbn [fst snd] in S.
  pose proof (tabulate_ok F xmin xmax n_points HF ltac:(lra) Hn) as T. exists xmin, xmax. split; [exact T|]. split; [exact S|].
  destruct (get_full _ _ _ _ T) as [G1 G2]. unfold uniform. split.
  - intros u Hu N. apply G1. lra.
  - intros u u' v v' Hu Hu' N L. apply G2; lra.
Qed.
Print Assumptions C42_sample_partial.

(** The same for any table of a distribution. *)
Theorem C42_get_partial x c xmin xmax : is_table x c xmin xmax ->
  (forall u, uniform u -> u <> 0 -> exists v, get x c u = Some v /\ xmin <= v <= xmax /\ on_line x c v u) /\
  (forall u u' v v', uniform u -> uniform u' -> u <> 0 -> u <= u' -> get x c u = Some v -> get x c u' = Some v' -> v <= v').
Proof.
  intros T. destruct (get_full _ _ _ _ T) as [G1 G2]. unfold uniform. split.
  - intros u Hu N. apply G1. lra.
  - intros u u' v v' Hu Hu' N L. apply G2; lra.
Qed.
Print Assumptions C42_get_partial.

(** For u = 0, which a generator on [0, 1) may return, get accesses cdf[-1], whatever the table. *)
Theorem C42_zero_refuted : exists u, uniform u /\ forall x c xmin xmax, is_table x c xmin xmax ->
  locate c u = Some 0%Z /\ aget c (0 - 1) = None /\ get x c u = None.
Proof.
  exists 0. split; [unfold uniform; lra|]. intros x c xmin xmax T. destruct (zero_unguarded _ _ _ _ T) as [E1 E2].
  split; [exact E2|]. split; [apply aget_none; lia|exact E1].
Qed.
Print Assumptions C42_zero_refuted.

(** With the default arguments and the uniform distribution on [3.5, 3.7] the search for the support stops at
    xmin = 3 > xmax = 1.875, as the logarithm of the negative difference is NaN, and each sample is
    outside of the support. *)
Theorem C42_support_refuted : exists F, is_cdf F /\ (forall x, x <= 7 / 2 -> F x = 0) /\ (forall x, 37 / 10 <= x -> F x = 1) /\
  fst (findPdfSupport F (1 / 10000) 50) > snd (findPdfSupport F (1 / 10000) 50) /\
  forall u, uniform u -> u <> 0 ->
  exists v, get (fst (inverted_cdf F 100 (1 / 10000) 50)) (snd (inverted_cdf F 100 (1 / 10000) 50)) u = Some v /\ v <= 3.
Proof.
  exists cdf_far. split; [exact cdf_far_ok|]. split; [exact cdf_far_0|]. split; [exact cdf_far_1|].
  rewrite support_far. cbn [fst snd]. split; [lra|]. intros u Hu N.
  destruct (far_sample u ltac:(unfold uniform in Hu; lra)) as [v [E B]]. exists v. split; [exact E|lra].
Qed.
Print Assumptions C42_support_refuted.

(** the uniform distribution on [-1, 3] and a table of it with three points *)
Definition ex_cdf (x : R) : R := Rmax 0 (Rmin 1 ((x + 1) / 4)).
Example ex_C42_cdf : is_cdf ex_cdf /\ 1 / 10000 <= ex_cdf 0 <= 1 - 1 / 10000 /\ ex_cdf 2 <> ex_cdf 0.
Proof.
  unfold ex_cdf. split; [split|split].
  - intros x. unfold Rmax, Rmin. repeat destruct (Rle_dec _ _); lra.
  - intros x y H. unfold Rmax, Rmin. repeat destruct (Rle_dec _ _); lra.
  - unfold Rmax, Rmin. repeat destruct (Rle_dec _ _); lra.
  - unfold Rmax, Rmin. repeat destruct (Rle_dec _ _); lra.
Qed.
Example ex_C42_table : is_table (fst (tabulate ex_cdf (-1) 3 3)) (snd (tabulate ex_cdf (-1) 3 3)) (-1) 3 /\
  aget (snd (tabulate ex_cdf (-1) 3 3)) 1 = Some (1 / 2).
Proof.
  split; [apply tabulate_ok; [apply ex_C42_cdf|lra|lia]|]. unfold tabulate. cbn [snd]. rewrite aget_tab by lia. cbn.
  f_equal. unfold ex_cdf, Rmax, Rmin. repeat destruct (Rle_dec _ _); lra.
Qed.
