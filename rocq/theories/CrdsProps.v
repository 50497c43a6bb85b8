(** C78: coordinates of cells and nodes. *)
From Coq Require Import ZArith Reals List Lia Lra.
From Verif Require Import CrdsModel CrdsSpec CrdsProofs.
Import ListNotations.
Local Open Scope Z_scope.

(** Cells and nodes of uniform coordinates.  Full statement: also for domains with n + 2 sw = 1; see C78_thin_refuted. *)
Theorem C78_uniform_partial : forall norm scale l h n sw off ld, 0 < n -> 0 <= sw -> 2 <= n + 2 * sw -> 0 <= off -> 0 <= ld -> off + ld <= n ->
  let xl := (l / (norm / scale))%R in let dx := ((h / (norm / scale) - xl) / IZR n)%R in
  exists cells nodes, setup_uniform norm scale l h n sw off ld = Some (cells, nodes) /\
    evenly (xl + (IZR (off - sw) + / 2) * dx) dx (ld + 2 * sw) cells /\
    evenly (xl + IZR (off - sw) * dx) dx (ld + 2 * sw + 1) nodes.
Proof. exact setup_uniform_evenly. Qed.
Print Assumptions C78_uniform_partial.

(** the domain of psc, with two ghost points, of one cell from 0 to 3 *)
Example ex_C78_uniform : exists cells nodes, setup_uniform 1 1 0 3 1 2 0 1 = Some (cells, nodes) /\
  evenly (- (9 / 2)) 3 5 cells /\ evenly (- 6) 3 6 nodes.
Proof.
  destruct (C78_uniform_partial 1 1 0 3 1 2 0 1) as (c & nd & E & A & B); try lia. exists c, nd. split; [exact E|].
  replace ((3 / (1 / 1) - 0 / (1 / 1)) / 1)%R with 3%R in A, B by lra. cbn in A, B.
  split; [replace (- (9 / 2))%R with (0 / (1 / 1) + (-2 + / 2) * 3)%R by lra; exact A|replace (- 6)%R with (0 / (1 / 1) + (-2) * 3)%R by lra; exact B].
Qed.

(** A domain of one cell without ghost points: every set-up reads outside of the array. *)
Theorem C78_thin_refuted : exists n sw, 0 < n /\ 0 <= sw /\
  forall norm scale l h off ld, 0 <= off -> 0 <= ld -> off + ld <= n -> setup_uniform norm scale l h n sw off ld = None.
Proof. exists 1, 0. split; [lia|]. split; [lia|]. intros. now apply setup_thin. Qed.
Print Assumptions C78_thin_refuted.

(** Patches beside each other have the same coordinates for the nodes both hold, for any generator. *)
Theorem C78_shared : forall n sw x off ld ld', 0 <= sw -> 2 <= n + 2 * sw -> 0 <= off -> 0 <= ld -> 0 <= ld' -> off + ld + ld' <= n ->
  exists c nd c' nd', setup_patch n sw x off ld = Some (c, nd) /\ setup_patch n sw x (off + ld) ld' = Some (c', nd') /\
    forall i, - sw <= i <= sw -> ld + i >= - sw -> i <= ld' + sw ->
      nth_error nd (Z.to_nat (sw + ld + i)) = nth_error nd' (Z.to_nat (sw + i)) /\ nth_error nd (Z.to_nat (sw + ld + i)) <> None.
Proof. exact setup_shared. Qed.
Print Assumptions C78_shared.

Example ex_C78_shared : exists c nd c' nd', setup_patch 7 1 (fun i => IZR (i * i * i)) 0 4 = Some (c, nd) /\ setup_patch 7 1 (fun i => IZR (i * i * i)) 4 3 = Some (c', nd') /\
  nth_error nd 5 = nth_error nd' 1 /\ nth_error nd 5 <> None.
Proof.
  destruct (C78_shared 7 1 (fun i => IZR (i * i * i)) 0 4 3) as (c & nd & c' & nd' & A & B & S); try lia.
  exists c, nd, c', nd'. split; [exact A|]. split; [exact B|]. exact (S 0 ltac:(lia) ltac:(lia) ltac:(lia)).
Qed.

(** Every cell is strictly between its nodes, ghost cells and extrapolated nodes included, for any generator with increasing coordinates. *)
Theorem C78_interleaved : forall n sw x off ld, 0 <= sw -> 2 <= n + 2 * sw -> 0 <= off -> 0 <= ld -> off + ld <= n ->
  (forall i, - sw <= i -> i + 1 < n + sw -> (x i < x (i + 1)%Z)%R) ->
  exists c nd, setup_patch n sw x off ld = Some (c, nd) /\ interleaved c nd.
Proof. exact setup_interleaved. Qed.
Print Assumptions C78_interleaved.

Example ex_C78_interleaved : exists c nd, setup_patch 7 1 (fun i => IZR (i * i * i)) 4 3 = Some (c, nd) /\ interleaved c nd.
Proof. apply C78_interleaved; try lia. intros i _ _. apply IZR_lt. nia. Qed.

(** The spacing found from the cells of a patch that holds its cells 0 and 1. *)
Theorem C78_spacing : forall norm scale l h n sw off ld cells nodes, 0 < n -> 0 <= sw -> 2 <= n + 2 * sw -> 0 <= off -> 0 <= ld -> off + ld <= n -> 2 <= ld + sw ->
  setup_uniform norm scale l h n sw off ld = Some (cells, nodes) ->
  get_dx sw cells = Some ((h / (norm / scale) - l / (norm / scale)) / IZR n)%R.
Proof.
  intros norm scale l h n sw off ld cells nodes ? ? ? ? ? ? H E.
  destruct (C78_uniform_partial norm scale l h n sw off ld) as (c & nd & E' & A & _); try lia.
  rewrite E in E'. injection E' as <- <-. eapply get_dx_even; [| |exact A]; lia.
Qed.
Print Assumptions C78_spacing.

Example ex_C78_spacing : exists cells nodes, setup_uniform 1 1 0 3 1 2 0 1 = Some (cells, nodes) /\ get_dx 2 cells = Some 3%R.
Proof.
  destruct ex_C78_uniform as (c & nd & E & _). exists c, nd. split; [exact E|].
  rewrite (C78_spacing 1 1 0 3 1 2 0 1 c nd ltac:(lia) ltac:(lia) ltac:(lia) ltac:(lia) ltac:(lia) ltac:(lia) ltac:(lia) E). f_equal. lra.
Qed.

(** The nodes written to a file are those of the patch.  Full statement: also when bnd = sw and the patch holds one cell, see C78_file_refuted. *)
Theorem C78_file_partial : forall norm scale l h n sw off ld bnd cells nodes, 0 < n -> 0 <= sw -> 2 <= n + 2 * sw -> 0 <= off -> 0 <= ld -> off + ld <= n ->
  0 <= bnd <= sw -> (bnd < sw \/ 2 <= ld + 2 * bnd) -> setup_uniform norm scale l h n sw off ld = Some (cells, nodes) ->
  exists written, file_nodes ld sw bnd cells = Some written /\ Z.of_nat (length written) = ld + 2 * bnd + 1 /\
    forall k, 0 <= k < ld + 2 * bnd + 1 -> nth_error written (Z.to_nat k) = nth_error nodes (Z.to_nat (k + (sw - bnd))).
Proof.
  intros norm scale l h n sw off ld bnd cells nodes ? ? ? ? ? ? Hb H E.
  destruct (C78_uniform_partial norm scale l h n sw off ld) as (c & nd & E' & A & [_ B]); try lia.
  rewrite E in E'. injection E' as <- <-.
  destruct (file_even _ _ ld sw bnd cells ltac:(lia) Hb H A) as (w & F & [L W]).
  exists w. split; [exact F|]. split; [exact L|]. intros k Hk. rewrite W, B by lia. f_equal. rewrite !plus_IZR. lra.
Qed.
Print Assumptions C78_file_partial.

Example ex_C78_file : exists cells nodes written, setup_uniform 1 1 0 8 4 2 2 2 = Some (cells, nodes) /\ file_nodes 2 2 0 cells = Some written /\ length written = 3%nat.
Proof.
  destruct (C78_uniform_partial 1 1 0 8 4 2 2 2) as (c & nd & E & _); try lia.
  destruct (C78_file_partial 1 1 0 8 4 2 2 2 0 c nd) as (w & F & L & _); try lia; try exact E.
  exists c, nd, w. split; [exact E|]. split; [exact F|]. lia.
Qed.

(** Two cells in two patches without ghost points: their coordinates are set up, but writing them reads outside of the array. *)
Theorem C78_file_refuted : exists n off ld cells nodes, 0 < n /\ 0 <= off /\ off + ld <= n /\
  setup_uniform 1 1 0 2 n 0 off ld = Some (cells, nodes) /\ file_nodes ld 0 0 cells = None.
Proof.
  destruct (C78_uniform_partial 1 1 0 2 2 0 1 1) as (c & nd & E & [L _] & _); try lia.
  exists 2, 1, 1, c, nd. repeat split; try lia; [exact E|].
  destruct c as [|v [|w c]]; cbn [length] in L; try lia. now apply (file_thin _ v).
Qed.
Print Assumptions C78_file_refuted.
