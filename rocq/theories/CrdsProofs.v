(** Proofs about coordinates. *)
From Coq Require Import ZArith Reals List Lia Lra Bool.
From Verif Require Import CrdsModel CrdsSpec.
Import ListNotations.
Local Open Scope Z_scope.

Lemma loop_some (f : Z -> option R) (g : Z -> R) m : forall lo, (forall i, lo <= i < lo + Z.of_nat m -> f i = Some (g i)) ->
  loop f lo m = Some (map (fun k => g (lo + Z.of_nat k)) (seq 0 m)).
Proof.
  induction m as [|m IH]; intros lo H; [reflexivity|].
  cbn [loop]. rewrite H by lia. rewrite IH by (intros; apply H; lia).
  cbn [seq map]. f_equal. f_equal; [f_equal; lia|].
  rewrite <- seq_shift, map_map. apply map_ext. intros a. f_equal. lia.
Qed.

Lemma loop_none (f : Z -> option R) m : forall lo i, lo <= i < lo + Z.of_nat m -> f i = None -> loop f lo m = None.
Proof.
  induction m as [|m IH]; intros lo i H E; [lia|].
  cbn [loop]. destruct (Z.eq_dec lo i) as [->|Q]; [now rewrite E|].
  rewrite (IH (lo + 1) i) by (try exact E; lia). now destruct (f lo).
Qed.

Lemma nth_map_seq (g : nat -> R) m k : (k < m)%nat -> nth_error (map g (seq 0 m)) k = Some (g k).
Proof. intros H. rewrite nth_error_map, (nth_error_nth' _ 0%nat) by (rewrite seq_length; lia). now rewrite seq_nth by lia. Qed.

Lemma evenly_of (f : Z -> option R) (g : Z -> R) a h lo m : 0 <= m ->
  (forall i, lo <= i < lo + m -> f i = Some (g i)) -> (forall i, lo <= i < lo + m -> g i = (a + IZR (i - lo) * h)%R) ->
  exists l, loop f lo (Z.to_nat m) = Some l /\ evenly a h m l.
Proof.
  intros Hm H G. eexists. split; [apply loop_some; intros; apply H; lia|].
  split; [rewrite map_length, seq_length; lia|].
  intros k Hk. rewrite nth_map_seq by lia. rewrite G by lia. do 3 f_equal. f_equal. lia.
Qed.

Lemma rd_in n sw x i : - sw <= i < n + sw -> rd n sw x i = Some (x i).
Proof. intros H. unfold rd. replace (- sw <=? i) with true by (symmetry; apply Z.leb_le; lia). now replace (i <? n + sw) with true by (symmetry; apply Z.ltb_lt; lia). Qed.

(** the node of global index j, when all reads are in range (helper for mrc_crds.c:262-277) *)
Definition node_val (n sw : Z) (x : Z -> R) (j : Z) : R :=
  if j =? - sw then ext_lo (x j) (x (j + 1)) else if j =? n + sw then ext_hi (x (j - 1)) (x (j - 2)) else mid (x (j - 1)) (x j).

Lemma node_crd_in n sw x off i : 2 <= n + 2 * sw -> - sw <= i + off <= n + sw ->
  node_crd n sw x off i = Some (node_val n sw x (i + off)).
Proof.
  intros H J. unfold node_crd, node_val.
  replace (i + 1 + off) with (i + off + 1) by lia. replace (i - 1 + off) with (i + off - 1) by lia. replace (i - 2 + off) with (i + off - 2) by lia.
  destruct (Z.eqb_spec (i + off) (- sw)); [rewrite !rd_in by lia; reflexivity|].
  destruct (Z.eqb_spec (i + off) (n + sw)); rewrite !rd_in by lia; reflexivity.
Qed.

Lemma node_val_uniform xl xh n sw j : node_val n sw (gen_uniform xl xh n) j = (xl + IZR j * ((xh - xl) / IZR n))%R.
Proof.
  unfold node_val, gen_uniform, ext_lo, ext_hi, mid. cbv zeta. generalize ((xh - xl) / IZR n)%R. intros h.
  destruct (j =? - sw); [|destruct (j =? n + sw)]; rewrite ?plus_IZR, ?minus_IZR; lra.
Qed.

Lemma setup_some n sw x off ld : 0 <= sw -> 2 <= n + 2 * sw -> 0 <= off -> 0 <= ld -> off + ld <= n ->
  setup_patch n sw x off ld = Some (map (fun k => x (- sw + Z.of_nat k + off)) (seq 0 (Z.to_nat (ld + 2 * sw))),
                                    map (fun k => node_val n sw x (- sw + Z.of_nat k + off)) (seq 0 (Z.to_nat (ld + 2 * sw + 1)))).
Proof.
  intros Hs H2 Ho Hl Hn. unfold setup_patch.
  rewrite (loop_some _ (fun i => x (i + off))) by (intros; apply rd_in; lia).
  now rewrite (loop_some _ (fun i => node_val n sw x (i + off))) by (intros; apply node_crd_in; lia).
Qed.

Lemma setup_thin x off ld : 0 <= off -> 0 <= ld -> off + ld <= 1 -> setup_patch 1 0 x off ld = None.
Proof.
  intros Ho Hl Hn. unfold setup_patch.
  replace (loop (node_crd 1 0 x off) (- 0) (Z.to_nat (ld + 2 * 0 + 1))) with (@None (list R)); [now destruct (loop _ _ _)|].
  symmetry. apply (loop_none _ _ _ 0); [lia|]. unfold node_crd.
  assert (Q : off = 0 \/ off = 1) by lia. now destruct Q as [->| ->].
Qed.

Lemma setup_uniform_evenly norm scale l h n sw off ld : 0 < n -> 0 <= sw -> 2 <= n + 2 * sw -> 0 <= off -> 0 <= ld -> off + ld <= n ->
  let xl := (l / (norm / scale))%R in let dx := ((h / (norm / scale) - xl) / IZR n)%R in
  exists cells nodes, setup_uniform norm scale l h n sw off ld = Some (cells, nodes) /\
    evenly (xl + (IZR (off - sw) + / 2) * dx) dx (ld + 2 * sw) cells /\
    evenly (xl + IZR (off - sw) * dx) dx (ld + 2 * sw + 1) nodes.
Proof.
  intros Hn Hs H2 Ho Hl Hb xl dx. unfold setup_uniform. cbv zeta. fold xl. rewrite setup_some by lia.
  do 2 eexists. split; [reflexivity|]. split; (split; [rewrite map_length, seq_length; lia|]); intros k Hk; rewrite nth_map_seq by lia; f_equal; rewrite Z2Nat.id by lia.
  - unfold gen_uniform. cbv zeta. fold dx. replace (- sw + k + off) with (off - sw + k) by lia. rewrite plus_IZR. lra.
  - rewrite node_val_uniform. fold dx. replace (- sw + k + off) with (off - sw + k) by lia. rewrite plus_IZR. lra.
Qed.

Lemma setup_shared n sw x off ld ld' : 0 <= sw -> 2 <= n + 2 * sw -> 0 <= off -> 0 <= ld -> 0 <= ld' -> off + ld + ld' <= n ->
  exists c nd c' nd', setup_patch n sw x off ld = Some (c, nd) /\ setup_patch n sw x (off + ld) ld' = Some (c', nd') /\
    forall i, - sw <= i <= sw -> ld + i >= - sw -> i <= ld' + sw ->
      nth_error nd (Z.to_nat (sw + ld + i)) = nth_error nd' (Z.to_nat (sw + i)) /\ nth_error nd (Z.to_nat (sw + ld + i)) <> None.
Proof.
  intros Hs H2 Ho Hl Hl' Hb. do 4 eexists. split; [apply setup_some; lia|]. split; [apply setup_some; lia|].
  intros i Hi Ha Hc. rewrite !nth_map_seq by lia. rewrite !Z2Nat.id by lia. split; [|discriminate]. do 2 f_equal. lia.
Qed.

Lemma setup_interleaved n sw x off ld : 0 <= sw -> 2 <= n + 2 * sw -> 0 <= off -> 0 <= ld -> off + ld <= n ->
  (forall i, - sw <= i -> i + 1 < n + sw -> (x i < x (i + 1)%Z)%R) ->
  exists c nd, setup_patch n sw x off ld = Some (c, nd) /\ interleaved c nd.
Proof.
  intros Hs H2 Ho Hl Hb Hx. do 2 eexists. split; [apply setup_some; lia|].
  split; [rewrite !map_length, !seq_length; lia|].
  intros k c a b Hc Ha Hbb.
  assert (K : (k < Z.to_nat (ld + 2 * sw))%nat).
  { assert (Q : nth_error (map (fun k => x (- sw + Z.of_nat k + off)) (seq 0 (Z.to_nat (ld + 2 * sw)))) k <> None) by now rewrite Hc.
    apply nth_error_Some in Q. now rewrite map_length, seq_length in Q. }
  rewrite nth_map_seq in Hc by lia. rewrite nth_map_seq in Ha by lia. rewrite nth_map_seq in Hbb by lia.
  apply (f_equal (fun o => match o with Some v => v | None => c end)) in Hc, Ha, Hbb. cbv beta iota in Hc, Ha, Hbb. subst a b.
  replace (- sw + Z.of_nat (S k) + off) with (- sw + Z.of_nat k + off + 1) by lia.
  set (j := - sw + Z.of_nat k + off) in *. assert (J : - sw <= j < n + sw) by (subst j; lia). clearbody j. subst c. clear Hl Hb K.
  unfold node_val, ext_lo, ext_hi, mid. replace (j + 1 - 1) with j by lia. replace (j + 1 - 2) with (j - 1) by lia.
  replace (j + 1 =? - sw) with false by (symmetry; apply Z.eqb_neq; lia).
  replace (j =? n + sw) with false by (symmetry; apply Z.eqb_neq; lia).
  split.
  - destruct (Z.eqb_spec j (- sw)).
    + specialize (Hx j ltac:(lia) ltac:(lia)). lra.
    + specialize (Hx (j - 1) ltac:(lia) ltac:(lia)). replace (j - 1 + 1) with j in Hx by lia. lra.
  - destruct (Z.eqb_spec (j + 1) (n + sw)).
    + specialize (Hx (j - 1) ltac:(lia) ltac:(lia)). replace (j - 1 + 1) with j in Hx by lia. lra.
    + specialize (Hx j ltac:(lia) ltac:(lia)). lra.
Qed.

Lemma at_cell_even a h ld sw cells i : evenly a h (ld + 2 * sw) cells -> - sw <= i < ld + sw ->
  at_cell sw cells i = Some (a + IZR (i + sw) * h)%R.
Proof.
  intros [_ E] H. unfold at_cell. replace (- sw <=? i) with true by (symmetry; apply Z.leb_le; lia). apply E. lia.
Qed.

Lemma get_dx_even a h ld sw cells : 0 <= sw -> 2 <= ld + sw -> evenly a h (ld + 2 * sw) cells -> get_dx sw cells = Some h.
Proof.
  intros Hs H E. unfold get_dx. rewrite !(at_cell_even _ _ _ _ _ _ E) by lia. cbn [rd2]. f_equal. rewrite !plus_IZR. lra.
Qed.

Lemma file_even a h ld sw bnd cells : 0 <= ld -> 0 <= bnd <= sw -> (bnd < sw \/ 2 <= ld + 2 * bnd) -> evenly a h (ld + 2 * sw) cells ->
  exists nodes, file_nodes ld sw bnd cells = Some nodes /\ evenly (a + (IZR (sw - bnd) - / 2) * h) h (ld + 2 * bnd + 1) nodes.
Proof.
  intros Hl Hb H E. apply (evenly_of _ (fun i => (a + (IZR (i + sw) - / 2) * h)%R)); [lia| |].
  - intros i Hi. unfold file_node. cbv zeta.
    destruct (Z.ltb_spec bnd sw).
    { rewrite !(at_cell_even _ _ _ _ _ _ E) by lia. cbn [rd2]. f_equal. unfold mid. rewrite !plus_IZR, ?minus_IZR. lra. }
    assert (2 <= ld + 2 * bnd) by lia. assert (bnd = sw) by lia. subst bnd.
    destruct (Z.eqb_spec i (ld + sw)) as [->|].
    { rewrite !(at_cell_even _ _ _ _ _ _ E) by lia. cbn [rd2]. f_equal. unfold ext_hi. rewrite ?plus_IZR, ?minus_IZR, ?plus_IZR. lra. }
    destruct (Z.eqb_spec i (- sw)) as [->|].
    { rewrite !(at_cell_even _ _ _ _ _ _ E) by lia. cbn [rd2]. f_equal. unfold ext_lo. rewrite ?plus_IZR, ?minus_IZR, ?opp_IZR. lra. }
    rewrite !(at_cell_even _ _ _ _ _ _ E) by lia. cbn [rd2]. f_equal. unfold mid. rewrite !plus_IZR, ?minus_IZR. lra.
  - intros i Hi. replace (i + sw) with (i - - bnd + (sw - bnd)) by lia. rewrite plus_IZR. lra.
Qed.

Lemma file_thin cells v : cells = [v] -> file_nodes 1 0 0 cells = None.
Proof. intros ->. apply (loop_none _ _ _ 0); [cbn; lia|]. reflexivity. Qed.
