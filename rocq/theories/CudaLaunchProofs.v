(** Proofs about the launches of the CUDA kernels. *)
From Coq Require Import Reals Permutation.
From Verif Require Import Base Arr RSum FieldModel CurrentModel CurrentProofs CudaPrtModel CudaPrtSpec CudaPrtProofs CudaLaunchModel CudaLaunchSpec BalanceCommProofs UidProofs GhostProofs SetupProofs.
Local Open Scope Z_scope.

(** ** Loops *)

Lemma in_stride_loop fuel : forall lo hi st i, 0 < st -> hi - lo <= Z.of_nat fuel ->
  (In i (stride_loop fuel lo hi st) <-> lo <= i < hi /\ (st | i - lo)).
Proof.
  induction fuel as [|fuel IH]; intros lo hi st i Hs Hf.
  - split; [intros []|]. intros [H _]. cbn in Hf. lia.
  - cbn [stride_loop]. destruct (lo <? hi) eqn:E.
    + apply Z.ltb_lt in E. cbn [In]. rewrite IH by lia. split.
      * intros [<-|[H [k D]]]; [split; [lia|exists 0; lia]|]. split; [lia|]. exists (k + 1). lia.
      * intros [H [k D]]. assert (0 <= k) by nia. destruct (Z.eq_dec k 0) as [->|]; [left; lia|]. right. split; [nia|]. exists (k - 1). lia.
    + apply Z.ltb_ge in E. split; [intros []|]. intros [H _]. lia.
Qed.

Lemma in_strided lo hi st i : 0 < st -> (In i (strided lo hi st) <-> lo <= i < hi /\ (st | i - lo)).
Proof. intros H. apply in_stride_loop; [exact H|lia]. Qed.

Lemma NoDup_stride_loop fuel : forall lo hi st, 0 < st -> hi - lo <= Z.of_nat fuel -> NoDup (stride_loop fuel lo hi st).
Proof.
  induction fuel as [|fuel IH]; intros lo hi st Hs Hf; cbn [stride_loop]; [constructor|].
  destruct (lo <? hi) eqn:E; [|constructor]. constructor; [|apply IH; lia].
  rewrite in_stride_loop by lia. lia.
Qed.

Lemma NoDup_strided lo hi st : 0 < st -> NoDup (strided lo hi st).
Proof. intros H. apply NoDup_stride_loop; [exact H|lia]. Qed.

(** all threads, with a stride of at least their number *)
Lemma NoDup_threads base nt st hi : 0 < nt <= st -> NoDup (flat_map (fun t => strided (base + t) hi st) (zrange 0 nt)).
Proof.
  intros H. apply NoDup_flat_map with (k := fun i => (i - base) mod st).
  - apply NoDup_zrange.
  - intros t i Ht Hi. apply in_zrange in Ht. apply in_strided in Hi; [|lia]. destruct Hi as [_ [k D]].
    replace (i - base) with (t + k * st) by lia. rewrite Z.mod_add by lia. apply Z.mod_small. lia.
  - intros t _. apply NoDup_strided. lia.
Qed.

Lemma in_threads base nt hi i : 0 < nt -> (In i (flat_map (fun t => strided (base + t) hi nt) (zrange 0 nt)) <-> base <= i < hi).
Proof.
  intros H. rewrite in_flat_map. split.
  - intros (t & Ht & Hi). apply in_zrange in Ht. apply in_strided in Hi; [|lia]. lia.
  - intros Hi. exists ((i - base) mod nt). split; [apply in_zrange; apply Z.mod_pos_bound; lia|]. apply in_strided; [exact H|].
    pose proof (Z.div_mod (i - base) nt ltac:(lia)) as E. pose proof (Z.mod_pos_bound (i - base) nt H) as M.
    assert (0 <= (i - base) / nt) by (apply Z.div_pos; lia). split; [nia|]. exists ((i - base) / nt). lia.
Qed.

Lemma threads_perm base nt hi : 0 < nt -> Permutation (flat_map (fun t => strided (base + t) hi nt) (zrange 0 nt)) (zrange base hi).
Proof.
  intros H. apply NoDup_Permutation; [apply NoDup_threads; lia|apply NoDup_zrange|].
  intros i. rewrite in_threads, in_zrange by exact H. reflexivity.
Qed.

Lemma ldiff31 lo : 0 <= lo -> 0 <= Z.ldiff lo 31 <= lo.
Proof.
  intros H. change 31 with (Z.ones 5). rewrite Z.ldiff_ones_r by lia. rewrite Z.shiftl_mul_pow2, Z.shiftr_div_pow2 by lia.
  change (2 ^ 5) with 32. lia.
Qed.

Lemma in_block_loop_perm nt lo hi : 0 < nt -> 0 <= lo ->
  Permutation (flat_map (in_block_loop nt lo hi) (zrange 0 nt)) (zrange lo hi).
Proof.
  intros Hn Hl. pose proof (ldiff31 lo Hl) as B. apply NoDup_Permutation.
  - apply NoDup_flat_map with (k := fun i => (i - Z.ldiff lo 31) mod nt); [apply NoDup_zrange| |].
    + intros t i Ht Hi. apply in_zrange in Ht. apply filter_In in Hi. destruct Hi as [Hi _]. apply in_strided in Hi; [|lia]. destruct Hi as [_ [k D]].
      replace (i - Z.ldiff lo 31) with (t + k * nt) by lia. rewrite Z.mod_add by lia. apply Z.mod_small. lia.
    + intros t _. apply NoDup_filter, NoDup_strided. exact Hn.
  - apply NoDup_zrange.
  - intros i. rewrite in_zrange, in_flat_map. split.
    + intros (t & Ht & Hi). apply filter_In in Hi. destruct Hi as [Hi L]. apply in_strided in Hi; [|exact Hn]. apply Bool.negb_true_iff, Z.ltb_ge in L. lia.
    + intros Hi. assert (In i (flat_map (fun t => strided (Z.ldiff lo 31 + t) hi nt) (zrange 0 nt))) as X by (apply in_threads; [exact Hn|lia]).
      apply in_flat_map in X. destruct X as (t & Ht & X). exists t. split; [exact Ht|]. apply filter_In. split; [exact X|]. apply Bool.negb_true_iff, Z.ltb_ge. lia.
Qed.

Lemma in_grid_of d v : In v (grid_of d) <-> 0 <= c0 v < c0 d /\ 0 <= c1 v < c1 d /\ 0 <= c2 v < c2 d.
Proof.
  unfold grid_of. rewrite in_flat_map. split.
  - intros (z & Hz & H). apply in_flat_map in H. destruct H as (y & Hy & H). apply in_map_iff in H. destruct H as (x & <- & Hx).
    apply in_zrange in Hx, Hy, Hz. cbn [c0 c1 c2]. lia.
  - intros (Hx & Hy & Hz). exists (c2 v). split; [apply in_zrange; lia|]. apply in_flat_map. exists (c1 v). split; [apply in_zrange; lia|].
    apply in_map_iff. exists (c0 v). split; [destruct v; reflexivity|apply in_zrange; lia].
Qed.

Lemma NoDup_grid_of d : NoDup (grid_of d).
Proof.
  apply NoDup_flat_map with (k := c2); [apply NoDup_zrange| |].
  - intros z v _ H. apply in_flat_map in H. destruct H as (y & _ & H). apply in_map_iff in H. destruct H as (x & <- & _). reflexivity.
  - intros z _. apply NoDup_flat_map with (k := c1); [apply NoDup_zrange| |].
    + intros y v _ H. apply in_map_iff in H. destruct H as (x & <- & _). reflexivity.
    + intros y _. apply NoDup_map_in; [|apply NoDup_zrange]. intros a b _ _ E. congruence.
Qed.

(** ** Blocks *)

Section Geom.
Context (g : geom) (ok : geom_ok g).

Lemma bmx d : get3 (b_mx g) d = nblk g d.
Proof. apply b_mx_nblk. exact ok. Qed.

Lemma bmx0 : c0 (b_mx g) = nblk g D0. Proof. exact (bmx D0). Qed.
Lemma bmx1 : c1 (b_mx g) = nblk g D1. Proof. exact (bmx D1). Qed.
Lemma bmx2 : c2 (b_mx g) = nblk g D2. Proof. exact (bmx D2). Qed.

Lemma nblk_yz : g_yz g = true -> nblk g D0 = 1.
Proof. intros H. rewrite <- bmx0. unfold b_mx. cbn [c0]. rewrite H. reflexivity. Qed.

(** positions as numbers *)
Definition pos_of (r : Z) : V3 Z := v3 (r mod nblk g D0) (r / nblk g D0 mod nblk g D1) (r / nblk g D0 / nblk g D1 mod nblk g D2).
Definition pat_of (r : Z) : Z := r / nblk g D0 / nblk g D1 / nblk g D2.

Lemma nb_mul : n_blocks g = nblk g D0 * (nblk g D1 * (nblk g D2 * g_np g)).
Proof. unfold n_blocks. pose proof (nbp_eq g ok) as E. rewrite E. ring. Qed.

Lemma pos_of_ok r : 0 <= r < n_blocks g -> is_pos g (pat_of r) (pos_of r).
Proof.
  intros H. rewrite nb_mul in H. pose proof (nblk_pos g ok D0) as H0. pose proof (nblk_pos g ok D1) as H1. pose proof (nblk_pos g ok D2) as H2.
  split.
  - unfold pat_of. split; [repeat (apply Z.div_pos; [|lia]); lia|].
    apply Z.div_lt_upper_bound; [lia|]. apply Z.div_lt_upper_bound; [lia|]. apply Z.div_lt_upper_bound; [lia|]. lia.
  - intros []; unfold pos_of; cbn [get3 c0 c1 c2]; apply Z.mod_pos_bound; assumption.
Qed.

Lemma block_no_of r : block_no g (pat_of r) (pos_of r) = r.
Proof.
  unfold block_no, pat_of, pos_of. cbn [c0 c1 c2].
  pose proof (nblk_pos g ok D0) as H0. pose proof (nblk_pos g ok D1) as H1. pose proof (nblk_pos g ok D2) as H2.
  rewrite (Z.add_comm (_ mod nblk g D2)), <- (Z.div_mod (r / nblk g D0 / nblk g D1)) by lia.
  rewrite (Z.add_comm (_ mod nblk g D1)), <- (Z.div_mod (r / nblk g D0)) by lia.
  rewrite (Z.add_comm (_ mod nblk g D0)), <- (Z.div_mod r) by lia. reflexivity.
Qed.

Lemma of_block_no p pos : is_pos g p pos -> pat_of (block_no g p pos) = p /\ pos_of (block_no g p pos) = pos /\ 0 <= block_no g p pos < n_blocks g.
Proof.
  intros [Hp Hpos]. pose proof (block_no_lt g ok p pos Hp Hpos) as L.
  destruct (pos_of_ok _ L) as [A B]. pose proof (block_no_of (block_no g p pos)) as E.
  destruct (block_no_inj g ok _ _ _ _ A Hp B Hpos E) as [-> ->]. repeat split; lia.
Qed.

Lemma block_at_inj p pos p' pos' : is_pos g p pos -> is_pos g p' pos' -> k_bid (block_at g p pos) = k_bid (block_at g p' pos') -> p = p' /\ pos = pos'.
Proof. intros [A B] [A' B'] E. apply (block_no_inj g ok); assumption. Qed.

Lemma simple2_at r : simple2_init g r = block_at g (pat_of r) (pos_of r).
Proof.
  unfold simple2_init, block_at. rewrite block_no_of, bmx0, bmx1, bmx2. reflexivity.
Qed.

Lemma once_strided (f : Z -> blk) (n : Z) : n = Z.min (n_blocks g) 1024 ->
  (forall r, 0 <= r < n_blocks g -> f r = block_at g (pat_of r) (pos_of r)) ->
  each_once (all_blocks g) (flat_map (fun b => map f (strided b (n_blocks g) n)) (zrange 0 n)).
Proof.
  intros Hn Hf. pose proof (nb_nonneg g ok) as Hb.
  destruct (Z.eq_dec (n_blocks g) 0) as [E|NE].
  { replace n with 0 by lia. split; [constructor|]. intros b. split; [intros []|]. intros (p & pos & Hp & _).
    destruct (of_block_no p pos Hp) as (_ & _ & L). lia. }
  assert (P : Permutation (flat_map (fun b => strided b (n_blocks g) n) (zrange 0 n)) (zrange 0 (n_blocks g))) by (apply (threads_perm 0); lia).
  rewrite <- (map_flat_map f). split.
  - apply NoDup_map_in.
    + intros a b Ha Hb' E. apply (Permutation_in _ P) in Ha, Hb'. apply in_zrange in Ha, Hb'. rewrite !Hf in E by lia.
      apply (f_equal k_bid) in E. cbn [block_at k_bid] in E. rewrite !block_no_of in E. exact E.
    + apply (Permutation_NoDup (Permutation_sym P)). apply NoDup_zrange.
  - intros b. rewrite in_map_iff. split.
    + intros (r & <- & Hr). apply (Permutation_in _ P) in Hr. apply in_zrange in Hr. rewrite Hf by lia. exists (pat_of r), (pos_of r). split; [apply pos_of_ok; lia|reflexivity].
    + intros (p & pos & Hp & ->). destruct (of_block_no p pos Hp) as (A & B & L). exists (block_no g p pos). split.
      * rewrite Hf, A, B by exact L. reflexivity.
      * apply (Permutation_in _ (Permutation_sym P)). apply in_zrange. lia.
Qed.

Lemma simple2_once : each_once (all_blocks g) (simple2_blocks g).
Proof.
  apply once_strided; [|intros; apply simple2_at]. unfold simple2_grid. rewrite bmx0, bmx1, bmx2, nb_mul. f_equal. ring.
Qed.

Lemma simple2_yz_once : g_yz g = true -> each_once (all_blocks g) (simple2_yz_blocks g).
Proof.
  intros H. pose proof (nblk_yz H) as N. apply once_strided.
  - unfold simple2_yz_grid. rewrite bmx1, bmx2, nb_mul, N. f_equal. ring.
  - intros r _. rewrite <- simple2_at. unfold simple2_yz_init, simple2_init, ci0_of. rewrite bmx0, N, Z.div_1_r. rewrite Z.mod_1_r. reflexivity.
Qed.

Lemma simple_once : each_once (all_blocks g) (simple_blocks g).
Proof.
  pose proof (nblk_pos g ok D2) as H2.
  assert (A : forall bi, In bi (grid_of (simple_grid g)) -> let p := c2 bi / nblk g D2 in let pos := v3 (c0 bi) (c1 bi) (c2 bi mod nblk g D2) in
             is_pos g p pos /\ simple_init g bi = block_at g p pos).
  { intros bi Hb. apply in_grid_of in Hb. unfold simple_grid in Hb. cbn [c0 c1 c2] in Hb. rewrite bmx0, bmx1, bmx2 in Hb. destruct Hb as (B0 & B1 & B2). cbv zeta. split.
    - split; [split; [apply Z.div_pos; lia|apply Z.div_lt_upper_bound; lia]|]. intros []; cbn [get3 c0 c1 c2]; [lia|lia|]. apply Z.mod_pos_bound. lia.
    - unfold simple_init, block_at, ci0_of. rewrite bmx0, bmx1, bmx2. f_equal. unfold block_no. cbn [c0 c1 c2]. rewrite (Z.div_mod (c2 bi) (nblk g D2)) at 1 by lia. ring. }
  split.
  - apply NoDup_map_in; [|apply NoDup_grid_of]. intros a b Ha Hb E. destruct (A _ Ha) as [Pa Ea]. destruct (A _ Hb) as [Pb Eb].
    rewrite Ea, Eb in E. apply (f_equal k_bid) in E. destruct (block_at_inj _ _ _ _ Pa Pb E) as [E1 E2].
    destruct a as [a0 a1 a2], b as [b0 b1 b2]. cbn [c0 c1 c2] in *. injection E2 as -> -> E2. f_equal.
    rewrite (Z.div_mod a2 (nblk g D2)), (Z.div_mod b2 (nblk g D2)), E1, E2 by lia. reflexivity.
  - intros b. unfold simple_blocks. rewrite in_map_iff. split.
    + intros (bi & <- & Hb). destruct (A _ Hb) as [P E]. eexists _, _. split; [exact P|exact E].
    + intros (p & pos & [Hp Hq] & ->). exists (v3 (c0 pos) (c1 pos) (p * nblk g D2 + c2 pos)).
      pose proof (Hq D0) as Q0. pose proof (Hq D1) as Q1. pose proof (Hq D2) as Q2. cbn [get3] in Q0, Q1, Q2.
      assert (I : In (v3 (c0 pos) (c1 pos) (p * nblk g D2 + c2 pos)) (grid_of (simple_grid g))).
      { apply in_grid_of. unfold simple_grid. cbn [c0 c1 c2]. rewrite bmx0, bmx1, bmx2. repeat split; try lia; nia. }
      split; [|exact I]. destruct (A _ I) as [_ ->]. cbn [c0 c1 c2].
      rewrite Z.div_add_l, (Z.div_small (c2 pos)), Z.add_0_r by lia. rewrite Z.add_comm, Z.mod_add, Z.mod_small by lia. destruct pos; reflexivity.
Qed.

Lemma start_bits s : 0 <= s < 4 -> Z.land s 1 = s mod 2 /\ Z.shiftr s 1 = s / 2 /\ 0 <= s / 2 < 2.
Proof. intros H. assert (s = 0 \/ s = 1 \/ s = 2 \/ s = 3) as [-> | [-> | [-> | ->]]] by lia; cbn; lia. Qed.

Lemma q_init_at s bi b : 0 <= s < 4 -> g_yz g = true -> In bi (grid_of (q_grid g)) -> q_init g s bi = Some b ->
  let gy := (nblk g D2 + 1) / 2 in
  let p := c1 bi / gy in let pos := v3 0 (c0 bi * 2 + s mod 2) (c1 bi mod gy * 2 + s / 2) in
  is_pos g p pos /\ b = block_at g p pos.
Proof.
  intros Hs Hyz Hb E. apply in_grid_of in Hb. unfold q_grid in Hb. cbn [c0 c1 c2] in Hb. rewrite bmx1, bmx2 in Hb.
  unfold q_init in E. rewrite bmx1, bmx2 in E. destruct (start_bits s Hs) as (B1 & B2 & B3). rewrite B1, B2 in E.
  pose proof (nblk_pos g ok D1) as H1. pose proof (nblk_pos g ok D2) as H2. pose proof (nblk_yz Hyz) as N.
  set (gy := (nblk g D2 + 1) / 2) in *. assert (Hgy : 0 < gy) by lia. cbv zeta.
  destruct (_ || _)%bool eqn:C; [discriminate|]. apply Bool.orb_false_iff in C. destruct C as [C1 C2]. rewrite Z.geb_leb in C1, C2. apply Z.leb_gt in C1, C2.
  injection E as <-. pose proof (Z.mod_pos_bound (c1 bi) gy Hgy). pose proof (Z.mod_pos_bound s 2 ltac:(lia)). split.
  - split; [split; [apply Z.div_pos; lia|apply Z.div_lt_upper_bound; lia]|].
    intros []; cbn [get3 c0 c1 c2]; lia.
  - unfold block_at, block_no. cbn [c0 c1 c2]. rewrite N. f_equal. ring.
Qed.

Lemma q_blocks_once s : 0 <= s < 4 -> g_yz g = true -> each_once (blocks_of_start g s) (q_blocks g s).
Proof.
  intros Hs Hyz. pose proof (nblk_pos g ok D1) as H1. pose proof (nblk_pos g ok D2) as H2. pose proof (nblk_yz Hyz) as N.
  set (gy := (nblk g D2 + 1) / 2). assert (Hgy : 0 < gy) by lia.
  destruct (start_bits s Hs) as (B1 & B2 & B3).
  assert (M1 : forall i k, (i * 2 + k mod 2) mod 2 = k mod 2) by (intros; rewrite Z.add_comm, Z.mod_add, Z.mod_mod by lia; reflexivity).
  assert (M2 : forall i, (i * 2 + s / 2) mod 2 = s / 2) by (intros; rewrite Z.add_comm, Z.mod_add by lia; apply Z.mod_small; lia).
  split.
  - unfold q_blocks. apply NoDup_flat_map with (k := fun b => v3 (c1 (pos_of (k_bid b)) / 2) (k_p b * gy + c2 (pos_of (k_bid b)) / 2) 0).
    + apply NoDup_grid_of.
    + intros bi b Hb H. pose proof Hb as Hb'. apply in_grid_of in Hb'. unfold q_grid in Hb'. cbn [c0 c1 c2] in Hb'.
      destruct (q_init g s bi) as [b'|] eqn:E; [|destruct H]. destruct H as [->|[]].
      destruct (q_init_at s bi b Hs Hyz Hb E) as [P ->]. destruct (of_block_no _ _ P) as (Q1 & Q2 & _). cbn [block_at k_bid k_p]. rewrite Q2. cbn [c1 c2]. fold gy.
      rewrite !Z.div_add_l by lia. rewrite (Z.div_small (s mod 2)), (Z.div_small (s / 2)) by (try lia; apply Z.mod_pos_bound; lia).
      destruct bi as [b0 b1 b2]. cbn [c0 c1 c2] in *. f_equal; [lia| |lia]. rewrite Z.add_0_r. rewrite (Z.div_mod b1 gy) at 3 by lia. ring.
    + intros bi _. destruct (q_init g s bi); repeat constructor. intros [].
  - intros b. unfold q_blocks. rewrite in_flat_map. split.
    + intros (bi & Hb & H). destruct (q_init g s bi) as [b'|] eqn:E; [|destruct H]. destruct H as [->|[]].
      destruct (q_init_at s bi b Hs Hyz Hb E) as [P ->]. eexists _, _. split; [exact P|]. cbn [c1 c2]. split; [apply M1|]. split; [apply M2|reflexivity].
    + intros (p & pos & [Hp Hq] & E1 & E2 & ->).
      pose proof (Hq D0) as Q0. pose proof (Hq D1) as Q1. pose proof (Hq D2) as Q2. cbn [get3] in Q0, Q1, Q2.
      pose proof (Z.div_mod (c1 pos) 2 ltac:(lia)) as X1. pose proof (Z.div_mod (c2 pos) 2 ltac:(lia)) as X2. rewrite E1 in X1. rewrite E2 in X2.
      pose proof (Z.mod_pos_bound s 2 ltac:(lia)) as Ms.
      assert (Y : c2 pos / 2 < gy) by (unfold gy; lia).
      set (bi := v3 (c1 pos / 2) (p * gy + c2 pos / 2) 0). exists bi.
      assert (Hb : In bi (grid_of (q_grid g))).
      { apply in_grid_of. unfold q_grid, bi. cbn [c0 c1 c2]. rewrite bmx1, bmx2. fold gy. repeat split; try lia; try nia. }
      split; [exact Hb|].
      assert (Z1 : c1 bi mod gy = c2 pos / 2) by (unfold bi; cbn [c1]; rewrite Z.add_comm, Z.mod_add by lia; apply Z.mod_small; lia).
      assert (Z2 : c1 bi / gy = p) by (unfold bi; cbn [c1]; rewrite Z.div_add_l, (Z.div_small (c2 pos / 2)) by lia; lia).
      assert (exists b, q_init g s bi = Some b) as [b Eb].
      { unfold q_init. rewrite bmx1, bmx2, B1, B2. fold gy. rewrite Z1. replace (c0 bi * 2 + s mod 2) with (c1 pos) by (unfold bi; cbn [c0]; lia).
        replace (c2 pos / 2 * 2 + s / 2) with (c2 pos) by lia. rewrite !Z.geb_leb. destruct (_ || _)%bool eqn:C; [|eexists; reflexivity].
        exfalso. apply Bool.orb_true_iff in C. destruct C as [C|C]; apply Z.leb_le in C; lia. }
      rewrite Eb. left. destruct (q_init_at s bi b Hs Hyz Hb Eb) as [_ ->]. fold gy. rewrite Z1, Z2. f_equal.
      apply v3_ext. intros []; unfold bi; cbn [get3 c0 c1 c2]; lia.
Qed.

Lemma q_all_once : g_yz g = true -> each_once (all_blocks g) (flat_map (q_blocks g) q_starts).
Proof.
  intros Hyz. split.
  - apply NoDup_flat_map with (k := fun b => c1 (pos_of (k_bid b)) mod 2 + 2 * (c2 (pos_of (k_bid b)) mod 2)).
    + apply NoDup_zrange.
    + intros s b Hs H. apply in_zrange in Hs. apply (proj2 (q_blocks_once s Hs Hyz)) in H. destruct H as (p & pos & P & E1 & E2 & ->).
      destruct (of_block_no _ _ P) as (_ & Q & _). cbn [block_at k_bid]. rewrite Q, E1, E2. lia.
    + intros s Hs. apply in_zrange in Hs. apply (q_blocks_once s Hs Hyz).
  - intros b. rewrite in_flat_map. split.
    + intros (s & Hs & H). apply in_zrange in Hs. apply (proj2 (q_blocks_once s Hs Hyz)) in H. destruct H as (p & pos & P & _ & _ & ->). exists p, pos. split; [exact P|reflexivity].
    + intros (p & pos & P & ->). exists (c1 pos mod 2 + 2 * (c2 pos mod 2)).
      pose proof (Z.mod_pos_bound (c1 pos) 2 ltac:(lia)) as M1. pose proof (Z.mod_pos_bound (c2 pos) 2 ltac:(lia)) as M2.
      assert (0 <= c1 pos mod 2 + 2 * (c2 pos mod 2) < 4) as L by lia. split; [apply in_zrange; lia|]. apply (proj2 (q_blocks_once _ L Hyz)).
      exists p, pos. split; [exact P|]. split; [|split; [|reflexivity]].
      * rewrite (Z.mul_comm 2), Z.mod_add, Z.mod_mod by lia. reflexivity.
      * rewrite (Z.mul_comm 2), Z.div_add, (Z.div_small (c1 pos mod 2)) by lia. reflexivity.
Qed.

(** with b_mx_[2] for b_mx_[1], as long as they are equal *)
Lemma simple_yz_once : g_yz g = true -> nblk g D1 = nblk g D2 -> each_once (all_blocks g) (simple_yz_blocks g).
Proof.
  intros Hyz Eq. pose proof (nblk_yz Hyz) as N. destruct simple_once as [ND IFF].
  assert (E : simple_yz_blocks g = simple_blocks g).
  { unfold simple_yz_blocks, simple_blocks, grid_of, simple_yz_grid, simple_grid. cbn [c0 c1 c2]. rewrite bmx0, bmx1, bmx2, N, Eq.
    change (zrange 0 1) with [0]. cbn [flat_map map]. rewrite app_nil_r.
    rewrite !map_flat_map. apply flat_map_ext_in'. intros y Hy. rewrite map_map, map_flat_map.
    rewrite <- (map_id (zrange 0 (nblk g D2))) at 2. rewrite flat_map_concat_map, map_map. cbn [map].
    rewrite <- (flat_map_concat_map (fun x => [simple_init g (v3 0 x y)])).
    assert (S1 : forall (f : Z -> blk) l, flat_map (fun x => [f x]) l = map f l) by (intros f l; induction l as [|a l IH]; cbn; [|rewrite IH]; reflexivity).
    rewrite S1. apply map_ext. intros x. unfold simple_yz_init, simple_init, ci0_of. cbn [c0 c1 c2]. rewrite bmx0, bmx1, bmx2, N, Eq. f_equal. lia. }
  rewrite E. split; assumption.
Qed.
End Geom.
