(** Proofs about the CUDA particle store. *)
From Coq Require Import Permutation Sorted.
From Verif Require Import Base Arr BalanceMoveProofs CollisionProofs CudaPrtModel CudaPrtSpec.
Local Open Scope Z_scope.

(** ** Lists *)




Lemma flat_zranges (h : Z -> Z) lo hi : lo <= hi -> (forall b, lo <= b < hi -> h b <= h (b + 1)) ->
  flat_map (fun b => zrange (h b) (h (b + 1))) (zrange lo hi) = zrange (h lo) (h hi) /\ h lo <= h hi.
Proof.
  intros H M. remember (Z.to_nat (hi - lo)) as n eqn:En. revert lo H M En.
  induction n as [|n IH]; intros lo H M En.
  - replace hi with lo by lia. rewrite zrange_empty by lia. rewrite zrange_empty by lia. split; [reflexivity|lia].
  - rewrite zrange_cons by lia. cbn [flat_map].
    destruct (IH (lo + 1) ltac:(lia) ltac:(intros; apply M; lia) ltac:(lia)) as [E L].
    rewrite E. specialize (M lo ltac:(lia)). rewrite <- zrange_app by lia. split; [reflexivity|lia].
Qed.

Lemma map_flat_map {A B C} (f : B -> C) (h : A -> list B) l :
  map f (flat_map h l) = flat_map (fun a => map f (h a)) l.
Proof. induction l as [|a l IH]; cbn; [reflexivity|]. rewrite map_app, IH. reflexivity. Qed.

Lemma flat_map_ext_in' {A B} (f h : A -> list B) l : (forall a, In a l -> f a = h a) ->
  flat_map f l = flat_map h l.
Proof.
  induction l as [|a l IH]; cbn; intros H; [reflexivity|].
  rewrite H by (now left). rewrite IH; [reflexivity|]. intros; apply H; now right.
Qed.

Lemma map_by_index {A B} (l : list A) (h : Z -> B) (f : A -> B) :
  (forall i x, aget l i = Some x -> h i = f x) -> map h (zrange 0 (alen l)) = map f l.
Proof.
  intros H. apply alist_ext.
  - rewrite !alen_map, alen_zrange by apply alen_nonneg. lia.
  - intros i _. rewrite !aget_map, aget_zrange. destruct (aget l i) as [x|] eqn:E.
    + pose proof (aget_bounds _ _ _ E) as B0. replace ((0 <=? i) && (i <? alen l - 0)) with true by (symmetry; lia).
      cbn. rewrite (H i x E). reflexivity.
    + destruct ((0 <=? i) && (i <? alen l - 0)) eqn:R; [|reflexivity].
      destruct (aget_some l i ltac:(lia)) as [x Ex]. congruence.
Qed.

Lemma vresize_length {A} (d : A) n l : 0 <= n -> alen (vresize d n l) = n.
Proof.
  intros H. unfold vresize. rewrite alen_app, alen_repeat. unfold alen. rewrite firstn_length. lia.
Qed.

Lemma vresize_id {A} (d : A) l : vresize d (alen l) l = l.
Proof.
  unfold vresize, alen. rewrite Nat2Z.id, firstn_all, Nat.sub_diag. apply app_nil_r.
Qed.

Lemma nth_error_firstn' {A} (l : list A) n k : (k < n)%nat -> nth_error (firstn n l) k = nth_error l k.
Proof.
  revert n k. induction l as [|x l IH]; intros [|n] [|k] H; cbn; try lia; try reflexivity. apply IH. lia.
Qed.

Lemma aget_firstn {A} (l : list A) n i : i < n -> aget (firstn (Z.to_nat n) l) i = aget l i.
Proof.
  unfold aget. intros H. destruct (Z.ltb_spec i 0); [reflexivity|]. apply nth_error_firstn'. lia.
Qed.

Lemma alen_firstn {A} (l : list A) n : 0 <= n <= alen l -> alen (firstn (Z.to_nat n) l) = n.
Proof. unfold alen. intros H. rewrite firstn_length. lia. Qed.

Lemma vresize_get {A} (d : A) n l i : 0 <= i < n -> i < alen l -> aget (vresize d n l) i = aget l i.
Proof.
  intros H1 H2. unfold vresize. rewrite aget_app.
  assert (L : i < alen (firstn (Z.to_nat n) l)) by (unfold alen in *; rewrite firstn_length; lia).
  destruct (Z.ltb_spec i (alen (firstn (Z.to_nat n) l))); [|lia]. apply aget_firstn. lia.
Qed.

Lemma all_some_ext {A B} (l : list A) (h : A -> option B) (f : A -> B) :
  (forall a, In a l -> h a = Some (f a)) -> all_some (map h l) = Some (map f l).
Proof.
  intros H. rewrite <- (all_some_map (map f l)), map_map. f_equal. apply map_ext_in. exact H.
Qed.

(** ** Stores of kernels *)

Lemma run_writes_app {A} (w1 w2 : list (Z * A)) l :
  run_writes (w1 ++ w2) l = match run_writes w1 l with Some l' => run_writes w2 l' | None => None end.
Proof.
  revert l. induction w1 as [|[i x] w1 IH]; intros l; cbn; [reflexivity|].
  destruct (aset l i x); [apply IH|reflexivity].
Qed.

Lemma run_writes_get {A} (ws : list (Z * A)) l : NoDup (map fst ws) ->
  (forall w, In w ws -> 0 <= fst w < alen l) ->
  exists l', run_writes ws l = Some l' /\ alen l' = alen l /\
    (forall i x, In (i, x) ws -> aget l' i = Some x) /\
    (forall i, ~ In i (map fst ws) -> aget l' i = aget l i).
Proof.
  revert l. induction ws as [|[i x] ws IH]; intros l ND R.
  - exists l. cbn. repeat split; try reflexivity. intros ? ? [].
  - cbn [run_writes]. destruct (aset_some l i x (R (i, x) (or_introl eq_refl))) as [l1 [E1 [L1 G1]]]. rewrite E1.
    inversion ND as [|? ? NI ND']; subst. cbn [map fst] in *.
    destruct (IH l1 ND' ltac:(intros w Hw; rewrite L1; apply R; now right)) as [l' [E [L [G H]]]].
    exists l'. split; [exact E|]. split; [lia|]. split.
    + intros j y [Hj|Hj]; [|apply G; exact Hj]. injection Hj as <- <-. rewrite H by exact NI.
      rewrite G1, Z.eqb_refl. reflexivity.
    + intros j Hj. cbn in Hj. rewrite H by tauto. rewrite G1. destruct (Z.eqb_spec j i); [subst; tauto|reflexivity].
Qed.

Theorem run_writes_perm {A} (ws ws' : list (Z * A)) l : NoDup (map fst ws) -> Permutation ws ws' ->
  run_writes ws' l = run_writes ws l.
Proof.
  intros ND Pm. destruct (Forall_Exists_dec (fun w => 0 <= fst w < alen l)
     ltac:(intros w; destruct (Z_le_dec 0 (fst w)), (Z_lt_dec (fst w) (alen l)); [left; lia|right; lia..]) ws) as [F|E].
  - rewrite Forall_forall in F.
    destruct (run_writes_get ws l ND F) as [l1 [E1 [L1 [G1 H1]]]].
    assert (ND' : NoDup (map fst ws')) by (eapply Permutation_NoDup; [apply Permutation_map, Pm|exact ND]).
    destruct (run_writes_get ws' l ND' ltac:(intros w Hw; apply F; eapply Permutation_in; [symmetry; exact Pm|exact Hw]))
      as [l2 [E2 [L2 [G2 H2]]]].
    rewrite E1, E2. f_equal. apply alist_ext; [congruence|]. intros i _.
    destruct (in_dec Z.eq_dec i (map fst ws)) as [I1|I1].
    + apply in_map_iff in I1. destruct I1 as [[j x] [Ej Ij]]. cbn in Ej. subst j.
      rewrite (G1 i x Ij). apply G2. eapply Permutation_in; eassumption.
    + rewrite H1 by exact I1. apply H2. intros I2. apply I1.
      eapply Permutation_in; [apply Permutation_map; symmetry; exact Pm|exact I2].
  - assert (N : forall v l, Exists (fun w : Z * A => ~ 0 <= fst w < alen l) v -> run_writes v l = None).
    { clear. induction v as [|[i x] v IH]; intros l E; [inversion E|]. cbn.
      destruct (aset l i x) as [l'|] eqn:A1; [|reflexivity]. inversion E as [? ? B|? ? B]; subst.
      - cbn in B. apply aset_bounds in A1. lia.
      - apply IH. destruct (aset_get _ _ _ _ A1) as [L _]. rewrite L. exact B. }
    rewrite (N ws l E). apply N. rewrite Exists_exists in *. destruct E as [w [I1 B]]. exists w. split; [|exact B].
    eapply Permutation_in; eassumption.
Qed.

Lemma map_fst_combine' {A B} (l : list A) (m : list B) : length l = length m -> map fst (combine l m) = l.
Proof. revert m. induction l as [|x l IH]; intros [|y m] H; cbn in *; try lia; [reflexivity|]. f_equal. apply IH. lia. Qed.

Lemma map_snd_combine' {A B} (l : list A) (m : list B) : length l = length m -> map snd (combine l m) = m.
Proof. revert m. induction l as [|x l IH]; intros [|y m] H; cbn in *; try lia; [reflexivity|]. f_equal. apply IH. lia. Qed.

(** Stores given by a function of the place. *)
Lemma run_writes_fun {A} (h : Z -> A) lo hi l : 0 <= lo <= hi -> hi <= alen l ->
  exists l', run_writes (map (fun i => (i, h i)) (zrange lo hi)) l = Some l' /\ alen l' = alen l /\
    forall i, aget l' i = if (lo <=? i) && (i <? hi) then Some (h i) else aget l i.
Proof.
  intros H1 H2. destruct (run_writes_get (map (fun i => (i, h i)) (zrange lo hi)) l) as [l' [E [L [G K]]]].
  - rewrite map_map. cbn. rewrite map_id. apply NoDup_zrange.
  - intros w Hw. apply in_map_iff in Hw. destruct Hw as [i [<- Hi]]. apply in_zrange in Hi. cbn. lia.
  - exists l'. split; [exact E|]. split; [exact L|]. intros i.
    destruct ((lo <=? i) && (i <? hi)) eqn:R.
    + apply G. apply in_map_iff. exists i. split; [reflexivity|]. apply in_zrange. lia.
    + apply K. rewrite map_map. cbn. rewrite map_id. rewrite in_zrange. lia.
Qed.

(** Stores of the elements of a list in order into a vector of its length. *)
Lemma run_writes_list {A B} (L : list A) (h : Z -> Z * B) (f : A -> B) l :
  alen l = alen L -> (forall i x, aget L i = Some x -> h i = (i, f x)) ->
  run_writes (map h (zrange 0 (alen L))) l = Some (map f L).
Proof.
  intros EL H.
  destruct (aget L 0) as [x0|] eqn:E0.
  2:{ assert (L = []) as -> by (destruct L; [reflexivity|discriminate]). cbn.
      destruct l; [reflexivity|]. unfold alen in EL. cbn in EL. lia. }
  set (hh := fun i => match aget L i with Some x => f x | None => f x0 end).
  assert (Em : map h (zrange 0 (alen L)) = map (fun i => (i, hh i)) (zrange 0 (alen L))).
  { apply map_ext_in. intros i Hi. apply in_zrange in Hi. destruct (aget_some L i Hi) as [x Ex].
    unfold hh. rewrite Ex. apply H. exact Ex. }
  rewrite Em. destruct (run_writes_fun hh 0 (alen L) l) as [l' [E [La G]]]; [pose proof (alen_nonneg L); lia|lia|].
  rewrite E. f_equal. apply alist_ext; [rewrite alen_map; lia|]. intros i _. rewrite G, aget_map.
  destruct (aget L i) as [x|] eqn:Ex.
  - pose proof (aget_bounds _ _ _ Ex). replace ((0 <=? i) && (i <? alen L)) with true by (symmetry; lia).
    unfold hh. rewrite Ex. reflexivity.
  - destruct ((0 <=? i) && (i <? alen L)) eqn:R; [destruct (aget_some L i ltac:(lia)); congruence|].
    cbn. apply aget_none. lia.
Qed.

(** ** Sorting by key *)

Section Sort.
Context {A : Type}.

Definition ksorted (l : list (Z * A)) : Prop := StronglySorted (fun a b => fst a <= fst b) l.

Lemma insert_perm x (l : list (Z * A)) : Permutation (insert_by_key x l) (x :: l).
Proof.
  induction l as [|y l IH]; cbn; [reflexivity|]. destruct (fst x <=? fst y); [reflexivity|].
  rewrite IH. apply perm_swap.
Qed.

Lemma sort_perm (l : list (Z * A)) : Permutation (sort_by_key l) l.
Proof. induction l as [|x l IH]; cbn; [reflexivity|]. rewrite insert_perm, IH. reflexivity. Qed.

Lemma insert_sorted x (l : list (Z * A)) : ksorted l -> ksorted (insert_by_key x l).
Proof.
  unfold ksorted. induction 1 as [|y l S IH F]; cbn; [repeat constructor|].
  destruct (Z.leb_spec (fst x) (fst y)).
  - constructor; [constructor; assumption|]. constructor; [exact H|].
    eapply Forall_impl; [|exact F]. cbn. intros; lia.
  - constructor; [exact IH|]. eapply Permutation_Forall; [symmetry; apply insert_perm|].
    constructor; [lia|exact F].
Qed.

Lemma sort_sorted (l : list (Z * A)) : ksorted (sort_by_key l).
Proof. induction l as [|x l IH]; cbn; [constructor|]. apply insert_sorted, IH. Qed.

(** Sorting does not look at the values. *)
Lemma sort_map {B} (f : A -> B) (l : list (Z * A)) :
  sort_by_key (map (fun w => (fst w, f (snd w))) l) = map (fun w => (fst w, f (snd w))) (sort_by_key l).
Proof.
  unfold sort_by_key. induction l as [|x l IH]; cbn; [reflexivity|]. rewrite IH.
  generalize (fold_right insert_by_key [] l) as m.
  induction m as [|y m IHm]; cbn; [reflexivity|]. destruct (fst x <=? fst y); [reflexivity|].
  cbn. f_equal. exact IHm.
Qed.

(** How many keys are below [b]. *)
Definition cnt (l : list (Z * A)) (b : Z) : Z := alen (filter (fun w => fst w <? b) l).

Lemma filter_all {T} (f : T -> bool) (l : list T) : (forall x, In x l -> f x = true) -> filter f l = l.
Proof.
  induction l as [|x l IH]; cbn; intros H; [reflexivity|]. rewrite H by (now left). f_equal. apply IH. auto.
Qed.

Lemma filter_none {T} (f : T -> bool) (l : list T) : (forall x, In x l -> f x = false) -> filter f l = [].
Proof.
  induction l as [|x l IH]; cbn; intros H; [reflexivity|]. rewrite H by (now left). apply IH. auto.
Qed.

Lemma ksorted_split (l : list (Z * A)) b : ksorted l ->
  l = filter (fun w => fst w <? b) l ++ filter (fun w => b <=? fst w) l.
Proof.
  unfold ksorted. induction 1 as [|x l S IH F]; cbn; [reflexivity|].
  destruct (Z.ltb_spec (fst x) b); destruct (Z.leb_spec b (fst x)); try lia.
  - cbn. f_equal. exact IH.
  - rewrite Forall_forall in F. rewrite (filter_none (fun w => fst w <? b) l) by (intros w Hw; specialize (F w Hw); lia).
    cbn. f_equal. symmetry. apply filter_all. intros w Hw. specialize (F w Hw). lia.
Qed.

Lemma cnt_bounds (l : list (Z * A)) b : 0 <= cnt l b <= alen l.
Proof.
  unfold cnt. split; [apply alen_nonneg|]. unfold alen. induction l as [|x l IH]; cbn; [lia|].
  destruct (fst x <? b); cbn in *; lia.
Qed.

Lemma cnt_mono (l : list (Z * A)) b b' : b <= b' -> cnt l b <= cnt l b'.
Proof.
  intros H. unfold cnt, alen. induction l as [|x l IH]; cbn; [lia|].
  destruct (Z.ltb_spec (fst x) b), (Z.ltb_spec (fst x) b'); cbn in *; lia.
Qed.

Lemma cnt_zero (l : list (Z * A)) b : (forall w, In w l -> b <= fst w) -> cnt l b = 0.
Proof. intros H. unfold cnt. rewrite filter_none; [reflexivity|]. intros w Hw. specialize (H w Hw). lia. Qed.

Lemma cnt_all (l : list (Z * A)) b : (forall w, In w l -> fst w < b) -> cnt l b = alen l.
Proof. intros H. unfold cnt. rewrite filter_all; [reflexivity|]. intros w Hw. specialize (H w Hw). lia. Qed.

Lemma cnt_perm (l l' : list (Z * A)) b : Permutation l l' -> cnt l b = cnt l' b.
Proof.
  intros Pm. unfold cnt, alen. induction Pm; cbn; try reflexivity.
  - destruct (fst x <? b); cbn; lia.
  - destruct (fst x <? b), (fst y <? b); cbn; lia.
  - lia.
Qed.

(** Where the keys below [b] are. *)
Lemma cnt_lt (l : list (Z * A)) b i w : ksorted l -> aget l i = Some w -> (i < cnt l b <-> fst w < b).
Proof.
  intros S E. rewrite (ksorted_split l b S) in E. rewrite aget_app in E. fold (cnt l b) in E.
  destruct (Z.ltb_spec i (cnt l b)).
  - apply aget_In, filter_In in E. lia.
  - apply aget_In, filter_In in E. lia.
Qed.

Lemma cnt_key (l : list (Z * A)) b i w : ksorted l -> aget l i = Some w ->
  (cnt l b <= i < cnt l (b + 1) <-> fst w = b).
Proof.
  intros S E. pose proof (cnt_lt l b i w S E). pose proof (cnt_lt l (b + 1) i w S E). lia.
Qed.

Lemma cnt_succ (l : list (Z * A)) b : cnt l (b + 1) = cnt l b + alen (filter (fun w => fst w =? b) l).
Proof.
  unfold cnt, alen. induction l as [|x l IH]; cbn [filter]; [reflexivity|].
  destruct (Z.ltb_spec (fst x) (b + 1)), (Z.ltb_spec (fst x) b), (Z.eqb_spec (fst x) b); cbn [length]; lia.
Qed.

(** The slots of a key hold the elements with the key. *)
Lemma slice_key (l : list (Z * A)) b : ksorted l -> forall i, 0 <= i < cnt l (b + 1) - cnt l b ->
  aget l (cnt l b + i) = aget (filter (fun w => fst w =? b) l) i.
Proof.
  intros S i Hi. rewrite (ksorted_split l b S) at 1. rewrite aget_app. fold (cnt l b).
  destruct (Z.ltb_spec (cnt l b + i) (cnt l b)); [lia|]. replace (cnt l b + i - cnt l b) with i by lia.
  rewrite cnt_succ in Hi.
  assert (S2 : ksorted (filter (fun w => b <=? fst w) l)).
  { clear - S. unfold ksorted in *. induction S as [|x l S IH F]; cbn; [constructor|].
    destruct (b <=? fst x); [|exact IH]. constructor; [exact IH|]. rewrite Forall_forall in *. intros w Hw.
    apply filter_In in Hw. apply F. tauto. }
  rewrite (ksorted_split _ (b + 1) S2). rewrite aget_app.
  assert (E : filter (fun w => fst w <? b + 1) (filter (fun w => b <=? fst w) l) = filter (fun w => fst w =? b) l).
  { clear. induction l as [|x l IH]; cbn; [reflexivity|].
    destruct (Z.leb_spec b (fst x)), (Z.eqb_spec (fst x) b); cbn; try lia;
      try (destruct (Z.ltb_spec (fst x) (b + 1)); try lia); try (f_equal; exact IH); exact IH. }
  rewrite E. destruct (Z.ltb_spec i (alen (filter (fun w => fst w =? b) l))); [reflexivity|lia].
Qed.

Lemma upper_bound_cnt (l : list (Z * A)) b : ksorted l -> upper_bound (map fst l) b = cnt l (b + 1).
Proof.
  unfold ksorted. induction 1 as [|x l S IH F]; cbn [upper_bound map]; [reflexivity|].
  unfold cnt in *. cbn [filter]. destruct (Z.leb_spec (fst x) b), (Z.ltb_spec (fst x) (b + 1)); try lia.
  - rewrite alen_cons. lia.
  - rewrite Forall_forall in F. rewrite filter_none by (intros w Hw; specialize (F w Hw); lia). reflexivity.
Qed.

End Sort.

(** ** Blocks *)

Lemma u32_pos z : 0 <= z < 2 ^ 32 -> u32 z = z.
Proof. intros H. unfold u32. apply Z.mod_small. exact H. Qed.

Lemma u32_neg z : - 2 ^ 31 <= z < 0 -> u32 z = z + 2 ^ 32.
Proof. intros H. unfold u32. symmetry. apply (Z.mod_unique_pos _ _ (-1)); lia. Qed.

Section Geom.
Context (g : geom) (ok : geom_ok g).

Let np := g_np g.
Let nb := n_blocks g.
Let nbp := n_blocks_per_patch g.

Lemma nblk_pos d : 0 < nblk g d.
Proof.
  unfold nblk. destruct (go_div g ok d) as [q E]. pose proof (go_bs g ok d). pose proof (go_ld g ok d) as L.
  rewrite E in *. rewrite Z.div_mul by lia. nia.
Qed.

Lemma nblk_mul d : get3 (g_bs g) d * nblk g d = get3 (g_ldims g) d.
Proof.
  unfold nblk. destruct (go_div g ok d) as [q E]. pose proof (go_bs g ok d).
  rewrite E at 1 2. rewrite Z.div_mul by lia. lia.
Qed.

Lemma b_mx_nblk d : get3 (b_mx g) d = nblk g d.
Proof.
  unfold b_mx, nblk. destruct d; cbn [get3 c0 c1 c2]; try reflexivity.
  destruct (g_yz g) eqn:E; [|reflexivity]. rewrite (go_yz g ok E). symmetry. apply Z.div_same.
  pose proof (go_bs g ok D0) as B. cbn in B. lia.
Qed.

Lemma b_mx_eq : b_mx g = v3 (nblk g D0) (nblk g D1) (nblk g D2).
Proof. apply v3_ext. intros d. rewrite b_mx_nblk. destruct d; reflexivity. Qed.

Lemma nbp_eq : nbp = nblk g D0 * nblk g D1 * nblk g D2.
Proof. unfold nbp, n_blocks_per_patch. rewrite b_mx_eq. reflexivity. Qed.

Lemma nbp_pos : 0 < nbp.
Proof.
  rewrite nbp_eq. pose proof (nblk_pos D0). pose proof (nblk_pos D1). pose proof (nblk_pos D2). nia.
Qed.

Lemma nb_eq : nb = np * nbp.
Proof. reflexivity. Qed.

Lemma nb_nonneg : 0 <= nb.
Proof. rewrite nb_eq. pose proof nbp_pos. pose proof (go_np g ok). unfold np. nia. Qed.

Lemma nb_int : nb < 2 ^ 31.
Proof. rewrite nb_eq, nbp_eq. exact (go_int g ok). Qed.

Lemma block_number_no b p : block_number g b p = block_no g p b.
Proof. unfold block_number, block_no. rewrite b_mx_eq. cbn [c0 c1 c2]. lia. Qed.

Lemma block_no_range p b : 0 <= p < np -> (forall d, 0 <= get3 b d < nblk g d) ->
  p * nbp <= block_no g p b < (p + 1) * nbp.
Proof.
  intros Hp Hb. rewrite nbp_eq. unfold block_no.
  pose proof (Hb D0) as H0. pose proof (Hb D1) as H1. pose proof (Hb D2) as H2. cbn [get3] in *.
  generalize dependent (nblk g D0). generalize dependent (nblk g D1). generalize dependent (nblk g D2).
  intros n2 H2 n1 H1 n0 H0. clear Hb.
  assert (A : 0 <= c1 b + n1 * c2 b < n1 * n2) by nia.
  assert (B : 0 <= c0 b + n0 * (c1 b + n1 * c2 b) < n0 * (n1 * n2)) by nia.
  nia.
Qed.

Lemma block_no_lt p b : 0 <= p < np -> (forall d, 0 <= get3 b d < nblk g d) -> 0 <= block_no g p b < nb.
Proof.
  intros Hp Hb. pose proof (block_no_range p b Hp Hb). rewrite nb_eq. pose proof nbp_pos. nia.
Qed.

Lemma block_no_patch p b : 0 <= p < np -> (forall d, 0 <= get3 b d < nblk g d) -> block_no g p b / nbp = p.
Proof.
  intros Hp Hb. pose proof (block_no_range p b Hp Hb). symmetry.
  apply (Z.div_unique _ _ _ (block_no g p b - p * nbp)); lia.
Qed.

Lemma block_no_inj p b p' b' : 0 <= p < np -> 0 <= p' < np ->
  (forall d, 0 <= get3 b d < nblk g d) -> (forall d, 0 <= get3 b' d < nblk g d) ->
  block_no g p b = block_no g p' b' -> p = p' /\ b = b'.
Proof.
  intros Hp Hp' Hb Hb' E.
  assert (p = p') as <- by (rewrite <- (block_no_patch p b), <- (block_no_patch p' b'), E by assumption; reflexivity).
  split; [reflexivity|]. unfold block_no in E.
  pose proof (Hb D0) as H0. pose proof (Hb D1) as H1.
  pose proof (Hb' D0) as H0'. pose proof (Hb' D1) as H1'. cbn [get3] in *.
  assert (U : forall n a a' q q', 0 <= a < n -> 0 <= a' < n -> a + n * q = a' + n * q' -> a = a' /\ q = q').
  { clear. intros n a a' q q' A A' E. assert (q = q'); [|subst; lia].
    assert (n * (q - q') = a' - a) by lia. assert (- n < n * (q - q') < n) by lia.
    assert (-1 < q - q' < 1) by nia. lia. }
  apply U in E; [|lia|lia]. destruct E as [E0 E]. apply U in E; [|lia|lia]. destruct E as [E1 E].
  apply v3_ext. intros []; cbn [get3]; lia.
Qed.

(** The block of a cell. *)
Definition blkpos (c : V3 Z) : V3 Z := gen3 (fun d => get3 c d / get3 (g_bs g) d).
Definition key (p : Z) (c : V3 Z) : Z := block_no g p (blkpos c).

Lemma blkpos_range c : cell_in g c -> forall d, 0 <= get3 (blkpos c) d < nblk g d.
Proof.
  intros H d. unfold blkpos. rewrite get3_gen3. specialize (H d). pose proof (nblk_mul d) as M. pose proof (go_bs g ok d).
  split; [apply Z.div_pos; lia|]. apply Z.div_lt_upper_bound; lia.
Qed.

Lemma cell_inb_spec c : cell_inb g c = true <-> cell_in g c.
Proof.
  unfold cell_inb, cell_in. rewrite forallb_forall. split; intros H d.
  - specialize (H d ltac:(destruct d; cbn; tauto)). lia.
  - intros _. specialize (H d). lia.
Qed.

Lemma in_blockb_spec c b : in_blockb g c b = true <-> blkpos c = b.
Proof.
  unfold in_blockb. rewrite forallb_forall. split.
  - intros H. apply v3_ext. intros d. unfold blkpos. rewrite get3_gen3. pose proof (go_bs g ok d).
    specialize (H d ltac:(destruct d; cbn; tauto)). symmetry.
    apply (Z.div_unique _ _ _ (get3 c d - get3 (g_bs g) d * get3 b d)); lia.
  - intros <- d _. unfold blkpos. rewrite get3_gen3. pose proof (go_bs g ok d).
    pose proof (Z.div_mod (get3 c d) (get3 (g_bs g) d) ltac:(lia)) as E.
    pose proof (Z.mod_pos_bound (get3 c d) (get3 (g_bs g) d) ltac:(lia)). lia.
Qed.

Lemma key_range p c : 0 <= p < np -> cell_in g c -> 0 <= key p c < nb.
Proof. intros Hp H. apply block_no_lt; [exact Hp|]. apply blkpos_range, H. Qed.

Lemma key_patch p c : 0 <= p < np -> cell_in g c -> key p c / nbp = p.
Proof. intros Hp H. apply block_no_patch; [exact Hp|]. apply blkpos_range, H. Qed.

Lemma u32_in c d : cell_in g c -> u32 (get3 c d) = get3 c d.
Proof. intros H. apply u32_pos. specialize (H d). pose proof (go_ld g ok d). lia. Qed.

Lemma u32_blkpos c : cell_in g c -> gen3 (fun d => u32 (get3 c d) / get3 (g_bs g) d) = blkpos c.
Proof. intros H. unfold blkpos. apply v3_ext. intros d. rewrite !get3_gen3, u32_in by exact H. reflexivity. Qed.

Lemma block_index_in p c : cell_in g c -> block_index g c p = key p c.
Proof.
  intros H. unfold block_index. rewrite u32_blkpos by exact H. unfold key. rewrite <- block_number_no.
  pose proof (blkpos_range c H) as R. pose proof (R D0) as R0. pose proof (R D1) as R1. pose proof (R D2) as R2.
  rewrite b_mx_eq. cbn [c0 c1 c2 get3] in *.
  destruct (Z.leb_spec (nblk g D0) (c0 (blkpos c))), (Z.leb_spec (nblk g D1) (c1 (blkpos c))),
    (Z.leb_spec (nblk g D2) (c2 (blkpos c))); try lia. reflexivity.
Qed.

Lemma valid_in p c : cell_in g c -> valid_block_index g (blkpos c) p = Some (key p c).
Proof.
  intros H. unfold valid_block_index, key. rewrite <- block_number_no.
  pose proof (blkpos_range c H) as R. pose proof (R D0) as R0. pose proof (R D1) as R1. pose proof (R D2) as R2.
  rewrite b_mx_eq. cbn [c0 c1 c2 get3] in *.
  replace (_ && _) with true by (symmetry; lia). reflexivity.
Qed.

Lemma dev_index_in p c : cell_in g c -> dev_block_index g c p = Some (key p c).
Proof. intros H. unfold dev_block_index. rewrite u32_blkpos by exact H. apply valid_in, H. Qed.

(** Cells of C ints; in 2-d inside along x. *)
Definition reachable (c : V3 Z) : Prop :=
  (forall d, - 2 ^ 31 <= get3 c d < 2 ^ 31) /\ (g_yz g = true -> 0 <= c0 c < c0 (g_ldims g)).

Lemma u32_blk_beyond c d : (forall d, - 2 ^ 31 <= get3 c d < 2 ^ 31) ->
  (nblk g d <= u32 (get3 c d) / get3 (g_bs g) d <-> ~ 0 <= get3 c d < get3 (g_ldims g) d).
Proof.
  intros I. specialize (I d). pose proof (nblk_mul d) as M. pose proof (go_bs g ok d) as B. pose proof (go_ld g ok d) as L.
  destruct (Z_lt_dec (get3 c d) 0) as [N|N].
  - rewrite u32_neg by lia. split; [lia|]. intros _. apply Z.div_le_lower_bound; lia.
  - rewrite u32_pos by lia. split.
    + intros H. assert (get3 (g_bs g) d * (get3 c d / get3 (g_bs g) d) <= get3 c d) by (apply Z.mul_div_le; lia). nia.
    + intros H. apply Z.div_le_lower_bound; lia.
Qed.

Lemma u32_cell_beyond c d : (forall d, - 2 ^ 31 <= get3 c d < 2 ^ 31) ->
  (get3 (g_ldims g) d <= u32 (get3 c d) <-> ~ 0 <= get3 c d < get3 (g_ldims g) d).
Proof.
  intros I. specialize (I d). pose proof (go_ld g ok d) as L.
  destruct (Z_lt_dec (get3 c d) 0) as [N|N]; [rewrite u32_neg by lia|rewrite u32_pos by lia]; lia.
Qed.

Lemma pushed_index_ok p c : reachable c ->
  pushed_index g c p = Some (if cell_inb g c then key p c else nb + p).
Proof.
  intros [I X]. unfold pushed_index.
  assert (W : cell_inb g c = true <-> (0 <= c0 c < c0 (g_ldims g)) /\ (0 <= c1 c < c1 (g_ldims g)) /\ (0 <= c2 c < c2 (g_ldims g))).
  { rewrite cell_inb_spec. unfold cell_in. split; [intros H; exact (conj (H D0) (conj (H D1) (H D2)))|].
    intros [H0 [H1 H2]] []; assumption. }
  destruct (g_yz g) eqn:Y.
  - specialize (X eq_refl). f_equal. unfold block_no_shift.
    pose proof (u32_blk_beyond c D1 I) as B1. pose proof (u32_blk_beyond c D2 I) as B2. cbn [get3] in B1, B2.
    pose proof (b_mx_nblk D1) as M1. pose proof (b_mx_nblk D2) as M2. cbn [get3] in M1, M2. rewrite M1, M2.
    destruct (cell_inb g c) eqn:E.
    + destruct (Z.leb_spec (nblk g D1) (u32 (c1 c) / c1 (g_bs g))); [lia|].
      destruct (Z.leb_spec (nblk g D2) (u32 (c2 c) / c2 (g_bs g))); [lia|]. cbn [orb].
      apply cell_inb_spec in E. unfold key, block_no, blkpos. cbn [gen3 c0 c1 c2 get3].
      pose proof (u32_in c D1 E) as U1. pose proof (u32_in c D2 E) as U2. cbn [get3] in U1, U2. rewrite U1, U2.
      pose proof (b_mx_nblk D0) as M0. unfold b_mx in M0. rewrite Y in M0. cbn [get3 c0] in M0. rewrite <- M0.
      rewrite (go_yz g ok Y) in X. rewrite (Z.div_small (c0 c)) by lia. lia.
    + destruct (Z.leb_spec (nblk g D1) (u32 (c1 c) / c1 (g_bs g))); [reflexivity|].
      destruct (Z.leb_spec (nblk g D2) (u32 (c2 c) / c2 (g_bs g))); [reflexivity|]. exfalso.
      assert (false = true) by (apply W; lia). discriminate.
  - unfold block_from_cell.
    pose proof (u32_cell_beyond c D0 I) as B0. pose proof (u32_cell_beyond c D1 I) as B1. pose proof (u32_cell_beyond c D2 I) as B2.
    cbn [get3] in B0, B1, B2.
    destruct (cell_inb g c) eqn:E.
    + destruct (Z.leb_spec (c0 (g_ldims g)) (u32 (c0 c))); [lia|].
      destruct (Z.leb_spec (c1 (g_ldims g)) (u32 (c1 c))); [lia|].
      destruct (Z.leb_spec (c2 (g_ldims g)) (u32 (c2 c))); [lia|]. cbn [orb].
      apply cell_inb_spec in E. exact (valid_in p c E).
    + destruct (Z.leb_spec (c0 (g_ldims g)) (u32 (c0 c))); [reflexivity|].
      destruct (Z.leb_spec (c1 (g_ldims g)) (u32 (c1 c))); [reflexivity|].
      destruct (Z.leb_spec (c2 (g_ldims g)) (u32 (c2 c))); [reflexivity|]. exfalso.
      assert (false = true) by (apply W; lia). discriminate.
Qed.

End Geom.

(** ** The store *)

Section StoreProofs.
Context {P : Type} (cpos : P -> V3 Z) (dP : P) (moved : P -> P) (g : geom) (ok : geom_ok g).

Let np := g_np g.
Let nb := n_blocks g.
Let nbp := n_blocks_per_patch g.

Lemma NBnn : 0 <= nb.
Proof. apply nb_nonneg, ok. Qed.

Notation keyed := (Z * P)%type.

(** A particle with the number of the block it is in. *)
Definition good (w : keyed) : Prop :=
  exists p, 0 <= p < np /\ cell_in g (cpos (snd w)) /\ fst w = key g p (cpos (snd w)).

Definition untag (L : list keyed) : list keyed := map (fun w => (fst w / nbp, snd w)) L.

Record inv (c : cm P) (L : list keyed) : Prop := {
  i_sorted : ksorted L;
  i_good : forall w, In w L -> good w;
  i_n : c_n c = alen L;
  i_off : c_off c = map (cnt L) (zrange 0 (nb + 1));
  i_slot : forall i w, aget L i = Some w ->
    if c_re c then exists j, aget (c_id c) i = Some j /\ aget (c_st c) j = Some (snd w)
    else aget (c_st c) i = Some (snd w);
  i_tidy : c_re c = false \/ c_n c = 0 -> alen (c_st c) = c_n c /\ alen (c_idx c) = c_n c
}.

Lemma good_range w : good w -> 0 <= fst w < nb.
Proof. intros [p [Hp [H E]]]. rewrite E. apply key_range; assumption. Qed.

Lemma good_patch w : good w -> 0 <= fst w / nbp < np /\ cell_in g (cpos (snd w)) /\
  fst w = key g (fst w / nbp) (cpos (snd w)).
Proof.
  intros [p [Hp [H E]]]. assert (Ep : fst w / nbp = p) by (rewrite E; apply key_patch; assumption).
  rewrite Ep. auto.
Qed.

Lemma off_get c L : inv c L -> forall b, 0 <= b <= nb -> aget (c_off c) b = Some (cnt L b).
Proof.
  intros I b Hb. rewrite (i_off c L I), aget_map, aget_zrange.
  replace ((0 <=? b) && (b <? nb + 1 - 0)) with true by (symmetry; lia). reflexivity.
Qed.

Lemma off_len c L : inv c L -> alen (c_off c) = nb + 1.
Proof. intros I. rewrite (i_off c L I), alen_map, alen_zrange; pose proof NBnn; lia. Qed.

Lemma cnt_0 L : (forall w, In w L -> good w) -> cnt L 0 = 0.
Proof. intros H. apply cnt_zero. intros w Hw. apply H, good_range in Hw. lia. Qed.

Lemma cnt_nb L : (forall w, In w L -> good w) -> cnt L nb = alen L.
Proof. intros H. apply cnt_all. intros w Hw. apply H, good_range in Hw. lia. Qed.

Lemma slots_list {A B} (L : list A) (l : list B) (f : A -> B) : alen l = alen L ->
  (forall i w, aget L i = Some w -> aget l i = Some (f w)) -> l = map f L.
Proof.
  intros E H. apply alist_ext; [rewrite alen_map; lia|]. intros i Hi. rewrite aget_map.
  destruct (aget_some L i ltac:(lia)) as [w Ew]. rewrite Ew. cbn. apply H. exact Ew.
Qed.

Lemma st_plain c L : inv c L -> c_re c = false -> c_st c = map snd L.
Proof.
  intros I R. apply slots_list.
  - rewrite <- (i_n c L I). apply (i_tidy c L I). now left.
  - intros i w E. pose proof (i_slot c L I i w E) as H. rewrite R in H. exact H.
Qed.

Lemma inv_fresh : inv (fresh g) [].
Proof.
  constructor; cbn.
  - constructor.
  - intros w [].
  - reflexivity.
  - apply alist_ext.
    + rewrite alen_repeat, alen_map, alen_zrange; pose proof NBnn; lia.
    + intros i Hi. rewrite aget_repeat, aget_map, aget_zrange. rewrite alen_repeat in Hi.
      fold nb. replace ((0 <=? i) && (i <? Z.of_nat (Z.to_nat (nb + 1)))) with true by (symmetry; fold nb in Hi; lia).
      replace ((0 <=? i) && (i <? nb + 1 - 0)) with true by (symmetry; fold nb in Hi; lia). reflexivity.
  - intros i w E. destruct (aget_bounds _ _ _ E). unfold alen in *. cbn in *. lia.
  - intros _. split; reflexivity.
Qed.

(** ** Reordering *)

Lemma reorder_writes_ok {X} (L : list (Z * X)) (alt : list X) id :
  (forall i w, aget L i = Some w -> exists j, aget id i = Some j /\ aget alt j = Some (snd w)) ->
  exists ws, reorder_writes alt id (alen L) = Some ws /\ map fst ws = zrange 0 (alen L) /\
    forall l, alen l = alen L -> run_writes ws l = Some (map snd L).
Proof.
  intros H. unfold reorder_writes.
  destruct (aget L 0) as [w0|] eqn:E0.
  2:{ assert (L = []) as -> by (destruct L; [reflexivity|discriminate]). exists []. split; [reflexivity|]. split; [reflexivity|].
      intros [|x l] El; [reflexivity|]. unfold alen in El. cbn in El. lia. }
  set (h := fun i => (i, match aget L i with Some w => snd w | None => snd w0 end)).
  exists (map h (zrange 0 (alen L))). split.
  - apply all_some_ext. intros i Hi. apply in_zrange in Hi. destruct (aget_some L i Hi) as [w Ew].
    destruct (H i w Ew) as [j [Ej Ea]]. unfold h. rewrite Ej, Ea, Ew. reflexivity.
  - split; [rewrite map_map; unfold h; cbn; apply map_id|].
    intros l El. apply run_writes_list; [exact El|]. intros i w Ew. unfold h. rewrite Ew. reflexivity.
Qed.

Lemma reorder_inv c L : inv c L ->
  exists c', reorder dP c = Some c' /\ inv c' L /\ c_re c' = false.
Proof.
  intros I. unfold reorder. destruct (c_re c) eqn:R.
  2:{ exists c. auto. }
  unfold reorder_by_id. destruct (Z.eqb_spec (c_n c) 0) as [N|N].
  - eexists. split; [reflexivity|]. split; [|reflexivity].
    destruct (i_tidy c L I (or_intror N)) as [T1 T2].
    constructor; cbn [c_st c_alt c_idx c_id c_off c_n c_re].
    + apply (i_sorted c L I).
    + apply (i_good c L I).
    + apply (i_n c L I).
    + apply (i_off c L I).
    + intros i w E. apply aget_bounds in E. rewrite <- (i_n c L I) in E. lia.
    + auto.
  - cbn [resize swap_alt c_st c_alt c_idx c_id c_off c_n c_re].
    pose proof (alen_nonneg L) as NN. pose proof (i_n c L I) as In.
    destruct (reorder_writes_ok L (c_st c) (vresize 0 (c_n c) (c_id c))) as [ws [E [_ W]]].
    { intros i w Ew. pose proof (i_slot c L I i w Ew) as S. rewrite R in S. destruct S as [j [Ej Es]].
      exists j. split; [|exact Es]. rewrite vresize_get; [exact Ej| |].
      - apply aget_bounds in Ew. lia.
      - apply aget_bounds in Ej. lia. }
    rewrite <- In in E. rewrite E. rewrite W by (rewrite vresize_length; lia). cbn [option_map].
    eexists. split; [reflexivity|]. split; [|reflexivity].
    constructor; cbn [c_st c_alt c_idx c_id c_off c_n c_re].
    + apply (i_sorted c L I).
    + apply (i_good c L I).
    + apply In.
    + apply (i_off c L I).
    + intros i w Ew. rewrite aget_map, Ew. reflexivity.
    + intros _. rewrite alen_map, vresize_length by lia. lia.
Qed.

(** ** Block indices of the particles in order of patches *)

Lemma find_writes_ok (T : list keyed) off :
  ksorted T -> (forall w, In w T -> 0 <= fst w < np /\ cell_in g (cpos (snd w))) ->
  (forall p, 0 <= p <= np -> aget off (p * nbp) = Some (cnt T p)) ->
  exists ws, find_idx_writes cpos g (map snd T) off = Some ws /\ map fst ws = zrange 0 (alen T) /\
    forall i w, aget T i = Some w -> aget ws i = Some (i, key g (fst w) (cpos (snd w))).
Proof.
  intros S G O.
  destruct (aget T 0) as [w0|] eqn:E0.
  2:{ assert (T = []) as -> by (destruct T; [reflexivity|discriminate]). exists []. split.
      - unfold find_idx_writes. fold np nbp. cbn [map].
        rewrite (flat_map_ext_in' _ (fun _ => [])).
        + clear. induction (zrange 0 np) as [|x l IH]; [reflexivity|exact IH].
        + intros p Hp. apply in_zrange in Hp. rewrite O by lia. rewrite O by lia. reflexivity.
      - split; [reflexivity|]. intros i w E. apply aget_bounds in E. unfold alen in E. cbn in E. lia. }
  set (h := fun i => (i, match aget T i with Some w => key g (fst w) (cpos (snd w)) | None => 0 end)).
  exists (map h (zrange 0 (alen T))). split.
  - unfold find_idx_writes. fold np nbp.
    rewrite (flat_map_ext_in' _ (fun p => map (fun n => Some (h n)) (zrange (cnt T p) (cnt T (p + 1))))).
    + rewrite <- map_flat_map.
      destruct (flat_zranges (cnt T) 0 np) as [F _]; [pose proof (go_np g ok); unfold np; lia| |].
      { intros b Hb. apply cnt_mono. lia. }
      rewrite F. rewrite cnt_zero by (intros w Hw; apply G in Hw; lia).
      rewrite cnt_all by (intros w Hw; apply G in Hw; lia).
      rewrite <- (all_some_map (map h _)), map_map. reflexivity.
    + intros p Hp. apply in_zrange in Hp. rewrite O by lia. rewrite O by lia.
      replace (zrange (cnt T p) (cnt T (p + 1))) with (zrange (0 + cnt T p) (cnt T (p + 1) - cnt T p + cnt T p)) by (f_equal; lia).
      rewrite zrange_shift, map_map. apply map_ext_in. intros n Hn. apply in_zrange in Hn.
      replace (n + cnt T p) with (cnt T p + n) by lia.
      pose proof (cnt_bounds T p). pose proof (cnt_bounds T (p + 1)).
      destruct (aget_some T (cnt T p + n) ltac:(lia)) as [w Ew].
      rewrite aget_map, Ew. cbn [option_map].
      assert (Kw : fst w = p) by (apply (cnt_key T p _ w S Ew); lia).
      rewrite dev_index_in by (try exact ok; apply (G w), (aget_In _ _ _ Ew)). cbn [option_map].
      unfold h. rewrite Ew, Kw. reflexivity.
  - split; [rewrite map_map; unfold h; cbn; apply map_id|].
    intros i w Ew. rewrite aget_map, aget_zrange. pose proof (aget_bounds _ _ _ Ew).
    replace ((0 <=? i) && (i <? alen T - 0)) with true by (symmetry; lia). cbn [option_map].
    unfold h. replace (0 + i) with i by lia. rewrite Ew. reflexivity.
Qed.

Lemma find_ok c (T : list keyed) :
  ksorted T -> (forall w, In w T -> 0 <= fst w < np /\ cell_in g (cpos (snd w))) ->
  (forall p, 0 <= p <= np -> aget (c_off c) (p * nbp) = Some (cnt T p)) ->
  c_st c = map snd T -> c_n c = alen T ->
  find_indices_ids cpos g c = Some (mkcm (c_st c) (c_alt c)
    (map (fun w => key g (fst w) (cpos (snd w))) T) (zrange 0 (alen T)) (c_off c) (c_n c) (c_re c)).
Proof.
  intros S G O Es En. unfold find_indices_ids. rewrite Es.
  destruct (find_writes_ok T (c_off c) S G O) as [ws [E [F W]]]. rewrite E.
  assert (Lw : alen ws = alen T).
  { rewrite <- (alen_map fst ws), F, alen_zrange; pose proof (alen_nonneg T); lia. }
  assert (E1 : ws = map (fun i => match aget ws i with Some w => w | None => (0, 0) end) (zrange 0 (alen T))).
  { apply alist_ext; [rewrite alen_map, alen_zrange; pose proof (alen_nonneg T); lia|].
    intros i Hi. rewrite aget_map, aget_zrange. replace ((0 <=? i) && (i <? alen T - 0)) with true by (symmetry; lia).
    cbn [option_map]. replace (0 + i) with i by lia. destruct (aget_some ws i Hi) as [w Ew]. rewrite Ew. reflexivity. }
  assert (R1 : run_writes ws (vresize 0 (c_n c) (c_idx c)) = Some (map (fun w => key g (fst w) (cpos (snd w))) T)).
  { rewrite E1. apply run_writes_list.
    - rewrite vresize_length; [lia|rewrite En; apply alen_nonneg].
    - intros i w Ew. rewrite (W i w Ew). reflexivity. }
  rewrite R1.
  assert (R2 : run_writes (map (fun w : Z * Z => (fst w, fst w)) ws) (vresize 0 (c_n c) (c_id c)) = Some (zrange 0 (alen T))).
  { replace (map (fun w : Z * Z => (fst w, fst w)) ws) with (map (fun i => (i, i)) (zrange 0 (alen T)))
      by (rewrite <- F, map_map; reflexivity).
    destruct (run_writes_fun (fun i => i) 0 (alen T) (vresize 0 (c_n c) (c_id c))) as [l' [El [Ll Gl]]].
    - pose proof (alen_nonneg T). lia.
    - rewrite vresize_length; pose proof (alen_nonneg T); lia.
    - rewrite El. f_equal. rewrite vresize_length in Ll by (pose proof (alen_nonneg T); lia).
      apply alist_ext; [rewrite alen_zrange; pose proof (alen_nonneg T); lia|].
      intros i Hi. rewrite Gl, aget_zrange. replace ((0 <=? i) && (i <? alen T)) with true by (symmetry; lia).
      replace ((0 <=? i) && (i <? alen T - 0)) with true by (symmetry; lia). reflexivity. }
  rewrite R2. rewrite <- Es. reflexivity.
Qed.

(** ** Sorting by block *)

(** What the sorted ids point to. *)
Lemma sorted_ids (J : list keyed) :
  let Q := sort_by_key (combine (map fst J) (zrange 0 (alen J))) in
  map fst Q = map fst (sort_by_key J) /\ alen Q = alen J /\
  forall i w, aget (sort_by_key J) i = Some w ->
    exists j, aget (map snd Q) i = Some j /\ aget (map snd J) j = Some (snd w).
Proof.
  intros Q.
  assert (E : map (fun w : Z * Z => (fst w, aget (map snd J) (snd w))) Q
              = map (fun w : keyed => (fst w, Some (snd w))) (sort_by_key J)).
  { unfold Q. rewrite <- (sort_map (fun j => aget (map snd J) j)), <- (sort_map (fun x => Some x)). f_equal.
    apply alist_ext.
    - rewrite !alen_map. unfold alen. rewrite combine_length, map_length, zrange_length.
      pose proof (alen_nonneg J). unfold alen in *. lia.
    - intros i Hi.
      assert (C : forall A B (l : list A) (m : list B) i, aget (combine l m) i =
        match aget l i, aget m i with Some a, Some b => Some (a, b) | _, _ => None end).
      { clear. intros A B l. induction l as [|x l IH]; intros m i.
        - cbn. unfold aget. destruct (i <? 0); [reflexivity|]. destruct (Z.to_nat i); reflexivity.
        - destruct m as [|y m].
          + cbn [combine]. assert (Hn : forall T, aget (@nil T) i = None).
            { intros T. unfold aget. destruct (i <? 0); [reflexivity|]. destruct (Z.to_nat i); reflexivity. }
            rewrite !Hn. destruct (aget (x :: l) i); reflexivity.
          + cbn [combine]. rewrite !aget_cons. destruct (i =? 0); [reflexivity|]. apply IH. }
      rewrite !aget_map, C, aget_map, aget_zrange.
      destruct (aget J i) as [w|] eqn:Ew.
      + pose proof (aget_bounds _ _ _ Ew). replace ((0 <=? i) && (i <? alen J - 0)) with true by (symmetry; lia).
        cbn [option_map fst snd]. replace (0 + i) with i by lia. rewrite aget_map, Ew. reflexivity.
      + reflexivity. }
  split; [|split].
  - assert (E' := f_equal (map fst) E). rewrite !map_map in E'. exact E'.
  - assert (E' := f_equal alen E). rewrite !alen_map in E'. rewrite E'. unfold alen.
    rewrite (Permutation_length (sort_perm J)). reflexivity.
  - intros i w Ew. assert (E' := f_equal (fun l => aget l i) E). cbn beta in E'. rewrite !aget_map, Ew in E'.
    cbn [option_map] in E'. destruct (aget Q i) as [[k j]|] eqn:EQ; [|discriminate]. cbn [option_map fst snd] in E'.
    exists j. rewrite aget_map, EQ. split; [reflexivity|]. injection E' as _ E'. exact E'.
Qed.

Lemma offset_writes_ok (L : list keyed) : ksorted L -> (forall w, In w L -> 0 <= fst w < nb) ->
  offset_writes g (map fst L) (alen L) = Some (map (fun b => (b, cnt L b)) (zrange 0 (nb + 1))).
Proof.
  intros S G. unfold offset_writes. fold nb.
  pose proof (alen_nonneg L) as NN. pose proof NBnn as NB.
  set (kk := fun i => match aget L i with Some w => fst w | None => nb end).
  set (h := fun i => if 0 <? i then kk (i - 1) + 1 else 0).
  assert (Kr : forall i, 0 <= i < alen L -> 0 <= kk i < nb).
  { intros i Hi. unfold kk. destruct (aget_some L i Hi) as [w Ew]. rewrite Ew. apply G, (aget_In _ _ _ Ew). }
  assert (Km : forall i j, 0 <= i <= j -> j < alen L -> kk i <= kk j).
  { intros i j Hi Hj. unfold kk. destruct (aget_some L i ltac:(lia)) as [w Ew]. destruct (aget_some L j ltac:(lia)) as [w' Ew'].
    rewrite Ew, Ew'. pose proof (cnt_lt L (fst w) j w' S Ew'). pose proof (cnt_lt L (fst w) i w S Ew). lia. }
  rewrite (all_some_ext _ _ (fun i => map (fun b => (b, cnt L b)) (zrange (h i) (h (i + 1))))).
  - cbn [option_map]. f_equal. rewrite <- flat_map_concat_map, <- map_flat_map. f_equal.
    destruct (flat_zranges h 0 (alen L + 1)) as [F _]; [lia| |].
    + intros i Hi. unfold h. destruct (Z.ltb_spec 0 i), (Z.ltb_spec 0 (i + 1)); try lia.
      * destruct (Z_lt_dec i (alen L)) as [Hl|Hl].
        -- replace (i + 1 - 1) with i by lia. specialize (Km (i - 1) i ltac:(lia) Hl). lia.
        -- replace (i + 1 - 1) with i by lia. unfold kk at 2. rewrite aget_none by lia. specialize (Kr (i - 1) ltac:(lia)). lia.
      * replace (i + 1 - 1) with i by lia. destruct (Z_lt_dec i (alen L)) as [Hl|Hl].
        -- specialize (Kr i ltac:(lia)). lia.
        -- unfold kk. rewrite aget_none by lia. lia.
    + rewrite F. unfold h. cbn [Z.ltb Z.compare]. destruct (Z.ltb_spec 0 (alen L + 1)); [|lia].
      unfold kk. rewrite aget_none by lia. reflexivity.
  - intros i Hi. apply in_zrange in Hi.
    assert (E1 : (if i <? alen L then aget (map fst L) i else Some nb) = Some (kk i)).
    { unfold kk. destruct (Z.ltb_spec i (alen L)).
      - rewrite aget_map. destruct (aget_some L i ltac:(lia)) as [w Ew]. rewrite Ew. reflexivity.
      - rewrite aget_none by lia. reflexivity. }
    assert (E2 : (if 0 <? i then aget (map fst L) (i - 1) else Some (-1)) = Some (if 0 <? i then kk (i - 1) else -1)).
    { unfold kk. destruct (Z.ltb_spec 0 i); [|reflexivity].
      rewrite aget_map. destruct (aget_some L (i - 1) ltac:(lia)) as [w Ew]. rewrite Ew. reflexivity. }
    rewrite E1, E2. f_equal.
    replace (zrange (h i) (h (i + 1))) with (zrange ((if 0 <? i then kk (i - 1) else -1) + 1) (kk i + 1)).
    2:{ unfold h. replace (i + 1 - 1) with i by lia. destruct (Z.ltb_spec 0 (i + 1)); [|lia].
        destruct (Z.ltb_spec 0 i); f_equal; lia. }
    apply map_ext_in. intros b Hb. apply in_zrange in Hb. f_equal.
    (* exactly i keys are below b *)
    assert (i <= cnt L b).
    { destruct (Z_lt_dec 0 i) as [P0|]; [|pose proof (cnt_bounds L b); lia].
      destruct (Z.ltb_spec 0 i); [|lia].
      destruct (aget_some L (i - 1) ltac:(lia)) as [w Ew]. unfold kk in Hb. rewrite Ew in Hb.
      pose proof (cnt_lt L b (i - 1) w S Ew). lia. }
    assert (cnt L b <= i).
    { destruct (Z_lt_dec i (alen L)) as [Hl|Hl]; [|pose proof (cnt_bounds L b); lia].
      destruct (aget_some L i ltac:(lia)) as [w Ew]. unfold kk in Hb at 2. rewrite Ew in Hb.
      pose proof (cnt_lt L b i w S Ew). lia. }
    lia.
Qed.

Lemma sort_reorder_ok c (J : list keyed) :
  (forall w, In w J -> good w) -> c_st c = map snd J -> c_idx c = map fst J ->
  c_id c = zrange 0 (alen J) -> c_n c = alen J -> alen (c_off c) = nb + 1 ->
  (np = 0 -> c_off c = [0]) ->
  exists c', reorder_and_offsets dP g (stable_sort c) = Some c' /\ inv c' (sort_by_key J).
Proof.
  intros G Es Ei Ed En Lo Z0. unfold reorder_and_offsets. fold np.
  pose proof (alen_nonneg J) as NN.
  destruct (Z.eqb_spec np 0) as [N|N].
  - assert (J = []) as ->.
    { destruct J as [|w J]; [reflexivity|]. destruct (G w (or_introl eq_refl)) as [p [Hp _]]. lia. }
    eexists. split; [reflexivity|]. unfold stable_sort. rewrite Ei, Ed.
    constructor; cbn [c_st c_alt c_idx c_id c_off c_n c_re map combine alen sort_by_key].
    + constructor.
    + intros w [].
    + exact En.
    + rewrite (Z0 N). unfold nb. rewrite nb_eq. fold np. rewrite N. reflexivity.
    + intros i w E. apply aget_bounds in E. unfold alen in E. cbn in E. lia.
    + intros _. rewrite Es, En. split; reflexivity.
  - destruct (sorted_ids J) as [F [LQ W]]. set (Q := sort_by_key (combine (map fst J) (zrange 0 (alen J)))) in *.
    set (L := sort_by_key J) in *.
    assert (LL : alen L = alen J) by (unfold L, alen; rewrite (Permutation_length (sort_perm J)); reflexivity).
    assert (SL : ksorted L) by apply sort_sorted.
    assert (GL : forall w, In w L -> good w).
    { intros w Hw. apply G. eapply Permutation_in; [apply sort_perm|exact Hw]. }
    unfold stable_sort. rewrite Ei, Ed. fold Q.
    cbn [resize swap_alt c_st c_alt c_idx c_id c_off c_n c_re].
    replace (vresize 0 (c_n c) (map snd Q)) with (map snd Q)
      by (rewrite En, <- LQ, <- (alen_map snd Q), vresize_id; reflexivity).
    replace (vresize 0 (c_n c) (map fst Q)) with (map fst Q)
      by (rewrite En, <- LQ, <- (alen_map fst Q), vresize_id; reflexivity).
    destruct (reorder_writes_ok L (c_st c) (map snd Q)) as [ws [E [_ R]]].
    { intros i w Ew. rewrite Es. exact (W i w Ew). }
    replace (c_n c) with (alen L) by lia. rewrite E.
    rewrite F, (offset_writes_ok L SL (fun w Hw => good_range w (GL w Hw))). rewrite R by (rewrite vresize_length; lia).
    destruct (run_writes_fun (cnt L) 0 (nb + 1) (c_off c)) as [o [Eo [Loo Go]]];
      [pose proof NBnn; lia|lia|].
    rewrite Eo. eexists. split; [reflexivity|].
    constructor; cbn [c_st c_alt c_idx c_id c_off c_n c_re].
    + exact SL.
    + exact GL.
    + reflexivity.
    + apply alist_ext; [rewrite alen_map, alen_zrange; pose proof NBnn; lia|].
      intros i Hi. rewrite Go, aget_map, aget_zrange.
      replace ((0 <=? i) && (i <? nb + 1)) with true by (symmetry; lia).
      replace ((0 <=? i) && (i <? nb + 1 - 0)) with true by (symmetry; lia). reflexivity.
    + intros i w Ew. rewrite aget_map, Ew. reflexivity.
    + intros _. rewrite !alen_map. split; [reflexivity|lia].
Qed.

(** ** Buffers *)

Lemma run_writes_h {A} (h : Z -> A) ws : forall l,
  (forall w, In w ws -> snd w = h (fst w) /\ 0 <= fst w < alen l) ->
  exists l', run_writes ws l = Some l' /\ alen l' = alen l /\
    (forall i, In i (map fst ws) -> aget l' i = Some (h i)) /\
    (forall i, ~ In i (map fst ws) -> aget l' i = aget l i).
Proof.
  induction ws as [|[j x] ws IH]; intros l H.
  - exists l. repeat split; auto. intros i [].
  - destruct (H (j, x) (or_introl eq_refl)) as [Ex Hj]. cbn in Ex, Hj.
    destruct (aset_some l j x Hj) as [l1 [E1 [L1 G1]]]. cbn [run_writes]. rewrite E1.
    destruct (IH l1) as [l' [E [L [G K]]]].
    { intros w Hw. rewrite L1. apply H. now right. }
    exists l'. split; [exact E|]. split; [lia|]. split.
    + intros i Hi. destruct (in_dec Z.eq_dec i (map fst ws)) as [Y|N]; [apply G, Y|].
      destruct Hi as [Hi|Hi]; [|contradiction]. cbn in Hi. subst i. rewrite K by exact N.
      rewrite G1. rewrite Z.eqb_refl. now rewrite Ex.
    + intros i Hi. cbn in Hi. rewrite K by tauto. rewrite G1.
      destruct (Z.eqb_spec i j); [subst; tauto|reflexivity].
Qed.

Definition tagr (bufs : list (list P)) (lo hi : Z) : list keyed :=
  concat (map (fun p => match aget bufs p with Some l => map (fun x => (p, x)) l | None => [] end) (zrange lo hi)).

Lemma tagr_key bufs lo hi w : In w (tagr bufs lo hi) -> lo <= fst w < hi /\ exists l, In l bufs /\ In (snd w) l.
Proof.
  unfold tagr. rewrite in_concat. intros [m [Hm Hw]]. apply in_map_iff in Hm. destruct Hm as [p [<- Hp]].
  apply in_zrange in Hp. destruct (aget bufs p) as [l|] eqn:E; [|destruct Hw].
  apply in_map_iff in Hw. destruct Hw as [x [<- Hx]]. cbn. split; [lia|]. exists l. split; [apply (aget_In _ _ _ E)|exact Hx].
Qed.

Lemma tagr_app bufs lo mid hi : lo <= mid <= hi -> tagr bufs lo hi = tagr bufs lo mid ++ tagr bufs mid hi.
Proof. intros H. unfold tagr. rewrite (zrange_app lo mid hi H), map_app, concat_app. reflexivity. Qed.

Lemma ksorted_app (l m : list keyed) : ksorted l -> ksorted m ->
  (forall a b, In a l -> In b m -> fst a <= fst b) -> ksorted (l ++ m).
Proof.
  unfold ksorted. intros Sl Sm H. induction Sl as [|x l S IH F]; [exact Sm|]. cbn. constructor.
  - apply IH. intros a b Ha Hb. apply H; [now right|exact Hb].
  - apply Forall_app. split; [exact F|]. apply Forall_forall. intros b Hb. apply H; [now left|exact Hb].
Qed.

Lemma tagr_sorted bufs n : ksorted (tagr bufs 0 (Z.of_nat n)).
Proof.
  induction n as [|n IH]; [constructor|].
  rewrite (tagr_app bufs 0 (Z.of_nat n)) by lia. apply ksorted_app.
  - exact IH.
  - unfold tagr. rewrite zrange_cons, zrange_empty by lia. cbn [map concat]. rewrite app_nil_r.
    destruct (aget bufs (Z.of_nat n)) as [l|]; [|constructor]. clear IH.
    induction l as [|x l IH]; cbn; constructor; [exact IH|].
    apply Forall_forall. intros w Hw. apply in_map_iff in Hw. destruct Hw as [y [<- _]]. cbn. lia.
  - intros a b Ha Hb. apply tagr_key in Ha, Hb. lia.
Qed.

Lemma tagr_snd bufs n : Z.of_nat n <= alen bufs ->
  map snd (tagr bufs 0 (Z.of_nat n)) = concat (firstn n bufs).
Proof.
  induction n as [|n IH]; intros H; [reflexivity|].
  rewrite (tagr_app bufs 0 (Z.of_nat n)) by lia. rewrite map_app, IH by lia.
  unfold tagr. rewrite zrange_cons, zrange_empty by lia. cbn [map concat]. rewrite app_nil_r.
  destruct (aget_some bufs (Z.of_nat n) ltac:(lia)) as [l El]. rewrite El, map_map. cbn [snd]. rewrite map_id.
  assert (F : firstn (Datatypes.S n) bufs = firstn n bufs ++ [l]).
  { unfold aget in El. replace (Z.of_nat n <? 0) with false in El by (symmetry; lia). rewrite Nat2Z.id in El.
    clear - El. revert n El. induction bufs as [|x bufs IH]; intros [|n] El; cbn in *; try discriminate.
    - now injection El as ->.
    - f_equal. apply IH, El. }
  rewrite F, concat_app. cbn. now rewrite app_nil_r.
Qed.

Lemma tag_tagr (bufs : list (list P)) : tag g bufs = tagr bufs 0 np.
Proof. reflexivity. Qed.

Lemma np_nat : np = Z.of_nat (Z.to_nat np).
Proof. pose proof (go_np g ok). unfold np. lia. Qed.

Lemma tag_sorted (bufs : list (list P)) : ksorted (tag g bufs).
Proof. rewrite tag_tagr, np_nat. apply tagr_sorted. Qed.

Lemma tag_in bufs w : bufs_in cpos g bufs -> In w (tag g bufs) -> 0 <= fst w < np /\ cell_in g (cpos (snd w)).
Proof.
  intros [_ B] H. rewrite tag_tagr in H. apply tagr_key in H. destruct H as [K [l [Hl Hx]]].
  split; [exact K|]. exact (B l (snd w) Hl Hx).
Qed.

Lemma tag_snd (bufs : list (list P)) : alen bufs = np -> map snd (tag g bufs) = concat bufs.
Proof.
  intros E. rewrite tag_tagr, np_nat, tagr_snd by (rewrite <- np_nat; lia). f_equal.
  apply firstn_all2. rewrite <- E. unfold alen. lia.
Qed.

Lemma cnt_app (l m : list keyed) b : cnt (l ++ m) b = cnt l b + cnt m b.
Proof. unfold cnt. rewrite filter_app, alen_app. reflexivity. Qed.

Lemma tag_cnt (bufs : list (list P)) p : alen bufs = np -> 0 <= p <= np ->
  cnt (tag g bufs) p = alen (concat (firstn (Z.to_nat p) bufs)).
Proof.
  intros E H. rewrite tag_tagr, (tagr_app bufs 0 p np) by lia. rewrite cnt_app.
  rewrite cnt_all by (intros w Hw; apply tagr_key in Hw; lia).
  rewrite (cnt_zero (tagr bufs p np)) by (intros w Hw; apply tagr_key in Hw; lia).
  rewrite <- tagr_snd by lia. rewrite alen_map. rewrite Z2Nat.id by lia. lia.
Qed.

Definition knew (bufs : list (list P)) : list keyed :=
  map (fun w => (key g (fst w) (cpos (snd w)), snd w)) (tag g bufs).

Lemma knew_good bufs w : bufs_in cpos g bufs -> In w (knew bufs) -> good w.
Proof.
  intros B H. apply in_map_iff in H. destruct H as [v [<- Hv]]. destruct (tag_in bufs v B Hv) as [Hp Hc].
  exists (fst v). auto.
Qed.

Lemma knew_untag bufs : bufs_in cpos g bufs -> untag (knew bufs) = tag g bufs.
Proof.
  intros B. unfold untag, knew. rewrite map_map. rewrite <- (map_id (tag g bufs)) at 2. apply map_ext_in.
  intros [p x] Hw. destruct (tag_in bufs _ B Hw) as [Hp Hc]. cbn [fst snd] in *. f_equal. apply key_patch; assumption.
Qed.

Lemma buffers_map {B} (bufs : list (list P)) (H : Z -> P -> option B) : alen bufs = np ->
  flat_map (fun p => match aget bufs p with Some l => map (H p) l | None => [None] end) (zrange 0 np)
  = map (fun w => H (fst w) (snd w)) (tag g bufs).
Proof.
  intros E. unfold tag. rewrite <- flat_map_concat_map. fold np. rewrite map_flat_map. apply flat_map_ext_in'.
  intros p Hp. apply in_zrange in Hp. destruct (aget_some bufs p ltac:(lia)) as [l El]. rewrite El, map_map. reflexivity.
Qed.

Lemma host_ok bufs : bufs_in cpos g bufs -> host_indices cpos g bufs = Some (knew bufs).
Proof.
  intros B. unfold host_indices. fold np nb.
  etransitivity; [apply f_equal; exact (buffers_map bufs (fun p x => let b := block_index g (cpos x) p in
     if (0 <=? b) && (b <? nb) then Some (b, x) else None) (proj1 B))|].
  apply all_some_ext. intros w Hw. destruct (tag_in bufs w B Hw) as [Hp Hc]. cbv zeta.
  rewrite (block_index_in g ok) by exact Hc. pose proof (key_range g ok (fst w) _ Hp Hc) as K. fold nb in K.
  replace (_ && _) with true by (symmetry; lia). reflexivity.
Qed.

Lemma check_ok x : cell_in g (cpos x) -> check_in_patch_mod cpos moved g x = Some x.
Proof.
  intros H. unfold check_in_patch_mod, in_patch. apply (cell_inb_spec g) in H. unfold cell_inb in H. rewrite H. reflexivity.
Qed.

Lemma received_ok bufs : bufs_in cpos g bufs -> received cpos moved g bufs = Some (knew bufs).
Proof.
  intros B. unfold received. fold np nb.
  etransitivity; [apply f_equal; exact (buffers_map bufs (fun p x => match check_in_patch_mod cpos moved g x with
        | Some _ => let b := u32 (block_index g (cpos x) p) in if b <? nb then Some (b, x) else None
        | None => None end) (proj1 B))|].
  apply all_some_ext. intros w Hw. destruct (tag_in bufs w B Hw) as [Hp Hc]. cbv zeta.
  rewrite check_ok by exact Hc.
  rewrite (block_index_in g ok) by exact Hc. pose proof (key_range g ok (fst w) _ Hp Hc) as K. fold nb in K.
  pose proof (nb_int g ok) as NI. fold nb in NI.
  rewrite u32_pos by lia. replace (_ <? _) with true by (symmetry; lia). reflexivity.
Qed.

(** ** The patches of a sorted list *)

Lemma nbp1 : 0 < nbp.
Proof. apply nbp_pos, ok. Qed.

Lemma div_lt b p : b / nbp < p <-> b < p * nbp.
Proof. pose proof nbp1. split; intros H0; [|apply Z.div_lt_upper_bound; lia].
  assert (b < nbp * (b / nbp + 1)) by (apply Z.mul_succ_div_gt; lia). nia. Qed.

Lemma untag_sorted L : ksorted L -> ksorted (untag L).
Proof.
  unfold ksorted, untag. induction 1 as [|x l S IH F]; cbn; constructor; [exact IH|].
  apply Forall_map. eapply Forall_impl; [|exact F]. cbn. intros w H. apply Z.div_le_mono; [apply nbp1|exact H].
Qed.

Lemma untag_cnt L p : cnt (untag L) p = cnt L (p * nbp).
Proof.
  unfold cnt, untag, alen. induction L as [|w L IH]; cbn [map filter fst]; [reflexivity|].
  pose proof (div_lt (fst w) p).
  destruct (Z.ltb_spec (fst w / nbp) p), (Z.ltb_spec (fst w) (p * nbp)); try lia; cbn [length]; lia.
Qed.

Lemma untag_snd L : map snd (untag L) = map snd L.
Proof. unfold untag. rewrite map_map. reflexivity. Qed.

Lemma untag_in L w : (forall v, In v L -> good v) -> In w (untag L) -> 0 <= fst w < np /\ cell_in g (cpos (snd w)).
Proof.
  intros G H. apply in_map_iff in H. destruct H as [v [<- Hv]]. destruct (good_patch v (G v Hv)) as [A [B C]].
  cbn. auto.
Qed.

Lemma untag_keys L : (forall v, In v L -> good v) ->
  map (fun w => key g (fst w) (cpos (snd w))) (untag L) = map fst L.
Proof.
  intros G. unfold untag. rewrite map_map. apply map_ext_in. intros w Hw.
  destruct (good_patch w (G w Hw)) as [_ [_ C]]. symmetry. exact C.
Qed.

Lemma untag_app L M : untag (L ++ M) = untag L ++ untag M.
Proof. apply map_app. Qed.

Lemma untag_perm L M : Permutation L M -> Permutation (untag L) (untag M).
Proof. apply Permutation_map. Qed.

Lemma off_np0 c L : inv c L -> np = 0 -> c_off c = [0].
Proof.
  intros I N. rewrite (i_off c L I). unfold nb. rewrite nb_eq. fold np. rewrite N.
  cbn [Z.mul Z.add]. change (zrange 0 1) with [0]. cbn [map]. f_equal. apply cnt_0, (i_good c L I).
Qed.

(** ** Putting particles in *)

Lemma firstn_vresize {A} (d : A) l l' m : alen l <= m ->
  firstn (Z.to_nat (alen l)) (vresize d m (l ++ l')) = l.
Proof.
  intros H. unfold vresize, alen in *. rewrite firstn_app, firstn_firstn.
  rewrite Nat.min_l by lia. rewrite firstn_app.
  replace (Z.to_nat (Z.of_nat (length l)) - length l)%nat with 0%nat by lia.
  rewrite firstn_all2 by lia. cbn [firstn]. rewrite app_nil_r.
  rewrite firstn_length, app_length.
  replace (Z.to_nat (Z.of_nat (length l)) - Nat.min (Z.to_nat m) (length l + length l'))%nat with 0%nat by lia.
  cbn [firstn]. apply app_nil_r.
Qed.

Lemma inject_ok c L bufs : inv c L -> bufs_in cpos g bufs ->
  exists c' L', inject cpos dP moved g c bufs = Some c' /\ inv c' L' /\
    Permutation (untag L') (untag L ++ tag g bufs).
Proof.
  intros I B. unfold inject. destruct (Z.eqb_spec (c_n c) 0) as [N|N].
  - assert (L = []) as ->.
    { pose proof (i_n c L I) as E. rewrite N in E. destruct L; [reflexivity|]. rewrite alen_cons in E.
      pose proof (alen_nonneg L). lia. }
    destruct (i_tidy c [] I (or_intror N)) as [T1 T2].
    unfold inject_initial. rewrite T1, N. rewrite Z.eqb_refl. cbn [negb orb]. fold np nbp.
    pose proof nbp1 as NBP. pose proof (nb_eq g) as NE. fold nb np nbp in NE.
    rewrite (proj2 (forallb_forall _ _)).
    2:{ intros p Hp. apply in_zrange in Hp. rewrite !(off_get c [] I) by nia. reflexivity. }
    cbn [negb].
    rewrite (all_some_ext _ _ (fun x => x)).
    2:{ intros x Hx. apply in_concat in Hx. destruct Hx as [l [Hl Hx]]. apply check_ok. exact (proj2 B l x Hl Hx). }
    rewrite map_id.
    set (T := tag g bufs).
    assert (EB : alen bufs = np) by apply B.
    destruct (run_writes_h (fun i => cnt T (i / nbp))
      (flat_map (fun p => [(p * nbp, alen (concat (firstn (Z.to_nat p) bufs)));
                           ((p + 1) * nbp, alen (concat (firstn (Z.to_nat (p + 1)) bufs)))]) (zrange 0 np)) (c_off c))
      as [o [Eo [Lo [Go Ko]]]].
    { intros w Hw. apply in_flat_map in Hw. destruct Hw as [p [Hp Hw]]. apply in_zrange in Hp.
      rewrite (off_len c [] I). destruct Hw as [<-|[<-|[]]]; cbn [fst snd]; rewrite Z.div_mul by lia;
        unfold T; rewrite tag_cnt by lia; (split; [reflexivity|nia]). }
    rewrite Eo. set (c1 := resize dP c (alen (concat bufs))). cbn [c_alt c_idx c_id c_re].
    unfold setup_internals.
    assert (ST : concat bufs = map snd T) by (symmetry; apply tag_snd, EB).
    assert (LT : alen (concat bufs) = alen T) by (rewrite ST, alen_map; reflexivity).
    assert (Off0 : forall p, 0 <= p <= np -> aget o (p * nbp) = Some (cnt T p)).
    { intros p Hp. destruct (in_dec Z.eq_dec (p * nbp) (map fst (flat_map (fun p => [(p * nbp, alen (concat (firstn (Z.to_nat p) bufs)));
                           ((p + 1) * nbp, alen (concat (firstn (Z.to_nat (p + 1)) bufs)))]) (zrange 0 np)))) as [Y|NY].
      - rewrite Go by exact Y. rewrite Z.div_mul by lia. reflexivity.
      - rewrite Ko by exact NY. assert (np = 0).
        { destruct (Z.eq_dec np 0) as [|D]; [assumption|]. exfalso. apply NY. rewrite map_flat_map. apply in_flat_map.
          destruct (Z_lt_dec p np).
          - exists p. split; [apply in_zrange; lia|]. cbn. now left.
          - exists (p - 1). split; [apply in_zrange; lia|]. cbn. right. left. f_equal. lia. }
        replace p with 0 by lia. rewrite (off_get c [] I) by nia. f_equal.
        unfold T. rewrite tag_cnt by lia. reflexivity. }
    rewrite (find_ok (mkcm (concat bufs) (c_alt c1) (c_idx c1) (c_id c1) o (alen (concat bufs)) (c_re c1)) T).
    2: apply tag_sorted.
    2: intros w Hw; apply (tag_in bufs w B Hw).
    2: exact Off0.
    2: exact ST.
    2: exact LT.
    cbn [c_st c_alt c_idx c_id c_off c_n c_re].
    destruct (sort_reorder_ok (mkcm (concat bufs) (c_alt c1) (map (fun w => key g (fst w) (cpos (snd w))) T)
                (zrange 0 (alen T)) o (alen (concat bufs)) (c_re c1)) (knew bufs)) as [c' [E' I']].
    + intros w. apply (knew_good bufs w B).
    + cbn [c_st]. rewrite ST. unfold knew. rewrite map_map. reflexivity.
    + cbn [c_idx]. unfold knew. rewrite map_map. reflexivity.
    + cbn [c_id]. unfold knew. rewrite alen_map. reflexivity.
    + cbn [c_n]. unfold knew. rewrite alen_map. exact LT.
    + cbn [c_off]. rewrite Lo. apply (off_len c [] I).
    + cbn [c_off]. intros N0. rewrite N0 in Eo. cbn in Eo. injection Eo as <-. apply (off_np0 c [] I N0).
    + exists c', (sort_by_key (knew bufs)). split; [exact E'|]. split; [exact I'|].
      rewrite (untag_perm _ _ (sort_perm (knew bufs))), knew_untag by exact B. reflexivity.
  - rewrite host_ok by exact B.
    destruct (reorder_inv c L I) as [c1 [E1 [I1 R1]]].
    assert (E1' : (if c_re c then reorder dP c else Some c) = Some c1).
    { destruct (c_re c) eqn:R; [exact E1|]. unfold reorder in E1. rewrite R in E1. exact E1. }
    rewrite E1'.
    rewrite (find_ok c1 (untag L)).
    2: apply untag_sorted, (i_sorted c1 L I1).
    2: intros w Hw; apply (untag_in L w (i_good c1 L I1) Hw).
    2:{ intros p Hp. rewrite untag_cnt. apply (off_get c1 L I1). pose proof nbp1. pose proof (nb_eq g) as NE. fold nb np nbp in NE. nia. }
    2: rewrite untag_snd; apply (st_plain c1 L I1 R1).
    2: unfold untag; rewrite alen_map; apply (i_n c1 L I1).
    cbn [c_st c_alt c_idx c_id c_off c_n c_re resize].
    rewrite untag_keys by apply (i_good c1 L I1).
    rewrite (st_plain c1 L I1 R1), (i_n c1 L I1).
    pose proof (alen_nonneg (knew bufs)) as KN.
    assert (F1 : firstn (Z.to_nat (alen L)) (vresize dP (alen L + alen (knew bufs)) (map snd L)) = map snd L).
    { rewrite <- (app_nil_r (map snd L)) at 1. rewrite <- (alen_map snd L) at 1. apply firstn_vresize. rewrite alen_map. lia. }
    assert (F2 : firstn (Z.to_nat (alen L)) (vresize 0 (alen L + alen (knew bufs)) (map fst L)) = map fst L).
    { rewrite <- (app_nil_r (map fst L)) at 1. rewrite <- (alen_map fst L) at 1. apply firstn_vresize. rewrite alen_map. lia. }
    rewrite F1, F2.
    destruct (sort_reorder_ok (mkcm (map snd L ++ map snd (knew bufs)) (c_alt c1) (map fst L ++ map fst (knew bufs))
        (zrange 0 (alen L + alen (knew bufs))) (c_off c1) (alen L + alen (knew bufs)) (c_re c1)) (L ++ knew bufs)) as [c' [E' I']].
    + intros w Hw. apply in_app_or in Hw. destruct Hw as [Hw|Hw]; [apply (i_good c1 L I1 w Hw)|apply (knew_good bufs w B Hw)].
    + cbn [c_st]. now rewrite map_app.
    + cbn [c_idx]. now rewrite map_app.
    + cbn [c_id]. now rewrite alen_app.
    + cbn [c_n]. now rewrite alen_app.
    + cbn [c_off]. apply (off_len c1 L I1).
    + cbn [c_off]. apply (off_np0 c1 L I1).
    + exists c', (sort_by_key (L ++ knew bufs)). split; [exact E'|]. split; [exact I'|].
      rewrite (untag_perm _ _ (sort_perm (L ++ knew bufs))), untag_app, knew_untag by exact B. reflexivity.
Qed.

(** ** The push *)

Definition pk (f : Z -> P -> P) (w : keyed) : keyed :=
  let p := fst w / nbp in let y := f p (snd w) in
  (if cell_inb g (cpos y) then key g p (cpos y) else nb + p, y).

Lemma push_reach f w : push_ok cpos g f -> good w -> reachable g (cpos (f (fst w / nbp) (snd w))).
Proof.
  intros PO G. destruct (good_patch w G) as [Hp [Hc _]]. destruct (PO (fst w / nbp) (snd w) Hc) as [R Y].
  split; [exact R|]. intros E. rewrite (Y E). exact (Hc D0).
Qed.

Lemma push_step c L f : inv c L -> push_ok cpos g f ->
  exists c', push_mprts cpos dP g f c = Some c' /\ c_st c' = map snd (map (pk f) L) /\
    c_idx c' = map fst (map (pk f) L) /\ c_n c' = alen L /\ c_off c' = c_off c.
Proof.
  intros I PO. unfold push_mprts. destruct (Z.eqb_spec (c_n c) 0) as [N|N].
  - destruct (i_tidy c L I (or_intror N)) as [T1 T2]. pose proof (i_n c L I) as E.
    assert (L = []) as ->.
    { destruct L; [reflexivity|]. rewrite alen_cons in E. pose proof (alen_nonneg L). lia. }
    exists c. split; [reflexivity|]. rewrite N in T1, T2. cbn [map].
    assert (Nil : forall A (l : list A), alen l = 0 -> l = []).
    { intros A [|x l] Hl; [reflexivity|]. rewrite alen_cons in Hl. pose proof (alen_nonneg l). lia. }
    repeat split; auto.
  - pose proof (i_n c L I) as En. pose proof (alen_nonneg L) as NN.
    set (h := fun n => (n, match aget L n with Some w => (snd (pk f w), fst (pk f w)) | None => (dP, 0) end)).
    assert (R : push_reads cpos g f c = Some (map h (zrange 0 (alen L)))).
    { unfold push_reads. fold nb nbp.
      rewrite (flat_map_ext_in' _ (fun b => map (fun n => Some (h n)) (zrange (cnt L b) (cnt L (b + 1))))).
      - rewrite <- map_flat_map. destruct (flat_zranges (cnt L) 0 nb) as [F _]; [apply NBnn|intros; apply cnt_mono; lia|].
        rewrite F, (cnt_0 L (i_good c L I)), (cnt_nb L (i_good c L I)), <- (all_some_map (map h _)), map_map. reflexivity.
      - intros b Hb. apply in_zrange in Hb. rewrite !(off_get c L I) by lia.
        apply map_ext_in. intros n Hn. apply in_zrange in Hn.
        pose proof (cnt_bounds L b). pose proof (cnt_bounds L (b + 1)).
        destruct (aget_some L n ltac:(lia)) as [w Ew].
        assert (Kw : fst w = b) by (apply (cnt_key L b n w (i_sorted c L I) Ew); lia).
        assert (Rd : exists i, (if c_re c then aget (c_id c) n else Some n) = Some i /\ aget (c_st c) i = Some (snd w)).
        { pose proof (i_slot c L I n w Ew) as S. destruct (c_re c); [exact S|]. exists n. auto. }
        destruct Rd as [i [Ei Es]]. rewrite Ei, Es. cbv zeta. rewrite <- Kw.
        rewrite (pushed_index_ok g ok) by (apply push_reach; [exact PO|apply (i_good c L I), (aget_In _ _ _ Ew)]).
        cbn [option_map]. unfold h. rewrite Ew. unfold pk. cbn [fst snd]. reflexivity. }
    rewrite R. rewrite !map_map.
    assert (W1 : forall l, alen l = alen L ->
      run_writes (map (fun x => (fst (h x), fst (snd (h x)))) (zrange 0 (alen L))) l = Some (map (fun w => snd (pk f w)) L)).
    { intros l El. apply run_writes_list; [exact El|]. intros i w Ew. unfold h. rewrite Ew. reflexivity. }
    assert (W2 : forall l, alen l = alen L ->
      run_writes (map (fun x => (fst (h x), snd (snd (h x)))) (zrange 0 (alen L))) l = Some (map (fun w => fst (pk f w)) L)).
    { intros l El. apply run_writes_list; [exact El|]. intros i w Ew. unfold h. rewrite Ew. reflexivity. }
    destruct (c_re c) eqn:Re.
    + rewrite W1 by (rewrite vresize_length; lia). rewrite W2 by (rewrite vresize_length; lia).
      eexists. split; [reflexivity|]. cbn. auto.
    + destruct (i_tidy c L I (or_introl Re)) as [T1 T2].
      rewrite W1 by lia. rewrite W2 by lia. eexists. split; [reflexivity|]. cbn. auto.
Qed.

(** ** Sending *)

Definition out (f : Z -> P -> P) (L : list keyed) : list keyed :=
  filter (fun w => nb <=? fst w) (map (pk f) L).

Lemma combine_fst_snd {A B} (l : list (A * B)) : combine (map fst l) (map snd l) = l.
Proof. induction l as [|[a b] l IH]; cbn; [reflexivity|]. now rewrite IH. Qed.

Lemma pk_case f w : good w ->
  let p := fst w / nbp in let y := f p (snd w) in
  0 <= p < np /\
  ((cell_inb g (cpos y) = true /\ pk f w = (key g p (cpos y), y) /\ good (pk f w) /\ 0 <= fst (pk f w) < nb /\ fst (pk f w) / nbp = p)
   \/ (cell_inb g (cpos y) = false /\ pk f w = (nb + p, y))).
Proof.
  intros G. destruct (good_patch w G) as [Hp _]. split; [exact Hp|]. unfold pk. cbv zeta.
  destruct (cell_inb g _) eqn:E; [left|right; auto].
  split; [reflexivity|]. split; [reflexivity|]. pose proof (proj1 (cell_inb_spec g _) E) as Hc. cbn [fst snd].
  split; [|split].
  - exists (fst w / nbp). cbn. auto.
  - apply key_range; assumption.
  - apply key_patch; assumption.
Qed.

Lemma sent_ok f L p : (forall w, In w L -> good w) ->
  map snd (filter (fun w => fst w - nb =? p) (out f L)) = leave cpos g p (pushed f (untag L)).
Proof.
  intros G. unfold out, leave, pushed, untag. induction L as [|w L IH]; [reflexivity|].
  assert (IH' := IH (fun w H => G w (or_intror H))). clear IH.
  destruct (pk_case f w (G w (or_introl eq_refl))) as [Hp [[E [K [_ [R _]]]]|[E K]]]; cbv zeta in *.
  - rewrite !map_cons. cbn [filter]. replace (nb <=? fst (pk f w)) with false by (symmetry; lia).
    cbn [fst snd]. rewrite E, andb_false_r. exact IH'.
  - rewrite !map_cons. cbn [filter]. rewrite K at 1. cbn [fst snd]. replace (nb <=? nb + fst w / nbp) with true by (symmetry; lia).
    cbn [filter]. rewrite K at 1. cbn [fst snd]. rewrite E. cbn [negb]. rewrite andb_true_r.
    replace (nb + fst w / nbp - nb) with (fst w / nbp) by lia.
    destruct (fst w / nbp =? p); [|exact IH']. rewrite !map_cons. rewrite K. cbn [snd]. f_equal. exact IH'.
Qed.

Lemma stay_ok f L : (forall w, In w L -> good w) ->
  untag (filter (fun w => fst w <? nb) (map (pk f) L)) = stay cpos g (pushed f (untag L)).
Proof.
  intros G. unfold stay, pushed, untag. induction L as [|w L IH]; [reflexivity|].
  assert (IH' := IH (fun w H => G w (or_intror H))). clear IH.
  destruct (pk_case f w (G w (or_introl eq_refl))) as [Hp [[E [K [_ [R D]]]]|[E K]]]; cbv zeta in *.
  - rewrite !map_cons. cbn [filter]. replace (fst (pk f w) <? nb) with true by (symmetry; lia).
    cbn [fst snd]. rewrite E. rewrite map_cons, D. rewrite K at 1. cbn [snd]. f_equal. exact IH'.
  - rewrite !map_cons. cbn [filter]. rewrite K at 1. cbn [fst snd]. replace (nb + fst w / nbp <? nb) with false by (symmetry; lia).
    rewrite E. exact IH'.
Qed.

Lemma prep_ok c f L : (forall w, In w L -> good w) ->
  c_st c = map snd (map (pk f) L) -> c_idx c = map fst (map (pk f) L) -> c_n c = alen L ->
  prep g c = Some (map (fun p => leave cpos g p (pushed f (untag L))) (zrange 0 np),
    mkcm (map snd (map (pk f) L) ++ map snd (out f L)) (c_alt c)
         (map fst (map (pk f) L) ++ map fst (out f L)) (c_id c) (c_off c) (c_n c) (c_re c)).
Proof.
  intros G Es Ei En. unfold prep. rewrite Es, Ei, En, !alen_map, Z.eqb_refl. cbn [negb orb].
  rewrite combine_fst_snd. fold nb np. fold (out f L).
  rewrite (proj2 (forallb_forall _ _)).
  - f_equal. f_equal. apply map_ext. intros p. apply sent_ok, G.
  - intros w Hw. unfold out in Hw. apply filter_In in Hw. destruct Hw as [Hw Hn]. apply in_map_iff in Hw.
    destruct Hw as [v [<- Hv]]. destruct (pk_case f v (G v Hv)) as [Hp [[_ [_ [_ [R _]]]]|[_ K]]]; cbv zeta in *; [lia|].
    rewrite K. cbn [fst]. lia.
Qed.

(** ** Receiving *)

Lemma filter_split_len {A} (l : list (Z * A)) b : alen (filter (fun w => fst w <? b) l) + alen (filter (fun w => b <=? fst w) l) = alen l.
Proof.
  unfold alen. induction l as [|x l IH]; cbn [filter length]; [reflexivity|].
  destruct (Z.ltb_spec (fst x) b), (Z.leb_spec b (fst x)); cbn [length]; lia.
Qed.

Lemma Permutation_filter {A} (f : A -> bool) l l' : Permutation l l' -> Permutation (filter f l) (filter f l').
Proof.
  induction 1; cbn.
  - constructor.
  - destruct (f x); [now constructor|assumption].
  - destruct (f x), (f y); try reflexivity. apply perm_swap.
  - etransitivity; eassumption.
Qed.

Lemma post_ok c alt id re f L recv : inv c L -> bufs_in cpos g recv ->
  (L <> [] -> stay cpos g (pushed f (untag L)) ++ tag g recv <> []) ->

  exists c' L',
    post cpos dP moved g
      (mkcm (map snd (map (pk f) L) ++ map snd (out f L)) alt
         (map fst (map (pk f) L) ++ map fst (out f L)) id (c_off c) (alen L) re) recv = Some c' /\
    inv c' L' /\ Permutation (untag L') (stay cpos g (pushed f (untag L)) ++ tag g recv).
Proof.
  intros I B NE. unfold post. rewrite received_ok by exact B.
  cbn [c_st c_alt c_idx c_id c_off c_n c_re resize].
  set (K := map (pk f) L). set (Rn := knew recv).
  pose proof (i_good c L I) as G.
  assert (LK : alen L = alen K) by (unfold K; rewrite alen_map; reflexivity).
  pose proof (alen_nonneg Rn) as KN. pose proof (alen_nonneg K) as KK.
  assert (F1 : firstn (Z.to_nat (alen L)) (vresize dP (alen L + alen Rn) (map snd K ++ map snd (out f L))) = map snd K).
  { rewrite LK. rewrite <- (alen_map snd K) at 1. apply firstn_vresize. rewrite alen_map. lia. }
  assert (F2 : firstn (Z.to_nat (alen L)) (vresize 0 (alen L + alen Rn) (map fst K ++ map fst (out f L))) = map fst K).
  { rewrite LK. rewrite <- (alen_map fst K) at 1. apply firstn_vresize. rewrite alen_map. lia. }
  rewrite F1, F2. clear F1 F2.
  set (J := K ++ Rn).
  assert (LJ : alen L + alen Rn = alen J) by (unfold J; rewrite alen_app; lia).
  rewrite LJ. rewrite <- !map_app. fold J.
  unfold stable_sort. cbn [c_st c_alt c_idx c_id c_off c_n c_re].
  destruct (sorted_ids J) as [FQ [LQ W]]. set (Q := sort_by_key (combine (map fst J) (zrange 0 (alen J)))) in *.
  set (L2 := sort_by_key J) in *.
  assert (S2 : ksorted L2) by apply sort_sorted.
  assert (P2 : Permutation L2 J) by apply sort_perm.
  rewrite FQ. fold nb.
  set (L' := filter (fun w => fst w <? nb) L2).
  assert (Sp : L2 = L' ++ filter (fun w => nb <=? fst w) L2) by (apply ksorted_split; exact S2).
  assert (Cn : forall b, b <= nb -> cnt L' b = cnt L2 b).
  { intros b Hb. assert (E2 : cnt L2 b = cnt (L' ++ filter (fun w => nb <=? fst w) L2) b) by (rewrite <- Sp; reflexivity).
    rewrite E2, cnt_app. rewrite (cnt_zero (filter (fun w => nb <=? fst w) L2)) by (intros w Hw; apply filter_In in Hw; lia). lia. }
  assert (GJ : forall w, In w J -> fst w < nb -> good w).
  { intros w Hw Hl. apply in_app_or in Hw. destruct Hw as [Hw|Hw]; [|apply (knew_good recv w B Hw)].
    apply in_map_iff in Hw. destruct Hw as [v [<- Hv]].
    destruct (pk_case f v (G v Hv)) as [Hp [[_ [_ [Gp _]]]|[_ Kv]]]; cbv zeta in *; [exact Gp|].
    rewrite Kv in Hl. cbn in Hl. lia. }
  assert (G' : forall w, In w L' -> good w).
  { intros w Hw. apply filter_In in Hw. destruct Hw as [Hw Hl]. apply GJ; [|lia].
    eapply Permutation_in; [exact P2|exact Hw]. }
  assert (PL : Permutation L' (filter (fun w => fst w <? nb) K ++ Rn)).
  { unfold L'. rewrite (Permutation_filter _ _ _ P2). unfold J. rewrite filter_app. apply Permutation_app_head.
    rewrite filter_all; [reflexivity|]. intros w Hw. pose proof (good_range w (knew_good recv w B Hw)). lia. }
  assert (PU : Permutation (untag L') (stay cpos g (pushed f (untag L)) ++ tag g recv)).
  { rewrite (untag_perm _ _ PL), untag_app. unfold K, Rn. rewrite stay_ok by exact G. rewrite knew_untag by exact B. reflexivity. }
  pose proof NBnn as NB.
  set (offw := map (fun b => (b + 1, upper_bound (map fst L2) b)) (zrange 0 nb)).
  assert (Ew : offw = map (fun b => (b, cnt L2 b)) (zrange 1 (nb + 1))).
  { unfold offw. replace (zrange 1 (nb + 1)) with (zrange (0 + 1) (nb + 1)) by (f_equal; lia). rewrite zrange_shift, map_map.
    apply map_ext. intros b. rewrite upper_bound_cnt by exact S2. replace (1 + b) with (b + 1) by lia. reflexivity. }
  rewrite Ew.
  destruct (run_writes_fun (cnt L2) 1 (nb + 1) (c_off c)) as [o [Eo [Lo Go]]]; [lia|rewrite (off_len c L I); lia|].
  rewrite Eo.
  assert (Nn : alen J - (alen (map fst (K ++ out f L)) - alen L) = alen L').
  { rewrite alen_map, alen_app. replace (alen K + alen (out f L) - alen L) with (alen (out f L)) by lia.
    unfold alen at 3. rewrite (Permutation_length PL). fold (alen (filter (fun w => fst w <? nb) K ++ Rn)). rewrite alen_app.
    unfold out. fold K. pose proof (filter_split_len K nb). unfold J. rewrite alen_app. lia. }
  rewrite Nn.
  eexists. exists L'. split; [reflexivity|]. split; [|exact PU].
  constructor; cbn [c_st c_alt c_idx c_id c_off c_n c_re].
  - unfold L'. clear - S2. unfold ksorted in *. induction S2 as [|x l S IH F]; cbn; [constructor|].
    destruct (fst x <? nb); [|exact IH]. constructor; [exact IH|]. rewrite Forall_forall in *. intros w Hw.
    apply filter_In in Hw. apply F, Hw.
  - exact G'.
  - reflexivity.
  - apply alist_ext; [rewrite alen_map, alen_zrange, Lo, (off_len c L I); lia|].
    intros i Hi. rewrite Lo, (off_len c L I) in Hi. rewrite Go, aget_map, aget_zrange.
    replace ((0 <=? i) && (i <? nb + 1 - 0)) with true by (symmetry; lia). cbn [option_map].
    replace (0 + i) with i by lia. destruct (Z.eq_dec i 0) as [->|Ni].
    + cbn [Z.leb Z.compare andb]. rewrite (off_get c L I) by lia. rewrite (cnt_0 L G), (cnt_0 L' G'). reflexivity.
    + replace ((1 <=? i) && (i <? nb + 1)) with true by (symmetry; lia). rewrite Cn by lia. reflexivity.
  - intros i w Ei. apply W. rewrite Sp. rewrite aget_app. pose proof (aget_bounds _ _ _ Ei).
    destruct (Z.ltb_spec i (alen L')); [exact Ei|lia].
  - intros [H|H]; [discriminate|]. 
    assert (N' : L' = []) by (destruct L'; [reflexivity|]; rewrite alen_cons in H; pose proof (alen_nonneg L'); lia).
    rewrite N' in PU. apply Permutation_nil in PU.
    assert (L = []) as L0.
    { destruct L; [reflexivity|]. exfalso. apply NE; [discriminate|exact PU]. }
    assert (RN : tag g recv = []) by (apply app_eq_nil in PU; apply PU).
    assert (J0 : J = []) by (unfold J, K, Rn, knew; rewrite L0, RN; reflexivity).
    unfold L2. rewrite H, J0. split; reflexivity.
Qed.

(** ** What the store holds *)

Lemma inv_represents c L S : inv c L -> Permutation S (untag L) -> represents cpos g c S.
Proof.
  intros I PS. split; [|split].
  - rewrite (i_n c L I). pose proof (Permutation_length PS) as Q. unfold untag in Q. rewrite map_length in Q.
    unfold alen, tagged in *. lia.
  - intros w Hw. apply (untag_in L w (i_good c L I)). eapply Permutation_in; eassumption.
  - intros p b Hp Hb. set (k := block_no g p b).
    assert (Hk : 0 <= k < nb) by (apply block_no_lt; assumption).
    pose proof (cnt_mono L k (k + 1) ltac:(lia)) as M. pose proof (cnt_bounds L k) as B0. pose proof (cnt_bounds L (k + 1)) as B1.
    exists (map snd (filter (fun w => fst w =? k) L)). split.
    + exists (cnt L k), (cnt L (k + 1)). rewrite !(off_get c L I) by lia.
      split; [reflexivity|]. split; [reflexivity|]. split; [lia|]. split; [rewrite (i_n c L I); lia|].
      split; [rewrite alen_map, cnt_succ; lia|].
      intros i Hi. pose proof (slice_key L k (i_sorted c L I) i Hi) as SK.
      destruct (aget_some L (cnt L k + i) ltac:(lia)) as [w Ew]. rewrite Ew in SK.
      rewrite aget_map, <- SK. cbn [option_map].
      pose proof (i_slot c L I _ w Ew) as SL. destruct (c_re c); exact SL.
    + rewrite (Permutation_map snd (Permutation_filter _ _ _ PS)).
      assert (E : map snd (filter (fun w => fst w =? k) L)
        = map snd (filter (fun w => (fst w =? p) && in_blockb g (cpos (snd w)) b) (untag L))); [|rewrite E; reflexivity].
      pose proof (i_good c L I) as G. clear - G Hp Hb ok. unfold untag. induction L as [|w L IH]; [reflexivity|].
      cbn [map filter fst snd].
      assert (EQ : (fst w =? k) = ((fst w / nbp =? p) && in_blockb g (cpos (snd w)) b)).
      { destruct (good_patch w (G w (or_introl eq_refl))) as [Hq [Hc Ek]].
        apply eq_true_iff_eq. rewrite Z.eqb_eq, andb_true_iff, Z.eqb_eq, (in_blockb_spec g ok). unfold k. split.
        - intros E. rewrite Ek in E. unfold key in E. apply (block_no_inj g ok) in E; try assumption. apply (blkpos_range g ok), Hc.
        - intros [E1 E2]. rewrite Ek, E1. unfold key. now rewrite E2. }
      rewrite EQ. destruct (_ && _); cbn [map snd]; rewrite IH by (intros v Hv; apply G; now right); reflexivity.
Qed.

Lemma get_ok c L S : inv c L -> Permutation S (untag L) ->
  exists c' l offs, get_particles dP c = Some (c', l) /\ get_offsets g c' = Some offs /\ inv c' L /\
    right_output cpos g S Get (Read l offs).
Proof.
  intros I PS. unfold get_particles. destruct (reorder_inv c L I) as [c1 [E1 [I1 R1]]]. rewrite E1.
  destruct (i_tidy c1 L I1 (or_introl R1)) as [T1 _]. rewrite T1, Z.eqb_refl.
  pose proof nbp1 as NB1. pose proof (nb_eq g) as NE. fold nb np nbp in NE. pose proof (go_np g ok) as NP. fold np in NP.
  exists c1, (c_st c1), (map (fun p => cnt (untag L) p) (zrange 0 (np + 1))).
  split; [reflexivity|]. split.
  { unfold get_offsets. fold np nbp. apply all_some_ext. intros p Hp. apply in_zrange in Hp. rewrite untag_cnt.
    apply (off_get c1 L I1). nia. }
  split; [exact I1|]. cbn [right_output]. fold np. split; [rewrite alen_map, alen_zrange; lia|].
  intros p Hp. exists (cnt (untag L) p), (cnt (untag L) (p + 1)), (map snd (filter (fun w => fst w =? p) (untag L))).
  assert (Ag : forall q, 0 <= q <= np -> aget (map (fun p => cnt (untag L) p) (zrange 0 (np + 1))) q = Some (cnt (untag L) q)).
  { intros q Hq. rewrite aget_map, aget_zrange. replace ((0 <=? q) && (q <? np + 1 - 0)) with true by (symmetry; lia). reflexivity. }
  rewrite !Ag by lia.
  pose proof (cnt_mono (untag L) p (p + 1) ltac:(lia)). pose proof (cnt_bounds (untag L) p). pose proof (cnt_bounds (untag L) (p + 1)).
  split; [reflexivity|]. split; [reflexivity|]. split; [lia|].
  split; [rewrite alen_map, cnt_succ; lia|]. split.
  - intros i Hi. rewrite (st_plain c1 L I1 R1), <- untag_snd, !aget_map.
    rewrite (slice_key (untag L) p (untag_sorted L (i_sorted c L I)) i Hi). reflexivity.
  - apply Permutation_map, Permutation_filter. now symmetry.
Qed.

(** ** Runs *)

Lemma exec_ok c L S a : inv c L -> Permutation S (untag L) -> allowed cpos g S a ->
  exists c' o L', exec cpos dP moved g c a = Some (c', o) /\ inv c' L' /\
    Permutation (after cpos g S a) (untag L') /\ right_output cpos g S a o.
Proof.
  intros I PS A. destruct a as [bufs|f recv| |]; cbn [exec after allowed right_output] in *.
  - destruct (inject_ok c L bufs I A) as [c' [L' [E [I' P']]]]. rewrite E. cbn [option_map].
    exists c', Nothing, L'. split; [reflexivity|]. split; [exact I'|]. split; [|exact Logic.I].
    rewrite P'. now apply Permutation_app_tail.
  - destruct A as [PO [B NE]].
    destruct (push_step c L f I PO) as [c1 [E1 [Es [Ei [En Eo]]]]]. rewrite E1.
    rewrite (prep_ok c1 f L (i_good c L I) Es Ei En).
    assert (PP : Permutation (pushed f S) (pushed f (untag L))) by (apply Permutation_map, PS).
    assert (PSt : Permutation (stay cpos g (pushed f S)) (stay cpos g (pushed f (untag L)))) by (apply Permutation_filter, PP).
    rewrite Eo, En.
    destruct (post_ok c (c_alt c1) (c_id c1) (c_re c1) f L recv I B) as [c' [L' [E' [I' P']]]].
    + intros HL. intros H0. apply NE.
      * intros ->. apply Permutation_nil in PS. apply HL. now destruct L.
      * apply Permutation_nil. rewrite <- H0. symmetry. now apply Permutation_app_tail.
    + rewrite E'. cbn [option_map]. eexists c', _, L'. split; [reflexivity|]. split; [exact I'|]. split.
      * rewrite P'. now apply Permutation_app_tail.
      * pose proof (go_np g ok) as NP. split; [rewrite alen_map, alen_zrange; unfold np; lia|].
        intros p Hp. exists (leave cpos g p (pushed f (untag L))). split.
        -- rewrite aget_map, aget_zrange. fold np in Hp. replace ((0 <=? p) && (p <? np - 0)) with true by (symmetry; lia). reflexivity.
        -- unfold leave. apply Permutation_map, Permutation_filter. now symmetry.
  - destruct (reorder_inv c L I) as [c1 [E1 [I1 _]]]. rewrite E1. exists c1, Nothing, L. cbn [option_map]. auto.
  - destruct (get_ok c L S I PS) as [c1 [l [offs [E1 [E2 [I1 RO]]]]]]. rewrite E1, E2. cbn [option_map].
    exists c1, (Read l offs), L. auto.
Qed.

Lemma run_ok acts : forall c L S, inv c L -> Permutation S (untag L) -> allowed_run cpos g S acts ->
  exists c' outs, exec_run cpos dP moved g c acts = Some (c', outs) /\
    represents cpos g c' (fold_left (after cpos g) acts S) /\ right_run cpos g S acts outs.
Proof.
  induction acts as [|a acts IH]; intros c L S I PS A.
  - exists c, []. split; [reflexivity|]. split; [|exact Logic.I]. exact (inv_represents c L S I PS).
  - destruct A as [A1 A2]. destruct (exec_ok c L S a I PS A1) as [c1 [o [L1 [E1 [I1 [P1 R1]]]]]].
    destruct (IH c1 L1 _ I1 P1 A2) as [c' [outs [E [Rp RR]]]].
    exists c', (o :: outs). cbn [exec_run]. rewrite E1, E. split; [reflexivity|]. split; [exact Rp|]. split; assumption.
Qed.

Lemma run_inv acts : forall c L S c' outs, inv c L -> Permutation S (untag L) -> allowed_run cpos g S acts ->
  exec_run cpos dP moved g c acts = Some (c', outs) -> exists L', inv c' L'.
Proof.
  induction acts as [|a acts IH]; intros c L S c' outs I PS A E.
  - injection E as <- _. eauto.
  - destruct A as [A1 A2]. destruct (exec_ok c L S a I PS A1) as [c1 [o [L1 [E1 [I1 [P1 R1]]]]]].
    cbn [exec_run] in E. rewrite E1 in E. destruct (exec_run cpos dP moved g c1 acts) as [[c2 os]|] eqn:E2; [|discriminate].
    injection E as <- _. exact (IH c1 L1 _ c2 os I1 P1 A2 E2).
Qed.

(** ** The places the kernels store to *)

Lemma reorder_places {X} (alt : list X) id n ws : reorder_writes alt id n = Some ws -> map fst ws = zrange 0 n.
Proof.
  unfold reorder_writes. generalize (zrange 0 n) as l. intros l. revert ws.
  induction l as [|i l IH]; cbn [map all_some]; intros ws E.
  - injection E as <-. reflexivity.
  - destruct (aget id i) as [j|]; [|discriminate]. destruct (aget alt j) as [x|]; [|discriminate]. cbn [option_map] in E.
    destruct (all_some _) as [m|]; [|discriminate]. injection E as <-. cbn. f_equal. apply IH. reflexivity.
Qed.

Lemma push_places c L f ws : inv c L -> push_ok cpos g f -> push_reads cpos g f c = Some ws -> map fst ws = zrange 0 (alen L).
Proof.
  intros I PO E. 
  set (h := fun n => (n, match aget L n with Some w => (snd (pk f w), fst (pk f w)) | None => (dP, 0) end)).
  assert (R : push_reads cpos g f c = Some (map h (zrange 0 (alen L)))).
  { unfold push_reads. fold nb nbp.
    rewrite (flat_map_ext_in' _ (fun b => map (fun n => Some (h n)) (zrange (cnt L b) (cnt L (b + 1))))).
    - rewrite <- map_flat_map. destruct (flat_zranges (cnt L) 0 nb) as [F _]; [apply NBnn|intros; apply cnt_mono; lia|].
      rewrite F, (cnt_0 L (i_good c L I)), (cnt_nb L (i_good c L I)), <- (all_some_map (map h _)), map_map. reflexivity.
    - intros b Hb. apply in_zrange in Hb. rewrite !(off_get c L I) by lia.
      apply map_ext_in. intros n Hn. apply in_zrange in Hn.
      pose proof (cnt_bounds L b). pose proof (cnt_bounds L (b + 1)).
      destruct (aget_some L n ltac:(lia)) as [w Ew].
      assert (Kw : fst w = b) by (apply (cnt_key L b n w (i_sorted c L I) Ew); lia).
      assert (Rd : exists i, (if c_re c then aget (c_id c) n else Some n) = Some i /\ aget (c_st c) i = Some (snd w)).
      { pose proof (i_slot c L I n w Ew) as S. destruct (c_re c); [exact S|]. exists n. auto. }
      destruct Rd as [i [Ei Es]]. rewrite Ei, Es. cbv zeta. rewrite <- Kw.
      rewrite (pushed_index_ok g ok) by (apply push_reach; [exact PO|apply (i_good c L I), (aget_In _ _ _ Ew)]).
      cbn [option_map]. unfold h. rewrite Ew. unfold pk. cbn [fst snd]. reflexivity. }
  rewrite R in E. injection E as <-. rewrite map_map. unfold h. cbn [fst]. apply map_id.
Qed.

Lemma find_places c L c1 ws : inv c L -> reorder dP c = Some c1 -> find_idx_writes cpos g (c_st c1) (c_off c1) = Some ws ->
  map fst ws = zrange 0 (alen L).
Proof.
  intros I E1 E. destruct (reorder_inv c L I) as [c1' [E1' [I1 R1]]]. rewrite E1 in E1'. injection E1' as <-.
  rewrite (st_plain c1 L I1 R1), <- untag_snd in E.
  destruct (find_writes_ok (untag L) (c_off c1)) as [ws' [E' [F _]]].
  - apply untag_sorted, (i_sorted c1 L I1).
  - intros w Hw. apply (untag_in L w (i_good c1 L I1) Hw).
  - intros p Hp. rewrite untag_cnt. apply (off_get c1 L I1). pose proof nbp1. pose proof (nb_eq g) as NE. fold nb np nbp in NE. nia.
  - rewrite E in E'. injection E' as <-. rewrite F. unfold untag. rewrite alen_map. reflexivity.
Qed.

Lemma offset_places idx wo : StronglySorted Z.le idx -> (forall k, In k idx -> 0 <= k < nb) ->
  offset_writes g idx (alen idx) = Some wo -> map fst wo = zrange 0 (nb + 1).
Proof.
  intros S R E. set (L := map (fun k => (k, dP)) idx).
  assert (EL : map fst L = idx) by (unfold L; rewrite map_map; apply map_id).
  pose proof (offset_writes_ok L) as O. rewrite EL in O. unfold L in O at 3. rewrite alen_map in O.
  rewrite O in E.
  - injection E as <-. rewrite map_map. cbn [fst]. apply map_id.
  - unfold ksorted, L. clear - S. induction S as [|x l S IH F]; cbn; constructor; [exact IH|].
    apply Forall_map. eapply Forall_impl; [|exact F]. cbn. auto.
  - intros w Hw. unfold L in Hw. apply in_map_iff in Hw. destruct Hw as [k [<- Hk]]. apply R, Hk.
Qed.

End StoreProofs.
