(** Proofs about the collisions on the GPU: what the store holds, and the sort. *)
From Coq Require Import Reals Lra Permutation Sorted.
From Verif Require Import Base Arr RSum BinColModel CudaPrtModel CudaPrtSpec CudaPrtProofs CudaLaunchModel CudaLaunchSpec CudaLaunchProofs CudaPushProofs CudaCollModel CudaCollSpec BalanceCommProofs UidProofs SetupProofs GhostProofs.
Local Open Scope Z_scope.

(** ** Lists *)

Lemma filter_key_perm {A} (k : A -> Z) n (l : list A) : (forall x, In x l -> 0 <= k x < n) ->
  Permutation (flat_map (fun i => filter (fun x => k x =? i) l) (zrange 0 n)) l.
Proof.
  induction l as [|x l IH]; intros H.
  - cbn [filter]. induction (zrange 0 n) as [|i r IH]; cbn; [constructor|exact IH].
  - assert (Hx : In (k x) (zrange 0 n)) by (apply in_zrange; apply H; left; reflexivity).
    destruct (in_split _ _ Hx) as (l1 & l2 & E). pose proof (NoDup_zrange 0 n) as ND. rewrite E in ND.
    rewrite E in Hx. rewrite E. apply NoDup_remove_2 in ND. rewrite flat_map_app. cbn [flat_map filter]. rewrite Z.eqb_refl.
    assert (F : forall m, ~ In (k x) m -> flat_map (fun i => if k x =? i then x :: filter (fun y => k y =? i) l else filter (fun y => k y =? i) l) m = flat_map (fun i => filter (fun y => k y =? i) l) m).
    { intros m Hm. apply flat_map_ext_in'. intros i Hi. destruct (Z.eqb_spec (k x) i) as [Ei|]; [subst i; contradiction|reflexivity]. }
    rewrite !F by (intros I; apply ND, in_or_app; auto).
    symmetry. cbn [app]. apply Permutation_cons_app. symmetry.
    specialize (IH ltac:(intros y Hy; apply H; right; exact Hy)). rewrite E, flat_map_app in IH. exact IH.
Qed.

Lemma all_by_index {A} (l : list A) (d : A) : l = map (fun i => match aget l i with Some x => x | None => d end) (zrange 0 (alen l)).
Proof.
  transitivity (map (fun x => x) l); [symmetry; apply map_id|]. symmetry. apply map_by_index. intros i x E. rewrite E. reflexivity.
Qed.

Lemma mono_le_n (nb : Z) (h : Z -> Z) : (forall k, 0 <= k < nb -> h k <= h (k + 1)) -> forall i j, 0 <= i <= j -> j <= nb -> h i <= h j.
Proof.
  intros M i j Hi Hj. destruct (flat_zranges h i j) as [_ H]; [lia|intros; apply M; lia|exact H].
Qed.

(** ** What the store holds *)

Section Store.
Context {P : Type} (cpos : P -> V3 Z) (dP : P) (g : geom) (ok : geom_ok g).
Let nb := n_blocks g.

(** the slots of block [k] are those from [h k] to [h (k + 1)], and slot [n] holds [L]'s [n]-th *)
Record laid (h : Z -> Z) (rd : Z -> option P) (c : cm P) (L : list (Z * P)) : Prop := {
  ld_n : c_n c = alen L;
  ld_rd : forall n w, aget L n = Some w -> rd n = Some (snd w);
  ld_off : forall k, 0 <= k <= nb -> aget (c_off c) k = Some (h k);
  ld_mono : forall k, 0 <= k < nb -> h k <= h (k + 1);
  ld_0 : h 0 = 0;
  ld_nb : h nb = c_n c;
  ld_key : forall n w k, aget L n = Some w -> 0 <= k < nb -> h k <= n < h (k + 1) ->
    0 <= fst w < g_np g /\ cell_in g (cpos (snd w)) /\ key g (fst w) (cpos (snd w)) = k
}.

Lemma laid_block h rd c L : laid h rd c L -> forall n, 0 <= n < c_n c -> exists k, 0 <= k < nb /\ h k <= n < h (k + 1).
Proof.
  intros D n Hn. pose proof (NBnn g ok) as NN. destruct (flat_zranges h 0 nb) as [F _]; [exact NN|apply (ld_mono _ _ _ _ D)|].
  rewrite (ld_0 _ _ _ _ D), (ld_nb _ _ _ _ D) in F. assert (I : In n (zrange 0 (c_n c))) by (apply in_zrange; exact Hn).
  rewrite <- F in I. apply in_flat_map in I. destruct I as (k & Hk & I). apply in_zrange in Hk. apply in_zrange in I. exists k. auto.
Qed.

Lemma laid_good h rd c L : laid h rd c L -> forall w, In w L -> 0 <= fst w < g_np g /\ cell_in g (cpos (snd w)).
Proof.
  intros D w Hw. apply In_aget in Hw. destruct Hw as [n E]. pose proof (aget_bounds _ _ _ E) as B.
  destruct (laid_block _ _ _ _ D n) as (k & Hk & Hn); [rewrite (ld_n _ _ _ _ D); exact B|].
  destruct (ld_key _ _ _ _ D n w k E Hk Hn) as (A1 & A2 & _). auto.
Qed.

Lemma pos_of_range k : 0 <= k < nb -> is_pos g (pat_of g k) (pos_of g k).
Proof. apply pos_of_ok. exact ok. Qed.

Lemma rep_laid c S : represents cpos g c S -> S <> [] -> exists h L, Permutation L S /\ laid h (read_slot c) c L.
Proof.
  intros (HN & HS & HB) HE. pose proof (NBnn g ok) as NN. fold nb in NN.
  set (h := fun k => match aget (c_off c) k with Some v => v | None => 0 end).
  set (rdx := fun n => match read_slot c n with Some x => x | None => dP end).
  assert (B : forall k, 0 <= k < nb -> aget (c_off c) k = Some (h k) /\ aget (c_off c) (k + 1) = Some (h (k + 1)) /\ 0 <= h k <= h (k + 1) /\ h (k + 1) <= c_n c /\
     (forall n, h k <= n < h (k + 1) -> read_slot c n = Some (rdx n)) /\
     Permutation (map (fun n => (pat_of g k, rdx n)) (zrange (h k) (h (k + 1)))) (filter (fun w => key g (fst w) (cpos (snd w)) =? k) S)).
  { intros k Hk. destruct (pos_of_range k Hk) as [Hp Hpos].
    destruct (HB _ _ Hp Hpos) as (l & (lo & hi & E1 & E2 & Hlo & Hhi & Len & Get) & Per).
    pose proof (block_no_of g ok k) as BN. rewrite BN in E1, E2.
    assert (h k = lo) as -> by (unfold h; rewrite E1; reflexivity). assert (h (k + 1) = hi) as -> by (unfold h; rewrite E2; reflexivity).
    assert (RS : forall i x, aget l i = Some x -> read_slot c (lo + i) = Some x).
    { intros i x E. pose proof (aget_bounds _ _ _ E) as Bi. specialize (Get i ltac:(lia)). unfold read_slot. destruct (c_re c).
      - destruct Get as (j & -> & ->). exact E.
      - rewrite Get. exact E. }
    assert (RX : forall n, lo <= n < hi -> exists x, aget l (n - lo) = Some x /\ read_slot c n = Some x).
    { intros n Hn. destruct (aget_some l (n - lo) ltac:(lia)) as [x Ex]. exists x. split; [exact Ex|]. rewrite <- (RS _ _ Ex). f_equal. lia. }
    split; [exact E1|]. split; [exact E2|]. split; [exact Hlo|]. split; [exact Hhi|]. split.
    { intros n Hn. destruct (RX n Hn) as (x & _ & E). unfold rdx. rewrite E. reflexivity. }
    replace (filter (fun w => key g (fst w) (cpos (snd w)) =? k) S) with (map (pair (pat_of g k)) (map snd (filter (fun w => (fst w =? pat_of g k) && in_blockb g (cpos (snd w)) (pos_of g k)) S))).
    - replace (map (fun n => (pat_of g k, rdx n)) (zrange lo hi)) with (map (pair (pat_of g k)) l); [apply Permutation_map; exact Per|].
      replace lo with (0 + lo) by lia. replace hi with (alen l + lo) by lia. rewrite CollisionProofs.zrange_shift, map_map. symmetry.
      apply (map_by_index l (fun i => (pat_of g k, rdx (lo + i))) (pair (pat_of g k))). intros i x E. unfold rdx. rewrite (RS _ _ E). reflexivity.
    - rewrite map_map. transitivity (filter (fun w => (fst w =? pat_of g k) && in_blockb g (cpos (snd w)) (pos_of g k)) S).
      + rewrite <- (map_id (filter _ S)) at 2. apply map_ext_in. intros [p x] Hw. apply filter_In in Hw. cbn [fst snd] in *. destruct Hw as [_ Hw]. apply Bool.andb_true_iff in Hw. destruct Hw as [Hw _]. apply Z.eqb_eq in Hw. subst p. reflexivity.
      + apply filter_ext_in. intros [p x] Hw. destruct (HS _ Hw) as [Hp' Hc]. cbn [fst snd] in *. apply Bool.eq_iff_eq_true. rewrite Bool.andb_true_iff, !Z.eqb_eq, (in_blockb_spec g ok). unfold key. split.
        * intros [-> ->]. exact BN.
        * intros E. rewrite <- BN in E. apply (block_no_inj g ok) in E; [exact E|assumption|assumption|apply blkpos_range; assumption|assumption]. }
  exists h. set (KN := flat_map (fun k => map (pair k) (zrange (h k) (h (k + 1)))) (zrange 0 nb)).
  set (L := map (fun kn => (pat_of g (fst kn), rdx (snd kn))) KN). exists L.
  assert (M : forall k, 0 <= k < nb -> h k <= h (k + 1)) by (intros k Hk; apply B in Hk; lia).
  destruct (flat_zranges h 0 nb NN M) as [FZ Hle].
  assert (KS : map snd KN = zrange (h 0) (h nb)).
  { unfold KN. rewrite map_flat_map, <- FZ. apply flat_map_ext_in'. intros k _. rewrite map_map. cbn [snd]. apply map_id. }
  assert (PL : Permutation L S).
  { eapply perm_trans; [|apply (filter_key_perm (fun w => key g (fst w) (cpos (snd w))) nb); intros w Hw; destruct (HS w Hw); apply key_range; assumption].
    unfold L, KN. rewrite map_flat_map. assert (Z : forall m, (forall k, In k m -> 0 <= k < nb) -> Permutation (flat_map (fun a => map (fun kn => (pat_of g (fst kn), rdx (snd kn))) (map (pair a) (zrange (h a) (h (a + 1))))) m) (flat_map (fun i => filter (fun x => key g (fst x) (cpos (snd x)) =? i) S) m)).
    { induction m as [|k m IH]; intros Hm; cbn [flat_map]; [constructor|]. apply Permutation_app; [|apply IH; intros; apply Hm; right; assumption].
      rewrite map_map. cbn [fst snd]. apply B. apply Hm. left. reflexivity. }
    apply Z. intros k Hk. apply in_zrange in Hk. exact Hk. }
  split; [exact PL|].
  assert (LL : alen L = c_n c) by (rewrite HN; unfold alen; f_equal; apply Permutation_length; exact PL).
  assert (LK : alen L = h nb - h 0).
  { unfold L. rewrite alen_map, <- (alen_map snd), KS, alen_zrange by exact Hle. reflexivity. }
  assert (H0 : h 0 = 0 /\ h nb = c_n c).
  { assert (0 < nb). { destruct S as [|w S']; [contradiction|]. destruct (HS w (or_introl eq_refl)) as [A1 A2]. pose proof (key_range g ok _ _ A1 A2). unfold nb. lia. }
    pose proof (B 0 ltac:(lia)) as B0. pose proof (B (nb - 1) ltac:(lia)) as B1. replace (nb - 1 + 1) with nb in B1 by lia. lia. }
  destruct H0 as [H0 H1].
  assert (KA : forall n w, aget L n = Some w -> exists k, 0 <= k < nb /\ h k <= n < h (k + 1) /\ w = (pat_of g k, rdx n)).
  { intros n w E. unfold L in E. rewrite aget_map in E. destruct (aget KN n) as [[k n']|] eqn:EK; [|discriminate]. injection E as <-. cbn [fst snd].
    assert (E2 : aget (map snd KN) n = Some n') by (rewrite aget_map, EK; reflexivity). rewrite KS, aget_zrange in E2.
    destruct (_ && _); [|discriminate]. injection E2 as E2. assert (n' = n) by lia. subst n'. apply aget_In in EK. unfold KN in EK. apply in_flat_map in EK.
    destruct EK as (k' & Hk & EK). apply in_map_iff in EK. destruct EK as (n2 & EK & Hn). injection EK as -> ->. apply in_zrange in Hk. apply in_zrange in Hn. exists k. split; [exact Hk|]. rewrite H in Hn |- *. split; [exact Hn|reflexivity]. }
  constructor.
  - symmetry. exact LL.
  - intros n w E. destruct (KA n w E) as (k & Hk & Hn & ->). cbn [snd]. apply (B k Hk). exact Hn.
  - intros k Hk. destruct (Z.eq_dec k nb) as [->|]; [|apply (B k); lia]. pose proof (aget_bounds (c_off c)) as _.
    assert (0 < nb). { destruct S as [|w S']; [contradiction|]. destruct (HS w (or_introl eq_refl)) as [A1 A2]. pose proof (key_range g ok _ _ A1 A2). unfold nb. lia. }
    destruct (B (nb - 1) ltac:(lia)) as (_ & E & _). replace (nb - 1 + 1) with nb in E by lia. exact E.
  - exact M.
  - exact H0.
  - exact H1.
  - intros n w k E Hk Hn. destruct (KA n w E) as (k' & Hk' & Hn' & ->). cbn [fst snd].
    assert (k' = k).
    { destruct (Z.lt_trichotomy k' k) as [T|[T|T]]; [|exact T|].
      - pose proof (mono_le_n nb h M (k' + 1) k ltac:(lia) ltac:(lia)). lia.
      - pose proof (mono_le_n nb h M (k + 1) k' ltac:(lia) ltac:(lia)). lia. }
    subst k'. destruct (B k Hk) as (_ & _ & _ & _ & _ & Per).
    assert (I : In (pat_of g k, rdx n) (filter (fun w => key g (fst w) (cpos (snd w)) =? k) S)).
    { apply (Permutation_in _ Per). apply in_map_iff. exists n. split; [reflexivity|]. apply in_zrange. exact Hn. }
    apply filter_In in I. destruct I as [I1 I2]. apply Z.eqb_eq in I2. destruct (HS _ I1) as [A1 A2]. auto.
Qed.

Lemma laid_rep h c L : c_re c = false -> laid h (aget (c_st c)) c L -> represents cpos g c L.
Proof.
  intros RE D. split; [apply (ld_n _ _ _ _ D)|]. split; [apply (laid_good _ _ _ _ D)|].
  intros p b Hp Hb. set (k := block_no g p b). assert (Hk : 0 <= k < nb) by (apply block_no_lt; assumption).
  pose proof (mono_le_n nb h (ld_mono _ _ _ _ D) 0 k ltac:(lia) ltac:(lia)) as M1. pose proof (ld_mono _ _ _ _ D k Hk) as M2.
  pose proof (mono_le_n nb h (ld_mono _ _ _ _ D) (k + 1) nb ltac:(lia) ltac:(lia)) as M3. rewrite (ld_0 _ _ _ _ D) in M1. rewrite (ld_nb _ _ _ _ D) in M3.
  destruct L as [|w0 L0] eqn:EL.
  { pose proof (ld_n _ _ _ _ D) as N. change (alen []) with 0 in N. exists []. split; [|constructor].
    exists (h k), (h (k + 1)). split; [apply (ld_off _ _ _ _ D); lia|]. split; [apply (ld_off _ _ _ _ D); lia|].
    split; [lia|]. split; [lia|]. split; [change (alen []) with 0; lia|]. intros i Hi. lia. }
  rewrite <- EL in *. set (nth := fun n => match aget L n with Some w => w | None => w0 end).
  exists (map (fun n => snd (nth n)) (zrange (h k) (h (k + 1)))). split.
  - exists (h k), (h (k + 1)). split; [apply (ld_off _ _ _ _ D); lia|]. split; [apply (ld_off _ _ _ _ D); lia|].
    split; [lia|]. split; [lia|]. split; [rewrite alen_map, alen_zrange by lia; reflexivity|].
    intros i Hi. rewrite RE, aget_map, aget_zrange. replace ((0 <=? i) && (i <? h (k + 1) - h k)) with true by (symmetry; lia). cbn [option_map].
    unfold nth. destruct (aget_some L (h k + i)) as [w Ew]; [rewrite <- (ld_n _ _ _ _ D); lia|]. rewrite Ew. apply (ld_rd _ _ _ _ D). exact Ew.
  - set (Q := fun w => (fst w =? p) && in_blockb g (cpos (snd w)) b).
    assert (QK : forall n k', 0 <= n < c_n c -> 0 <= k' < nb -> h k' <= n < h (k' + 1) -> Q (nth n) = (k' =? k)).
    { intros n k' Hn Hk' Hb'. unfold nth. destruct (aget_some L n) as [w Ew]; [rewrite <- (ld_n _ _ _ _ D); exact Hn|]. rewrite Ew.
      destruct (ld_key _ _ _ _ D n w k' Ew Hk' Hb') as (A1 & A2 & A3). unfold Q. apply Bool.eq_iff_eq_true.
      rewrite Bool.andb_true_iff, !Z.eqb_eq, (in_blockb_spec g ok). rewrite <- A3. unfold key, k. split.
      - intros [-> ->]. reflexivity.
      - intros E. apply (block_no_inj g ok) in E; [exact E|assumption|assumption|apply blkpos_range; assumption|assumption]. }
    assert (ES : map snd (filter Q L) = map (fun n => snd (nth n)) (zrange (h k) (h (k + 1)))).
    { rewrite (all_by_index L w0) at 1. rewrite <- (ld_n _ _ _ _ D). fold nth.
      rewrite (CollisionProofs.zrange_split 0 (h k) (c_n c)) by lia. rewrite (CollisionProofs.zrange_split (h k) (h (k + 1)) (c_n c)) by lia.
      rewrite !map_app, !filter_app.
      assert (NONE : forall lo hi, 0 <= lo -> hi <= c_n c -> (hi <= h k \/ h (k + 1) <= lo) -> filter Q (map nth (zrange lo hi)) = []).
      { intros lo hi Hlo Hhi Hd. apply filter_none. intros x Hx. apply in_map_iff in Hx. destruct Hx as (n & <- & Hn). apply in_zrange in Hn.
        destruct (laid_block _ _ _ _ D n ltac:(lia)) as (k' & Hk' & Hb'). rewrite (QK n k') by lia. apply Z.eqb_neq. intros ->. lia. }
      rewrite NONE by lia. rewrite (NONE (h (k + 1))) by lia. rewrite app_nil_r. cbn [app].
      rewrite filter_all; [apply map_map|]. intros x Hx. apply in_map_iff in Hx. destruct Hx as (n & <- & Hn). apply in_zrange in Hn.
      rewrite (QK n k) by lia. apply Z.eqb_refl. }
    rewrite ES. reflexivity.
Qed.

Lemma reorder_laid h c L : laid h (read_slot c) c L -> L <> [] ->
  exists c1, reorder dP c = Some c1 /\ c_re c1 = false /\ laid h (aget (c_st c1)) c1 L.
Proof.
  intros D NE. unfold reorder. destruct (c_re c) eqn:R.
  2:{ exists c. split; [reflexivity|]. split; [exact R|]. destruct D as [D1 D2 D3 D4 D5 D6 D7]. constructor; try assumption.
      intros n w E. rewrite <- (D2 n w E). unfold read_slot. rewrite R. reflexivity. }
  pose proof (ld_n _ _ _ _ D) as N. assert (0 < alen L) by (destruct L; [contradiction|unfold alen; cbn; lia]).
  unfold reorder_by_id. destruct (Z.eqb_spec (c_n c) 0) as [N0|N0]; [lia|].
  cbn [resize swap_alt c_st c_alt c_idx c_id c_off c_n c_re].
  destruct (reorder_writes_ok cpos dP (fun x => x) g L (c_st c) (vresize 0 (c_n c) (c_id c))) as [ws [E [_ W]]].
  { intros i w Ew. pose proof (ld_rd _ _ _ _ D i w Ew) as S. unfold read_slot in S. rewrite R in S. destruct (aget (c_id c) i) as [j|] eqn:Ej; [|discriminate].
    exists j. split; [|exact S]. rewrite vresize_get; [exact Ej| |].
    - apply aget_bounds in Ew. lia.
    - apply aget_bounds in Ej. lia. }
  rewrite <- N in E. rewrite E. rewrite W by (rewrite vresize_length; lia). cbn [option_map].
  eexists. split; [reflexivity|]. split; [reflexivity|]. destruct D as [D1 D2 D3 D4 D5 D6 D7].
  constructor; cbn [c_st c_alt c_idx c_id c_off c_n c_re]; try assumption.
  intros n w Ew. rewrite aget_map, Ew. reflexivity.
Qed.
End Store.

(** ** Cells *)

Section Cells.
Context (g : geom) (ok : geom_ok g).

(** the number of a cell *)
Definition cellno (p : Z) (q : V3 Z) : Z := ((p * c2 (g_ldims g) + c2 q) * c1 (g_ldims g) + c1 q) * c0 (g_ldims g) + c0 q.

Lemma valid_cell_in p q : cell_in g q -> valid_cell_index g q p = Some (cellno p q).
Proof.
  intros H. unfold valid_cell_index, cellno. pose proof (u32_in g ok q D0 H) as E0. pose proof (u32_in g ok q D1 H) as E1. pose proof (u32_in g ok q D2 H) as E2.
  cbn [get3] in E0, E1, E2. rewrite E0, E1, E2. pose proof (H D0) as H0. pose proof (H D1) as H1. pose proof (H D2) as H2. cbn [get3] in H0, H1, H2.
  replace (c0 q <? c0 (g_ldims g)) with true by (symmetry; lia). replace (c1 q <? c1 (g_ldims g)) with true by (symmetry; lia).
  replace (c2 q <? c2 (g_ldims g)) with true by (symmetry; lia). reflexivity.
Qed.

Lemma mul_add_range a b x y : 0 <= x < a -> 0 <= y < b -> 0 <= x * b + y < a * b.
Proof. intros. nia. Qed.

Lemma mul_add_inj b x y x' y' : 0 <= y < b -> 0 <= y' < b -> x * b + y = x' * b + y' -> x = x' /\ y = y'.
Proof. intros H H' E. assert (x = x') by nia. lia. Qed.

Lemma cellno_range p q : 0 <= p < g_np g -> cell_in g q -> 0 <= cellno p q < n_cells g.
Proof.
  intros Hp H. pose proof (H D0) as H0. pose proof (H D1) as H1. pose proof (H D2) as H2. cbn [get3] in H0, H1, H2.
  unfold cellno, n_cells. replace (c0 (g_ldims g) * c1 (g_ldims g) * c2 (g_ldims g) * g_np g) with (g_np g * c2 (g_ldims g) * c1 (g_ldims g) * c0 (g_ldims g)) by ring.
  apply mul_add_range; [|exact H0]. apply mul_add_range; [|exact H1]. apply mul_add_range; [exact Hp|exact H2].
Qed.

Lemma cellno_inj p q p' q' : cell_in g q -> cell_in g q' -> cellno p q = cellno p' q' -> p = p' /\ q = q'.
Proof.
  intros H H' E. pose proof (H D0) as H0. pose proof (H D1) as H1. pose proof (H D2) as H2. pose proof (H' D0) as H0'. pose proof (H' D1) as H1'. pose proof (H' D2) as H2'.
  cbn [get3] in *. unfold cellno in E. apply mul_add_inj in E; [|assumption..]. destruct E as [E E0]. apply mul_add_inj in E; [|assumption..]. destruct E as [E E1].
  apply mul_add_inj in E; [|assumption..]. destruct E as [E E2]. destruct q as [a0 a1 a2], q' as [b0 b1 b2]. cbn [c0 c1 c2] in *. subst. auto.
Qed.

Lemma cellno_patch p q : 0 <= p -> cell_in g q -> cellno p q / n_cells_per_patch g = p.
Proof.
  intros Hp H. pose proof (H D0) as H0. pose proof (H D1) as H1. pose proof (H D2) as H2. cbn [get3] in H0, H1, H2.
  symmetry. apply (Z.div_unique _ _ _ ((c2 q * c1 (g_ldims g) + c1 q) * c0 (g_ldims g) + c0 q)).
  - left. unfold n_cells_per_patch. replace (c0 (g_ldims g) * c1 (g_ldims g) * c2 (g_ldims g)) with (c2 (g_ldims g) * c1 (g_ldims g) * c0 (g_ldims g)) by ring.
    apply mul_add_range; [|exact H0]. apply mul_add_range; [exact H2|exact H1].
  - unfold cellno, n_cells_per_patch. ring.
Qed.

Lemma n_cells_nonneg : 0 <= n_cells g.
Proof. unfold n_cells. pose proof (go_ld g ok D0) as H0. pose proof (go_ld g ok D1) as H1. pose proof (go_ld g ok D2) as H2. pose proof (go_np g ok). cbn [get3] in *. repeat apply Z.mul_nonneg_nonneg; lia. Qed.

(** ** The sort *)

Lemma sort_blocks_once : each_once (all_blocks g) (sort_blocks g).
Proof. unfold sort_blocks. destruct (g_yz g) eqn:Y; [exact (simple2_yz_once g ok Y)|exact (simple2_once g ok)]. Qed.

Lemma sort_blocks_perm : Permutation (map k_bid (sort_blocks g)) (zrange 0 (n_blocks g)).
Proof.
  destruct sort_blocks_once as [ND IFF]. apply NoDup_Permutation.
  - apply NoDup_map_in; [|exact ND]. intros b b' Hb Hb' E. apply IFF in Hb. apply IFF in Hb'. destruct Hb as (p & pos & Q & ->). destruct Hb' as (p' & pos' & Q' & ->).
    apply (block_at_inj g ok) in E; [|assumption..]. destruct E as [-> ->]. reflexivity.
  - apply NoDup_zrange.
  - intros k. rewrite in_map_iff, in_zrange. split.
    + intros (b & <- & Hb). apply IFF in Hb. destruct Hb as (p & pos & [Hp Hpos] & ->). apply block_no_lt; assumption.
    + intros Hk. exists (block_at g (pat_of g k) (pos_of g k)). split; [apply block_no_of; exact ok|]. apply IFF. exists (pat_of g k), (pos_of g k). split; [exact (pos_of_ok g ok k Hk)|reflexivity].
Qed.

Context (c : cm cuprt) (h : Z -> Z) (L : list (Z * cuprt)).
Hypothesis D : laid cu_pos g h (aget (c_st c)) c L.

(** cell number of slot [n] *)
Definition cidx (n : Z) : Z := match aget L n with Some w => cellno (fst w) (cu_pos (snd w)) | None => 0 end.

Lemma key_writes_ok u : exists ws, key_writes g u c = Some ws /\
  Permutation ws (map (fun n => (n, ((IZR (cidx n) + / 2 * u n)%R, n))) (zrange 0 (c_n c))).
Proof.
  set (W := fun n => (n, ((IZR (cidx n) + / 2 * u n)%R, n))). pose proof (NBnn g ok) as NN.
  assert (O : forall b, In b (sort_blocks g) -> all_blocks g b).
  { intros b. apply sort_blocks_once. }
  assert (TK : forall b, In b (sort_blocks g) -> forall tid, In tid (zrange 0 coll_tpb) -> thread_keys g u c b tid = Some (map W (in_block_loop coll_tpb (h (k_bid b)) (h (k_bid b + 1)) tid))).
  { intros b Hb tid Ht. apply in_zrange in Ht. destruct (O b Hb) as (p & pos & [Hp Hpos] & ->). unfold thread_keys. change (k_bid (block_at g p pos)) with (block_no g p pos). change (k_p (block_at g p pos)) with p.
    pose proof (block_no_lt g ok p pos Hp Hpos) as Hk. rewrite (ld_off _ _ _ _ _ _ D (block_no g p pos)) by lia. rewrite (ld_off _ _ _ _ _ _ D (block_no g p pos + 1)) by lia.
    apply all_some_ext. intros n Hn. assert (B : h (block_no g p pos) <= n < h (block_no g p pos + 1)).
    { unfold in_block_loop in Hn. apply filter_In in Hn. destruct Hn as [Hn Q]. apply in_strided in Hn; [|reflexivity]. apply Bool.negb_true_iff, Z.ltb_ge in Q. lia. }
    pose proof (mono_le_n (n_blocks g) h (ld_mono _ _ _ _ _ _ D) 0 (block_no g p pos) ltac:(lia) ltac:(lia)) as M1. rewrite (ld_0 _ _ _ _ _ _ D) in M1.
    pose proof (mono_le_n (n_blocks g) h (ld_mono _ _ _ _ _ _ D) (block_no g p pos + 1) (n_blocks g) ltac:(lia) ltac:(lia)) as M2. rewrite (ld_nb _ _ _ _ _ _ D), (ld_n _ _ _ _ _ _ D) in M2.
    destruct (aget_some L n ltac:(lia)) as [w Ew]. rewrite (ld_rd _ _ _ _ _ _ D n w Ew).
    destruct (ld_key _ _ _ _ _ _ D n w _ Ew Hk B) as (A1 & A2 & A3). unfold key in A3. apply (block_no_inj g ok) in A3; [|assumption|assumption|apply blkpos_range; assumption|assumption].
    destruct A3 as [<- _]. rewrite valid_cell_in by exact A2. unfold W, cidx. rewrite Ew. reflexivity. }
  exists (flat_map (fun b => flat_map (fun tid => map W (in_block_loop coll_tpb (h (k_bid b)) (h (k_bid b + 1)) tid)) (zrange 0 coll_tpb)) (sort_blocks g)). split.
  - unfold key_writes. rewrite (all_some_ext _ _ (fun b => flat_map (fun tid => map W (in_block_loop coll_tpb (h (k_bid b)) (h (k_bid b + 1)) tid)) (zrange 0 coll_tpb))); [cbn [option_map]; rewrite concat_map_flat; reflexivity|].
    intros b Hb. rewrite (all_some_ext _ _ (fun tid => map W (in_block_loop coll_tpb (h (k_bid b)) (h (k_bid b + 1)) tid))) by (intros tid Ht; apply TK; assumption).
    cbn [option_map]. rewrite concat_map_flat. reflexivity.
  - eapply perm_trans with (flat_map (fun k => map W (zrange (h k) (h (k + 1)))) (map k_bid (sort_blocks g))).
    + assert (Q : forall m, (forall b, In b m -> all_blocks g b) -> Permutation (flat_map (fun b => flat_map (fun tid => map W (in_block_loop coll_tpb (h (k_bid b)) (h (k_bid b + 1)) tid)) (zrange 0 coll_tpb)) m) (flat_map (fun k => map W (zrange (h k) (h (k + 1)))) (map k_bid m))).
      { induction m as [|b m IH]; intros Hm; cbn [flat_map map]; [constructor|]. apply Permutation_app; [|apply IH; intros; apply Hm; right; assumption].
        rewrite <- map_flat_map. apply Permutation_map. apply in_block_loop_perm; [reflexivity|]. destruct (Hm b (or_introl eq_refl)) as (p & pos & [Hp Hpos] & ->). cbn [block_at k_bid].
        pose proof (block_no_lt g ok p pos Hp Hpos) as Hk. pose proof (mono_le_n (n_blocks g) h (ld_mono _ _ _ _ _ _ D) 0 (block_no g p pos) ltac:(lia) ltac:(lia)) as M1. rewrite (ld_0 _ _ _ _ _ _ D) in M1. exact M1. }
      apply Q. exact O.
    + eapply perm_trans; [apply Permutation_flat_map; apply sort_blocks_perm|]. rewrite <- map_flat_map.
      destruct (flat_zranges h 0 (n_blocks g) NN (ld_mono _ _ _ _ _ _ D)) as [-> _]. rewrite (ld_0 _ _ _ _ _ _ D), (ld_nb _ _ _ _ _ _ D). reflexivity.
Qed.

(** as thrust::sort_by_key may leave it, by cell *)
Definition sorted_by_cell (Q : list (Z * Z)) : Prop := ksorted Q /\ Permutation (map (fun n => (cidx n, n)) (zrange 0 (c_n c))) Q.

Lemma lower_bound_cnt (l : list (R * Z)) (f : Z -> Z) q : StronglySorted (fun a b => (fst a <= fst b)%R) l ->
  (forall w, In w l -> IZR (f (snd w)) <= fst w <= IZR (f (snd w)) + / 2)%R ->
  lower_bound (map fst l) (IZR q) = cnt (map (fun w => (f (snd w), snd w)) l) q.
Proof.
  intros S. induction S as [|w l S IH F]; intros K; [reflexivity|].
  assert (LT : forall v, In v (w :: l) -> ((fst v < IZR q)%R <-> f (snd v) < q)).
  { intros v Hv. pose proof (K v Hv) as Kv. split; intros H.
    - apply lt_IZR. lra.
    - assert (IZR (f (snd v)) + 1 <= IZR q)%R by (rewrite <- plus_IZR; apply IZR_le; lia). lra. }
  cbn [map lower_bound]. unfold cnt. cbn [filter fst]. destruct (Rlt_dec (fst w) (IZR q)) as [H|H].
  - apply (LT w (or_introl eq_refl)) in H. replace (f (snd w) <? q) with true by (symmetry; lia). rewrite alen_cons. f_equal. apply IH. intros v Hv. apply K. right. exact Hv.
  - assert (H' : ~ f (snd w) < q) by (intros H'; apply H, (LT w (or_introl eq_refl)), H'). replace (f (snd w) <? q) with false by (symmetry; lia).
    rewrite filter_none; [reflexivity|]. intros v Hv. apply in_map_iff in Hv. destruct Hv as (y & <- & Hy). cbn [fst]. rewrite Forall_forall in F. pose proof (F y Hy) as Fy.
    apply Z.ltb_ge. destruct (Z.le_gt_cases q (f (snd y))) as [|G]; [assumption|]. exfalso. apply H. apply (LT y (or_intror Hy)) in G. lra.
Qed.

Lemma find_offsets_cnt (l : list (R * Z)) (f : Z -> Z) : StronglySorted (fun a b => (fst a <= fst b)%R) l ->
  (forall w, In w l -> IZR (f (snd w)) <= fst w <= IZR (f (snd w)) + / 2)%R -> (forall w, In w l -> f (snd w) < n_cells g) ->
  find_offsets g (map fst l) = map (cnt (map (fun w => (f (snd w), snd w)) l)) (zrange 0 (n_cells g + 1)).
Proof.
  intros S K B. unfold find_offsets. pose proof n_cells_nonneg. rewrite (CollisionProofs.zrange_split 0 (n_cells g) (n_cells g + 1)) by lia. rewrite map_app. f_equal.
  - apply map_ext. intros q. apply lower_bound_cnt; assumption.
  - rewrite (zrange_cons (n_cells g)) by lia. rewrite zrange_empty by lia. cbn [map]. f_equal. rewrite cnt_all; [rewrite !alen_map; reflexivity|].
    intros w Hw. apply in_map_iff in Hw. destruct Hw as (v & <- & Hv). cbn [fst]. apply B. exact Hv.
Qed.

Lemma cidx_range n : 0 <= n < c_n c -> 0 <= cidx n < n_cells g.
Proof.
  intros Hn. unfold cidx. rewrite (ld_n _ _ _ _ _ _ D) in Hn. destruct (aget_some L n Hn) as [w Ew]. rewrite Ew.
  destruct (laid_good _ _ ok _ _ _ _ D w (aget_In _ _ _ Ew)). apply cellno_range; assumption.
Qed.

Lemma writes_ok u ws ws' : (forall n, 0 < u n <= 1)%R -> key_writes g u c = Some ws -> Permutation ws ws' ->
  run_writes ws' (repeat (0%R, 0) (Z.to_nat (c_n c))) = Some (map (fun n => ((IZR (cidx n) + / 2 * u n)%R, n)) (zrange 0 (c_n c))).
Proof.
  intros Hu E Pm. destruct (key_writes_ok u) as (ws0 & E0 & P0). rewrite E in E0. injection E0 as <-.
  assert (NN : 0 <= c_n c) by (rewrite (ld_n _ _ _ _ _ _ D); apply alen_nonneg).
  set (W := map (fun n => (n, ((IZR (cidx n) + / 2 * u n)%R, n))) (zrange 0 (c_n c))) in *.
  rewrite (run_writes_perm W ws').
  - destruct (run_writes_fun (fun n => ((IZR (cidx n) + / 2 * u n)%R, n)) 0 (c_n c) (repeat (0%R, 0) (Z.to_nat (c_n c)))) as (l' & E' & Len & Get); [lia|rewrite alen_repeat; lia|].
    unfold W. rewrite E'. f_equal. rewrite alen_repeat in Len. apply alist_ext; [rewrite alen_map, alen_zrange by lia; lia|].
    intros i Hi. rewrite Get, aget_map, aget_zrange. replace ((0 <=? i) && (i <? c_n c)) with true by (symmetry; lia). replace ((0 <=? i) && (i <? c_n c - 0)) with true by (symmetry; lia). reflexivity.
  - unfold W. rewrite map_map. cbn [fst]. rewrite map_id. apply NoDup_zrange.
  - eapply perm_trans; [symmetry; exact P0|exact Pm].
Qed.

Lemma sort_runs_ok r : sort_runs g c r -> exists Q, sorted_by_cell Q /\ r = Some (map (cnt Q) (zrange 0 (n_cells g + 1)), map snd Q).
Proof.
  intros (u & Hu & H). destruct (key_writes_ok u) as (ws & E & P). rewrite E in H. destruct H as (ws' & Pw & H).
  rewrite (writes_ok u ws ws' Hu E Pw) in H. destruct H as (kis' & [PS SS] & ->).
  exists (map (fun w => (cidx (snd w), snd w)) kis').
  assert (K : forall w, In w kis' -> (IZR (cidx (snd w)) <= fst w <= IZR (cidx (snd w)) + / 2)%R /\ 0 <= snd w < c_n c).
  { intros w Hw. apply (Permutation_in _ (Permutation_sym PS)) in Hw. apply in_map_iff in Hw. destruct Hw as (n & <- & Hn). cbn [fst snd]. apply in_zrange in Hn. specialize (Hu n). split; [lra|exact Hn]. }
  split; [split|].
  - clear - SS K. unfold ksorted. induction SS as [|w l S IH F]; cbn [map]; constructor.
    + apply IH. intros; apply K; right; assumption.
    + apply Forall_forall. intros v Hv. apply in_map_iff in Hv. destruct Hv as (y & <- & Hy). cbn [fst]. rewrite Forall_forall in F. pose proof (F y Hy) as Fy.
      destruct (K w (or_introl eq_refl)) as [K1 _]. destruct (K y (or_intror Hy)) as [K2 _].
      assert (IZR (cidx (snd w)) < IZR (cidx (snd y) + 1))%R by (rewrite plus_IZR; lra). apply lt_IZR in H. lia.
  - apply (Permutation_map (fun w => (cidx (snd w), snd w))) in PS. rewrite map_map in PS. cbn [snd] in PS. exact PS.
  - f_equal. f_equal.
    + apply find_offsets_cnt; [exact SS|intros w Hw; apply K; exact Hw|]. intros w Hw. apply cidx_range. apply K. exact Hw.
    + rewrite map_map. reflexivity.
Qed.

Lemma sorts_exist (l : list (R * Z)) : exists l', sorts_to l l'.
Proof.
  induction l as [|x l IH]; [exists []; split; constructor|]. destruct IH as (l' & Pm & S).
  assert (I : exists m, Permutation (x :: l') m /\ StronglySorted (fun a b => (fst a <= fst b)%R) m).
  { clear Pm. induction S as [|y r S IH F]; [exists [x]; split; [reflexivity|repeat constructor]|].
    destruct (Rle_lt_dec (fst x) (fst y)) as [H|H].
    - exists (x :: y :: r). split; [reflexivity|]. constructor; [constructor; assumption|]. constructor; [exact H|]. eapply Forall_impl; [|exact F]. cbn. intros; lra.
    - destruct IH as (m & Pm & Sm). exists (y :: m). split; [eapply perm_trans; [apply perm_swap|]; constructor; exact Pm|]. constructor; [exact Sm|].
      apply Forall_forall. intros v Hv. apply (Permutation_in _ (Permutation_sym Pm)) in Hv. destruct Hv as [<-|Hv]; [lra|]. rewrite Forall_forall in F. apply F. exact Hv. }
  destruct I as (m & Pm' & Sm). exists m. split; [|exact Sm]. eapply perm_trans; [|exact Pm']. constructor. exact Pm.
Qed.

Lemma sort_runs_exist : exists r, sort_runs g c r.
Proof.
  set (u := fun _ : Z => 1%R). assert (Hu : forall n, (0 < u n <= 1)%R) by (intros; unfold u; lra).
  destruct (key_writes_ok u) as (ws & E & P). destruct (sorts_exist (map (fun n => ((IZR (cidx n) + / 2 * u n)%R, n)) (zrange 0 (c_n c)))) as (l & Hl).
  exists (Some (find_offsets g (map fst l), map snd l)), u. split; [exact Hu|]. rewrite E. exists ws. split; [reflexivity|].
  rewrite (writes_ok u ws ws Hu E (Permutation_refl _)). exists l. split; [exact Hl|reflexivity].
Qed.
End Cells.
