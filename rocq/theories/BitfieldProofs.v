From Verif Require Import Base Arr DomainSpec CollisionModel CollisionProofs StorageProofs BitfieldModel.
Local Open Scope Z_scope.

(** the value a position has after a sequence of settings: that of the last one *)
Fixpoint last_value (ops : list (V3 Z * bool)) (idx : V3 Z) (b : bool) : bool :=
  match ops with
  | [] => b
  | (i, v) :: ops => last_value ops idx (if (c0 i =? c0 idx) && (c1 i =? c1 idx) && (c2 i =? c2 idx) then v else b)
  end.

Definition small (size : V3 Z) : Prop := all_pos size /\ volume size < 2 ^ 32.

Lemma create_small size : small size ->
  bf_create size = Bitfield (repeat 0 (Z.to_nat ((volume size + 63) / 64))) (c0 size) (c0 size * c1 size) ((volume size + 63) / 64).
Proof.
  intros [Hp Hv]. pose proof (Hp D0). pose proof (Hp D1). pose proof (Hp D2). cbn [get3] in *.
  unfold bf_create, volume, u32 in *. assert (0 < c0 size * c1 size) by (apply Z.mul_pos_pos; lia).
  assert (c0 size * c1 size <= c0 size * c1 size * c2 size).
  { rewrite <- (Z.mul_1_r (c0 size * c1 size)) at 1. apply Z.mul_le_mono_nonneg_l; lia. }
  rewrite (Z.mod_small (c0 size * c1 size)) by lia. rewrite (Z.mod_small (c0 size * c1 size * c2 size)) by lia. reflexivity.
Qed.

Definition flatb (size idx : V3 Z) : Z := c0 idx + c0 size * (c1 idx + c1 size * c2 idx).

Lemma flatb_range size idx : in_box size idx -> 0 <= flatb size idx < volume size.
Proof.
  intros H. pose proof (H D0). pose proof (H D1). pose proof (H D2). cbn [get3] in *.
  unfold flatb, volume. rewrite <- Z.mul_assoc. apply digit_range; [lia|]. apply digit_range; lia.
Qed.

Lemma flatb_inj size i j : in_box size i -> in_box size j -> flatb size i = flatb size j -> i = j.
Proof.
  intros Hi Hj E. pose proof (Hi D0). pose proof (Hi D1). pose proof (Hj D0). pose proof (Hj D1). cbn [get3] in *.
  unfold flatb in E. apply digit_inj in E; [|lia|lia]. destruct E as [E0 E]. apply digit_inj in E; [|lia|lia].
  destruct E as [E1 E2]. destruct i, j; cbn in *; congruence.
Qed.

Lemma bf_index_flat f size idx : small size -> in_box size idx ->
  bf_ystride f = c0 size -> bf_zstride f = c0 size * c1 size -> bf_index f idx = flatb size idx.
Proof.
  intros [Hp Hv] Hi Hy Hz. unfold bf_index. rewrite Hy, Hz. unfold u32.
  replace (c0 idx + c1 idx * c0 size + c2 idx * (c0 size * c1 size)) with (flatb size idx) by (unfold flatb; ring).
  pose proof (flatb_range size idx Hi). apply Z.mod_small. lia.
Qed.

Lemma foreach_in size idx : In idx (foreach_3d size) <-> in_box size idx.
Proof.
  unfold foreach_3d. rewrite in_flat_map. split.
  - intros [k [Hk H]]. apply in_flat_map in H. destruct H as [j [Hj H]]. apply in_map_iff in H. destruct H as [i [<- Hi]].
    apply in_zrange in Hi, Hj, Hk. intros []; cbn; assumption.
  - intros H. pose proof (H D0). pose proof (H D1). pose proof (H D2). cbn [get3] in *. destruct idx as [i j k].
    exists k. split; [apply in_zrange; assumption|]. apply in_flat_map. exists j. split; [apply in_zrange; assumption|].
    apply in_map_iff. exists i. split; [reflexivity|]. apply in_zrange. assumption.
Qed.

(** ** In bounds *)

(** exactly the fields of at most 32 bits can be accessed everywhere *)
Lemma in_bounds_iff size : small size ->
  ((forall idx, in_box size idx -> exists b, bf_isset (bf_create size) idx = Some b) <-> volume size <= 32).
Proof.
  intros Hs. pose proof Hs as [Hp Hv]. rewrite create_small by exact Hs. set (f := Bitfield _ _ _ _). split.
  - intros H. destruct (Z_le_dec (volume size) 32) as [|Hgt]; [assumption|exfalso].
    set (idx := v3 (c0 size - 1) (c1 size - 1) (c2 size - 1)).
    pose proof (Hp D0). pose proof (Hp D1). pose proof (Hp D2). cbn [get3] in *.
    assert (Hi : in_box size idx) by (intros []; cbn; lia).
    destruct (H idx Hi) as [b Hb]. unfold bf_isset in Hb. rewrite (bf_index_flat f size idx Hs Hi eq_refl eq_refl) in Hb.
    assert (E : flatb size idx = volume size - 1) by (unfold flatb, volume, idx; cbn; ring). rewrite E in Hb.
    cbn [f bf_values] in Hb. rewrite aget_none in Hb; [discriminate|]. rewrite alen_repeat. lia.
  - intros HV idx Hi. unfold bf_isset. rewrite (bf_index_flat f size idx Hs Hi eq_refl eq_refl).
    pose proof (flatb_range size idx Hi). cbn [f bf_values].
    destruct (aget_some (repeat 0 (Z.to_nat ((volume size + 63) / 64))) (flatb size idx / 32)) as [v E];
      [rewrite alen_repeat; lia|]. rewrite E. eauto.
Qed.

(** the check in bitfield3d_set does not notice: it lets through an index which is
    just past the end *)
Lemma set_oob_not_asserted size : small size -> volume size = 64 ->
  exists idx, in_box size idx /\ bf_set (bf_create size) idx true = None /\
    bf_index (bf_create size) idx / 32 <= bf_length (bf_create size).
Proof.
  intros Hs HV. pose proof Hs as [Hp Hv]. rewrite create_small by exact Hs.
  set (f := Bitfield _ _ _ _). set (idx := v3 (c0 size - 1) (c1 size - 1) (c2 size - 1)).
  pose proof (Hp D0). pose proof (Hp D1). pose proof (Hp D2). cbn [get3] in *.
  assert (Hi : in_box size idx) by (intros []; cbn; lia). exists idx. split; [exact Hi|].
  assert (E : flatb size idx = 63) by (unfold flatb, volume, idx in *; cbn; lia).
  unfold bf_set. rewrite (bf_index_flat f size idx Hs Hi eq_refl eq_refl), E. subst f. rewrite HV. split; [reflexivity|cbn; lia].
Qed.

(** ** At most 31 bits: correct *)

Definition bits_ok (N v : Z) (b : Z -> bool) : Prop :=
  forall j, 0 <= j -> Z.testbit v j = (j <? N) && b j.

Lemma mask_bit p j : 0 <= p < 31 -> 0 <= j -> Z.testbit (bf_mask p) j = (j =? p).
Proof.
  intros Hp Hj. unfold bf_mask. destruct (Z.eqb_spec p 31); [lia|].
  rewrite Z.pow2_bits_eqb by lia. apply Z.eqb_sym.
Qed.

Lemma land_mask v p : 0 <= p < 31 -> negb (Z.land v (bf_mask p) =? 0) = Z.testbit v p.
Proof.
  intros Hp. destruct (Z.testbit v p) eqn:E.
  - apply Bool.negb_true_iff, Z.eqb_neq. intros H. assert (Hb : Z.testbit (Z.land v (bf_mask p)) p = false) by (rewrite H; apply Z.bits_0).
    rewrite Z.land_spec, E, mask_bit, Z.eqb_refl in Hb by lia. discriminate.
  - apply Bool.negb_false_iff, Z.eqb_eq. apply Z.bits_inj'. intros j Hj. rewrite Z.land_spec, mask_bit, Z.bits_0 by lia.
    destruct (Z.eqb_spec j p) as [->|]; [rewrite E; reflexivity|apply andb_false_r].
Qed.

Lemma set_bits N v b p (x : bool) : 0 <= p < N -> N <= 31 -> bits_ok N v b ->
  bits_ok N (if x then Z.lor v (bf_mask p) else Z.land v (Z.lxor (Z.ones 64) (bf_mask p))) (fun j => if j =? p then x else b j).
Proof.
  intros Hp HN Hb j Hj. destruct x.
  - rewrite Z.lor_spec, mask_bit, (Hb j Hj) by lia. destruct (Z.eqb_spec j p), (Z.ltb_spec j N); cbn; try lia;
      rewrite ?orb_true_r, ?orb_false_r; reflexivity.
  - rewrite Z.land_spec, Z.lxor_spec, mask_bit, (Hb j Hj), Z.testbit_ones_nonneg by lia.
    destruct (Z.eqb_spec j p), (Z.ltb_spec j N), (Z.ltb_spec j 64); cbn; try lia; rewrite ?andb_false_r, ?andb_true_r; reflexivity.
Qed.

Section Small.
  Variable size : V3 Z.
  Hypothesis Hp : all_pos size.
  Hypothesis HV : volume size <= 31.

  Lemma small_size : small size.
  Proof. split; [exact Hp|lia]. Qed.

  Definition st_ok (f : bitfield) (b : V3 Z -> bool) : Prop :=
    exists v, f = Bitfield [v] (c0 size) (c0 size * c1 size) 1 /\
      exists bz, bits_ok (volume size) v bz /\ forall idx, in_box size idx -> bz (flatb size idx) = b idx.

  Lemma vol_pos : 0 < volume size.
  Proof.
    pose proof (Hp D0). pose proof (Hp D1). pose proof (Hp D2). cbn [get3] in *. unfold volume.
    apply Z.mul_pos_pos; [apply Z.mul_pos_pos|]; lia.
  Qed.

  Lemma create_ok : st_ok (bf_create size) (fun _ => false).
  Proof.
    pose proof vol_pos. rewrite create_small by apply small_size. exists 0. split.
    - replace ((volume size + 63) / 64) with 1 by lia. reflexivity.
    - exists (fun _ => false). split; [|reflexivity]. intros j Hj. rewrite Z.bits_0, andb_false_r. reflexivity.
  Qed.

  Definition same3 (i j : V3 Z) : bool := (c0 i =? c0 j) && (c1 i =? c1 j) && (c2 i =? c2 j).

  Lemma same3_eq i j : same3 i j = true <-> i = j.
  Proof.
    unfold same3. rewrite !andb_true_iff, !Z.eqb_eq. destruct i, j; cbn. split; [intros [[-> ->] ->]; reflexivity|].
    intros E. injection E as -> -> ->. auto.
  Qed.

  Lemma set_ok f b idx x : st_ok f b -> in_box size idx -> exists f', bf_set f idx x = Some f' /\
    st_ok f' (fun i => if same3 idx i then x else b i).
  Proof.
    intros [v [-> [bz [Hb Hbz]]]] Hi. unfold bf_set.
    rewrite (bf_index_flat (Bitfield [v] (c0 size) (c0 size * c1 size) 1) size idx small_size Hi eq_refl eq_refl). pose proof (flatb_range size idx Hi) as HR.
    replace (flatb size idx / 32) with 0 by lia. replace (flatb size idx mod 32) with (flatb size idx) by lia.
    cbn [bf_length bf_values Z.leb]. cbn [aget aset Z.ltb Z.to_nat nth_error nset Z.compare]. eexists. split; [reflexivity|].
    eexists. split; [reflexivity|]. eexists. split; [apply set_bits; [exact HR|lia|exact Hb]|].
    intros i Hin. cbn. destruct (Z.eqb_spec (flatb size i) (flatb size idx)) as [E|N].
    - apply flatb_inj in E; [|assumption..]. subst. rewrite (proj2 (same3_eq idx idx) eq_refl). reflexivity.
    - destruct (same3 idx i) eqn:E; [apply same3_eq in E; subst; congruence|]. apply Hbz, Hin.
  Qed.

  Lemma sets_ok : forall ops f b, st_ok f b -> Forall (fun o => in_box size (fst o)) ops ->
    exists f', bf_sets f ops = Some f' /\ st_ok f' (fun i => last_value ops i (b i)).
  Proof.
    induction ops as [|[i x] ops IH]; intros f b Hst Hops; [exists f; split; [reflexivity|exact Hst]|].
    inversion Hops as [|? ? Hi Hr]; subst. cbn [fst] in Hi. destruct (set_ok f b i x Hst Hi) as [f1 [E1 St1]].
    cbn [bf_sets last_value]. rewrite E1. apply (IH f1 _ St1 Hr).
  Qed.

  Lemma isset_ok f b idx : st_ok f b -> in_box size idx -> bf_isset f idx = Some (b idx).
  Proof.
    intros [v [-> [bz [Hb Hbz]]]] Hi. unfold bf_isset.
    rewrite (bf_index_flat (Bitfield [v] (c0 size) (c0 size * c1 size) 1) size idx small_size Hi eq_refl eq_refl). pose proof (flatb_range size idx Hi) as HR.
    replace (flatb size idx / 32) with 0 by lia. replace (flatb size idx mod 32) with (flatb size idx) by lia.
    cbn [bf_values]. change (aget [v] 0) with (Some v). cbv iota beta. f_equal. rewrite land_mask by lia. rewrite Hb by lia.
    destruct (Z.ltb_spec (flatb size idx) (volume size)); [|lia]. cbn. apply Hbz, Hi.
  Qed.

  Lemma count_ok f b : st_ok f b -> bf_count f = alen (filter b (foreach_3d size)).
  Proof.
    intros [v [-> [bz [Hb Hbz]]]]. unfold bf_count. cbn [bf_values map zsum]. rewrite Z.add_0_r.
    pose proof vol_pos. unfold popcount.
    rewrite (zrange_split 0 (volume size) 64) by lia. rewrite filter_app, alen_app.
    replace (filter (Z.testbit v) (zrange (volume size) 64)) with (@nil Z).
    2:{ symmetry. destruct (filter _ _) as [|j r] eqn:E; [reflexivity|exfalso].
        assert (Hin : In j (filter (Z.testbit v) (zrange (volume size) 64))) by (rewrite E; now left).
        apply filter_In in Hin. destruct Hin as [Hin Ht]. apply in_zrange in Hin. rewrite Hb in Ht by lia.
        destruct (Z.ltb_spec j (volume size)); [lia|discriminate]. }
    change (alen (@nil Z)) with 0. rewrite Z.add_0_r.
    pose proof (Hp D0). pose proof (Hp D1). pose proof (Hp D2). cbn [get3] in *.
    rewrite <- foreach_flat by lia.
    assert (G : forall l, (forall i, In i l -> in_box size i) -> alen (filter (Z.testbit v) (map (flatc size) l)) = alen (filter b l)).
    { induction l as [|i l IH]; intros Hl; [reflexivity|]. cbn [map filter].
      assert (Hi : in_box size i) by (apply Hl; now left). pose proof (flatb_range size i Hi) as HR.
      assert (E : flatc size i = flatb size i) by (unfold flatc, flatb; ring).
      assert (Eb : Z.testbit v (flatc size i) = b i).
      { rewrite E, Hb by lia. destruct (Z.ltb_spec (flatb size i) (volume size)); [|lia]. cbn. apply Hbz, Hi. }
      rewrite Eb. destruct (b i); [rewrite !alen_cons; f_equal|]; apply IH; intros; apply Hl; now right. }
    apply G. intros i. apply foreach_in.
  Qed.
End Small.

Lemma bitfield_ok size ops : all_pos size -> volume size <= 31 -> Forall (fun o => in_box size (fst o)) ops ->
  exists f, bf_sets (bf_create size) ops = Some f /\
    (forall idx, in_box size idx -> bf_isset f idx = Some (last_value ops idx false)) /\
    bf_count f = alen (filter (fun idx => last_value ops idx false) (foreach_3d size)).
Proof.
  intros Hp HV Ho. destruct (sets_ok size Hp HV ops _ _ (create_ok size Hp HV) Ho) as [f [E St]].
  exists f. split; [exact E|]. split; [intros idx Hi; apply (isset_ok size Hp HV f _ idx St Hi)|].
  apply (count_ok size Hp HV f _ St).
Qed.
