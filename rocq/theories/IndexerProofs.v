From Verif Require Import Base DomainSpec IndexerModel.
Local Open Scope Z_scope.

Definition int3 (p : V3 Z) : Prop := forall d, - 2 ^ 31 <= get3 p d < 2 ^ 31.

Section Indexer.
  Variable ldims : V3 Z.
  Hypothesis Hpos : all_pos ldims.
  Hypothesis Hvol : volume ldims < 2 ^ 31.

  Lemma vol_bounds d : 1 <= get3 ldims d < 2 ^ 31.
  Proof.
    pose proof (Hpos D0) as H0. pose proof (Hpos D1) as H1. pose proof (Hpos D2) as H2.
    unfold volume in Hvol. cbn [get3] in *.
    assert (c0 ldims <= c0 ldims * c1 ldims) by nia.
    assert (c1 ldims <= c0 ldims * c1 ldims) by nia.
    assert (c0 ldims * c1 ldims <= c0 ldims * c1 ldims * c2 ldims) by nia.
    assert (c2 ldims <= c0 ldims * c1 ldims * c2 ldims) by nia.
    destruct d; cbn [get3]; lia.
  Qed.

  Lemma uint_small x : 0 <= x < 2 ^ 32 -> uint x = x.
  Proof. intros H. unfold uint. apply Z.mod_small. exact H. Qed.

  Lemma uint_cmp d x : - 2 ^ 31 <= x < 2 ^ 31 ->
    (uint (get3 ldims d) <=? uint x) = negb ((0 <=? x) && (x <? get3 ldims d)).
  Proof.
    intros Hx. pose proof (vol_bounds d) as H. rewrite (uint_small (get3 ldims d)) by lia.
    generalize dependent (get3 ldims d). intros l H.
    destruct (Z.leb_spec 0 x).
    - rewrite uint_small by lia. cbn [andb]. destruct (Z.leb_spec l x), (Z.ltb_spec x l); cbn; lia.
    - cbn [andb negb]. unfold uint. rewrite <- (Z.mod_unique x (2 ^ 32) (-1) (x + 2 ^ 32)) by lia.
      apply Z.leb_le. lia.
  Qed.

  Lemma invalid_iff cpos : int3 cpos ->
    existsb (fun d => uint (get3 ldims d) <=? uint (get3 cpos d)) dims3 = true <-> ~ in_box ldims cpos.
  Proof.
    intros Hc. rewrite existsb_exists. split.
    - intros [d [_ H]] Hb. rewrite uint_cmp in H by apply Hc. specialize (Hb d).
      destruct (Z.leb_spec 0 (get3 cpos d)), (Z.ltb_spec (get3 cpos d) (get3 ldims d)); cbn in H; lia.
    - intros H.
      assert (D : forall d, 0 <= get3 cpos d < get3 ldims d \/ ~ 0 <= get3 cpos d < get3 ldims d) by (intros; lia).
      assert (E : exists d, ~ 0 <= get3 cpos d < get3 ldims d).
      { destruct (D D0) as [A0|A0]; [|eauto]. destruct (D D1) as [A1|A1]; [|eauto].
        destruct (D D2) as [A2|A2]; [|eauto]. exfalso. apply H. intros []; assumption. }
      destruct E as [d Hd]. exists d. split; [apply in_dims3|]. rewrite uint_cmp by apply Hc.
      destruct (Z.leb_spec 0 (get3 cpos d)), (Z.ltb_spec (get3 cpos d) (get3 ldims d)); cbn; lia.
  Qed.

  Lemma valid_pos_iff cpos : int3 cpos -> is_valid_cell_position ldims cpos = true <-> in_box ldims cpos.
  Proof.
    intros Hc. unfold is_valid_cell_position. rewrite forallb_forall. split.
    - intros H d. specialize (H d (in_dims3 d)). rewrite uint_cmp in H by apply Hc.
      destruct (Z.leb_spec 0 (get3 cpos d)), (Z.ltb_spec (get3 cpos d) (get3 ldims d)); cbn in H; lia.
    - intros H d _. rewrite uint_cmp by apply Hc. specialize (H d).
      destruct (Z.leb_spec 0 (get3 cpos d)), (Z.ltb_spec (get3 cpos d) (get3 ldims d)); cbn; lia.
  Qed.

  Definition flat (cpos : V3 Z) : Z := (c2 cpos * c1 ldims + c1 cpos) * c0 ldims + c0 cpos.

  Lemma in_box_int3 cpos : in_box ldims cpos -> int3 cpos.
  Proof. intros H d. specialize (H d). pose proof (vol_bounds d). lia. Qed.

  Lemma flat_range cpos : in_box ldims cpos -> 0 <= flat cpos < volume ldims.
  Proof.
    intros H. pose proof (H D0) as H0. pose proof (H D1) as H1. pose proof (H D2) as H2.
    unfold flat, volume. cbn [get3] in *.
    assert (A : c2 cpos * c1 ldims <= (c2 ldims - 1) * c1 ldims) by (apply Z.mul_le_mono_nonneg_r; lia).
    assert (0 <= c2 cpos * c1 ldims) by (apply Z.mul_nonneg_nonneg; lia).
    assert (B : (c2 cpos * c1 ldims + c1 cpos) * c0 ldims <= (c2 ldims * c1 ldims - 1) * c0 ldims)
      by (apply Z.mul_le_mono_nonneg_r; lia).
    assert (0 <= (c2 cpos * c1 ldims + c1 cpos) * c0 ldims) by (apply Z.mul_nonneg_nonneg; lia).
    lia.
  Qed.

  Lemma int_op_ok x : - 2 ^ 31 <= x < 2 ^ 31 -> int_op x = Some x.
  Proof.
    intros H. unfold int_op, is_int. destruct (Z.leb_spec (- 2 ^ 31) x), (Z.ltb_spec x (2 ^ 31)); try lia. reflexivity.
  Qed.

  Lemma cell_index_valid cpos : in_box ldims cpos -> cell_index ldims cpos = Some (flat cpos).
  Proof.
    intros H. unfold cell_index. pose proof (invalid_iff cpos (in_box_int3 cpos H)) as HI.
    destruct (existsb _ _); [exfalso; apply HI; auto|].
    pose proof (H D0) as H0. pose proof (H D1) as H1. pose proof (H D2) as H2. cbn [get3] in *.
    pose proof (flat_range cpos H) as HF. unfold flat, volume in *.
    assert (0 <= c2 cpos * c1 ldims) by (apply Z.mul_nonneg_nonneg; lia).
    assert (B : c2 cpos * c1 ldims + c1 cpos <= (c2 cpos * c1 ldims + c1 cpos) * c0 ldims)
      by (rewrite <- (Z.mul_1_r (c2 cpos * c1 ldims + c1 cpos)) at 1; apply Z.mul_le_mono_nonneg_l; lia).
    rewrite int_op_ok by lia. rewrite int_op_ok by lia. rewrite int_op_ok by lia. apply int_op_ok. lia.
  Qed.

  Lemma cell_index_invalid cpos : int3 cpos -> ~ in_box ldims cpos -> cell_index ldims cpos = Some (-1).
  Proof.
    intros Hc H. unfold cell_index. apply (invalid_iff cpos Hc) in H. rewrite H. reflexivity.
  Qed.

  Lemma flat_inj p q : in_box ldims p -> in_box ldims q -> flat p = flat q -> p = q.
  Proof.
    intros Hp Hq E. unfold flat in E.
    pose proof (Hp D0) as P0. pose proof (Hp D1) as P1. pose proof (Hp D2) as P2.
    pose proof (Hq D0) as Q0. pose proof (Hq D1) as Q1. pose proof (Hq D2) as Q2. cbn [get3] in *.
    destruct (Z.div_mod_unique (c0 ldims) (c2 p * c1 ldims + c1 p) (c2 q * c1 ldims + c1 q) (c0 p) (c0 q)) as [E1 E0];
      [left; lia|left; lia|lia|].
    destruct (Z.div_mod_unique (c1 ldims) (c2 p) (c2 q) (c1 p) (c1 q)) as [E2 E1'];
      [left; lia|left; lia|lia|].
    apply v3_ext. intros []; cbn; assumption.
  Qed.

  Lemma flat_surj i : 0 <= i < volume ldims -> exists p, in_box ldims p /\ flat p = i.
  Proof.
    intros Hi. pose proof (Hpos D0) as H0. pose proof (Hpos D1) as H1. pose proof (Hpos D2) as H2. cbn [get3] in *.
    set (a := i / c0 ldims). exists (v3 (i mod c0 ldims) (a mod c1 ldims) (a / c1 ldims)).
    pose proof (Z.mod_pos_bound i (c0 ldims) H0). pose proof (Z.mod_pos_bound a (c1 ldims) H1).
    assert (0 <= a) by (apply Z.div_pos; lia).
    assert (a < c1 ldims * c2 ldims).
    { apply Z.div_lt_upper_bound; [lia|]. unfold volume in Hi. lia. }
    split.
    - intros []; cbn [get3 c0 c1 c2]; try assumption. split; [apply Z.div_pos; lia|].
      apply Z.div_lt_upper_bound; lia.
    - unfold flat. cbn [c0 c1 c2]. rewrite (Z.mul_comm (a / c1 ldims)), <- Z.div_mod by lia.
      unfold a. rewrite Z.mul_comm, <- Z.div_mod by lia. reflexivity.
  Qed.

  Lemma n_cells_ok : n_cells ldims = Some (volume ldims).
  Proof.
    pose proof (Hpos D0) as H0. pose proof (Hpos D1) as H1. pose proof (Hpos D2) as H2. cbn [get3] in *.
    unfold n_cells, volume in *.
    assert (0 < c0 ldims * c1 ldims) by (apply Z.mul_pos_pos; lia).
    assert (c0 ldims * c1 ldims <= c0 ldims * c1 ldims * c2 ldims)
      by (rewrite <- (Z.mul_1_r (c0 ldims * c1 ldims)) at 1; apply Z.mul_le_mono_nonneg_l; lia).
    rewrite int_op_ok by lia. apply int_op_ok. lia.
  Qed.

  Lemma cell_index_full :
    n_cells ldims = Some (volume ldims) /\
    (forall cpos, int3 cpos -> ~ in_box ldims cpos ->
       cell_index ldims cpos = Some (-1) /\ is_valid_cell_position ldims cpos = false /\
       valid_cell_index ldims cpos = None) /\
    (forall cpos, in_box ldims cpos -> exists i, 0 <= i < volume ldims /\
       cell_index ldims cpos = Some i /\ is_valid_cell_position ldims cpos = true /\
       valid_cell_index ldims cpos = Some i) /\
    (forall p q i, in_box ldims p -> in_box ldims q ->
       cell_index ldims p = Some i -> cell_index ldims q = Some i -> p = q) /\
    (forall i, 0 <= i < volume ldims -> exists p, in_box ldims p /\ cell_index ldims p = Some i).
  Proof.
    split; [apply n_cells_ok|]. split; [|split; [|split]].
    - intros cpos Hc Hn. split; [apply cell_index_invalid; assumption|].
      assert (E : is_valid_cell_position ldims cpos = false).
      { destruct (is_valid_cell_position ldims cpos) eqn:E; [|reflexivity].
        apply valid_pos_iff in E; [contradiction|exact Hc]. }
      split; [exact E|]. unfold valid_cell_index. rewrite E. reflexivity.
    - intros cpos Hb. exists (flat cpos). pose proof (flat_range cpos Hb) as HF. split; [exact HF|].
      pose proof (cell_index_valid cpos Hb) as E. split; [exact E|].
      assert (V : is_valid_cell_position ldims cpos = true) by (apply valid_pos_iff; [apply in_box_int3|]; exact Hb).
      split; [exact V|]. unfold valid_cell_index. rewrite V, E. destruct (Z.leb_spec 0 (flat cpos)); [reflexivity|lia].
    - intros p q i Hp Hq Ep Eq. rewrite cell_index_valid in Ep, Eq by assumption. apply flat_inj; [assumption..|congruence].
    - intros i Hi. destruct (flat_surj i Hi) as [p [Hp E]]. exists p. split; [exact Hp|].
      rewrite cell_index_valid by exact Hp. rewrite E. reflexivity.
  Qed.
End Indexer.
