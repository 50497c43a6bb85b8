From Verif Require Import Base Arr DomainSpec SortSpec SortProofs CollisionModel CollisionSpec.
Local Open Scope Z_scope.

(** ** Lists *)

Lemma zrange_shift lo hi k : zrange (lo + k) (hi + k) = map (fun i => k + i) (zrange lo hi).
Proof.
  unfold zrange. rewrite map_map. replace (hi + k - (lo + k)) with (hi - lo) by lia.
  apply map_ext. intros; lia.
Qed.

Lemma zrange_split lo mid hi : lo <= mid <= hi -> zrange lo hi = zrange lo mid ++ zrange mid hi.
Proof.
  intros H. apply alist_ext.
  - rewrite alen_app, !alen_zrange by lia. lia.
  - intros i Hi. rewrite aget_app. rewrite alen_zrange in * by lia. rewrite !aget_zrange.
    destruct (Z.ltb_spec i (mid - lo)); destruct (Z.leb_spec 0 i), (Z.ltb_spec i (hi - lo)), (Z.ltb_spec (i - (mid - lo)) (hi - mid)), (Z.leb_spec 0 (i - (mid - lo))); try lia; cbn [andb]; try reflexivity.
    f_equal. lia.
Qed.

(** counting in base n *)
Lemma zrange_mul m n : 0 <= m -> 0 <= n ->
  flat_map (fun j => map (fun i => j * n + i) (zrange 0 n)) (zrange 0 m) = zrange 0 (m * n).
Proof.
  intros Hm Hn. pattern m. apply natlike_ind; [reflexivity| |exact Hm].
  clear m Hm. intros m Hm IH. unfold Z.succ. rewrite zrange_snoc, flat_map_app' by lia. rewrite IH.
  cbn [flat_map]. rewrite app_nil_r, <- (zrange_shift 0 n (m * n)).
  assert (0 <= m * n) by (apply Z.mul_nonneg_nonneg; assumption).
  replace (0 + m * n) with (m * n) by lia. rewrite <- zrange_split by lia. f_equal. lia.
Qed.

Lemma flat_map_map {A B C} (f : A -> B) (g : B -> list C) l : flat_map g (map f l) = flat_map (fun x => g (f x)) l.
Proof. induction l as [|x l IH]; [reflexivity|]. cbn. rewrite IH. reflexivity. Qed.

Lemma map_flat_map {A B C} (f : B -> C) (g : A -> list B) l : map f (flat_map g l) = flat_map (fun x => map f (g x)) l.
Proof. induction l as [|x l IH]; [reflexivity|]. cbn. rewrite map_app, IH. reflexivity. Qed.

Definition flatc (ldims i : V3 Z) : Z := (c2 i * c1 ldims + c1 i) * c0 ldims + c0 i.

Lemma foreach_flat ldims : 0 <= c0 ldims -> 0 <= c1 ldims -> 0 <= c2 ldims ->
  map (flatc ldims) (foreach_3d ldims) = zrange 0 (volume ldims).
Proof.
  intros H0 H1 H2. unfold foreach_3d, volume.
  replace (c0 ldims * c1 ldims * c2 ldims) with (c2 ldims * c1 ldims * c0 ldims) by ring.
  rewrite <- (zrange_mul (c2 ldims * c1 ldims) (c0 ldims)) by (try apply Z.mul_nonneg_nonneg; assumption).
  rewrite <- (zrange_mul (c2 ldims) (c1 ldims)) by assumption.
  rewrite map_flat_map.
  induction (zrange 0 (c2 ldims)) as [|k l IH]; [reflexivity|]. cbn [flat_map].
  rewrite flat_map_app', <- IH. f_equal. rewrite map_flat_map, flat_map_map. apply flat_map_ext. intros j.
  rewrite map_map. apply map_ext. intros i. reflexivity.
Qed.

Lemma filter_concat_one {A B} (f : A -> list B) (p : B -> bool) l a : NoDup l -> In a l ->
  (forall b, In b l -> b <> a -> filter p (f b) = []) -> filter p (concat (map f l)) = filter p (f a).
Proof.
  induction l as [|x l IH]; intros HN Hin Ho; [destruct Hin|]. cbn. rewrite filter_app.
  inversion HN as [|? ? Hx HN']; subst. destruct Hin as [->|Hin].
  - replace (filter p (concat (map f l))) with (@nil B); [apply app_nil_r|].
    assert (Ho' : forall b, In b l -> filter p (f b) = []).
    { intros b Hb. apply Ho; [now right|]. intros ->. contradiction. }
    clear - Ho'. induction l as [|y l IH]; [reflexivity|]. cbn. rewrite filter_app, Ho' by now left.
    apply IH. intros; apply Ho'; now right.
  - rewrite (Ho x); [|now left|intros ->; contradiction]. cbn. apply IH; auto. intros; apply Ho; auto. now right.
Qed.

(** ** The pairs in one cell *)

Fixpoint pairs2 (l : list Z) : list event :=
  match l with a :: b :: r => (a, b, 2) :: pairs2 r | _ => [] end.

Definition pairing (l : list Z) : list event :=
  if alen l <? 2 then []
  else if Z.even (alen l) then pairs2 l
  else match l with
       | a :: b :: c :: r => [(a, b, 1); (a, c, 1); (b, c, 1)] ++ pairs2 r
       | _ => []
       end.

Lemma list_even_ind {A} (P : list A -> Prop) : P [] ->
  (forall a b r, Z.even (alen r) = true -> P r -> P (a :: b :: r)) -> forall l, Z.even (alen l) = true -> P l.
Proof.
  intros H0 HS. assert (G : forall n l, (length l <= n)%nat -> Z.even (alen l) = true -> P l).
  { induction n as [|n IH]; intros [|a [|b r]] Hl He; cbn in Hl; try lia; try exact H0; try discriminate.
    rewrite !alen_cons in He. replace (1 + (1 + alen r)) with (Z.succ (Z.succ (alen r))) in He by lia.
    rewrite Z.even_succ_succ in He. apply HS; [exact He|]. apply IH; [lia|exact He]. }
  intros l. apply (G (length l)). lia.
Qed.

Lemma aget_app_r {A} (pre rest : list A) i : 0 <= i -> aget (pre ++ rest) (alen pre + i) = aget rest i.
Proof.
  intros H. rewrite aget_app. destruct (Z.ltb_spec (alen pre + i) (alen pre)); [lia|]. f_equal. lia.
Qed.

Lemma collide_pairs_ok cap : forall rest, Z.even (alen rest) = true ->
  forall pre permute fuel evs n, permute = pre ++ rest -> n = alen pre -> (length rest <= fuel)%nat ->
  2 * alen evs + alen rest <= 2 * cap ->
  collide_pairs fuel cap permute n evs = Some (evs ++ pairs2 rest).
Proof.
  apply (list_even_ind (fun rest => forall pre permute fuel evs n, permute = pre ++ rest -> n = alen pre ->
    (length rest <= fuel)%nat -> 2 * alen evs + alen rest <= 2 * cap ->
    collide_pairs fuel cap permute n evs = Some (evs ++ pairs2 rest))).
  - intros pre permute fuel evs n -> -> _ _. rewrite !app_nil_r.
    destruct fuel; cbn [collide_pairs]; (destruct (Z.ltb_spec (alen pre) (alen pre)); [lia|reflexivity]).
  - intros a b r He IH pre permute fuel evs n Hp -> Hf Hc. destruct fuel as [|fuel]; [cbn in Hf; lia|].
    cbn [collide_pairs]. assert (HL : alen permute = alen pre + 2 + alen r) by (rewrite Hp, alen_app, !alen_cons; lia).
    pose proof (alen_nonneg r). destruct (Z.ltb_spec (alen pre) (alen permute)); [|lia].
    unfold do_bc.
    assert (Ea : aget permute (alen pre) = Some a).
    { rewrite Hp. replace (alen pre) with (alen pre + 0) by lia. rewrite aget_app_r by lia. reflexivity. }
    assert (Eb : aget permute (alen pre + 1) = Some b) by (rewrite Hp, aget_app_r by lia; reflexivity).
    rewrite Ea, Eb.
    rewrite !alen_cons in Hc. destruct (Z.ltb_spec (alen evs) cap); [|lia].
    rewrite (IH (pre ++ [a; b])).
    + cbn [pairs2]. rewrite <- app_assoc. reflexivity.
    + rewrite Hp, <- app_assoc. reflexivity.
    + rewrite alen_app, !alen_cons, alen_nil. lia.
    + cbn in Hf. lia.
    + rewrite alen_app, alen_cons, alen_nil. lia.
Qed.

Lemma even_rem n : 0 <= n -> (Z.rem n 2 =? 1) = negb (Z.even n).
Proof.
  intros H. rewrite Z.rem_mod_nonneg by lia. rewrite Zmod_even. destruct (Z.even n); reflexivity.
Qed.

Lemma collide_in_cell_ok permute : collide_in_cell permute = Some (pairing permute).
Proof.
  unfold collide_in_cell, pairing. destruct (Z.ltb_spec (alen permute) 2) as [H|H]; [reflexivity|].
  rewrite even_rem by lia. assert (HQ : 2 * Z.quot (alen permute) 2 + 1 >= alen permute).
  { rewrite Z.quot_div_nonneg by lia. lia. }
  destruct (Z.even (alen permute)) eqn:He; cbn [negb].
  - rewrite (collide_pairs_ok _ permute He [] permute); try reflexivity; change (alen (@nil event)) with 0; lia.
  - destruct permute as [|a [|b [|c r]]]; [cbn in *; discriminate|unfold alen in H; cbn in H; lia|cbn in He; discriminate|].
    set (cap := Z.quot _ 2 + 2).
    assert (Hcap : 2 <= cap /\ 2 * cap >= alen (a :: b :: c :: r) + 3) by (unfold cap; lia).
    clearbody cap. unfold do_bc at 1. change (aget (a :: b :: c :: r) 0) with (Some a).
    change (aget (a :: b :: c :: r) 1) with (Some b). rewrite !alen_cons, alen_nil in *.
    pose proof (alen_nonneg r).
    destruct (Z.ltb_spec 0 cap); [|lia]. cbn [app].
    unfold do_bc at 1. change (aget (a :: b :: c :: r) 0) with (Some a).
    change (aget (a :: b :: c :: r) 2) with (Some c). rewrite !alen_cons, alen_nil.
    destruct (Z.ltb_spec (1 + 0) cap); [|lia]. cbn [app].
    unfold do_bc at 1. change (aget (a :: b :: c :: r) 1) with (Some b).
    change (aget (a :: b :: c :: r) 2) with (Some c). rewrite !alen_cons, alen_nil.
    destruct (Z.ltb_spec (1 + (1 + 0)) cap); [|lia]. cbn [app].
    rewrite (collide_pairs_ok cap r) with (pre := [a; b; c]).
    + reflexivity.
    + replace (1 + (1 + (1 + alen r))) with (Z.succ (Z.succ (Z.succ (alen r)))) in He by lia.
      rewrite Z.even_succ_succ, Z.even_succ, <- Z.negb_even in He. destruct (Z.even (alen r)); [reflexivity|discriminate].
    + reflexivity.
    + reflexivity.
    + cbn. lia.
    + rewrite !alen_cons, alen_nil. lia.
Qed.

Lemma pairs2_in l a b h : In (a, b, h) (pairs2 l) -> In a l /\ In b l.
Proof.
  assert (G : forall n l, (length l <= n)%nat -> In (a, b, h) (pairs2 l) -> In a l /\ In b l); [|eauto].
  induction n as [|n IH]; intros [|x [|y r]] HL H; cbn in HL; try lia; try (destruct H; fail); destruct H as [H|H].
  - injection H; intros; subst. cbn. auto.
  - destruct (IH r ltac:(lia) H). cbn. auto.
Qed.

Lemma pairs2_distinct l a b h : NoDup l -> In (a, b, h) (pairs2 l) -> a <> b.
Proof.
  assert (G : forall n l, (length l <= n)%nat -> NoDup l -> In (a, b, h) (pairs2 l) -> a <> b); [|eauto].
  induction n as [|n IH]; intros [|x [|y r]] HL HN H; cbn in HL; try lia; try (destruct H; fail); destruct H as [H|H].
  - injection H; intros; subst. inversion HN as [|? ? Hx _]; subst. intros ->. apply Hx. now left.
  - inversion HN as [|? ? _ HN1]; subst. inversion HN1; subst. eapply (IH r); eauto; lia.
Qed.

Lemma filter_not_in l x : ~ In x l -> filter (takes_part x) (pairs2 l) = [].
Proof.
  intros H. destruct (filter _ _) as [|[[a b] h] r] eqn:E; [reflexivity|exfalso].
  assert (Hin : In (a, b, h) (filter (takes_part x) (pairs2 l))) by (rewrite E; now left).
  apply filter_In in Hin. destruct Hin as [Hin Ht]. apply pairs2_in in Hin. cbn in Ht.
  apply orb_prop in Ht. rewrite !Z.eqb_eq in Ht. destruct Hin, Ht; subst; contradiction.
Qed.

Lemma pairs2_weight l : Z.even (alen l) = true -> NoDup l -> forall x, In x l ->
  exists a b, filter (takes_part x) (pairs2 l) = [(a, b, 2)].
Proof.
  revert l. apply (list_even_ind (fun l => NoDup l -> forall x, In x l ->
    exists a b, filter (takes_part x) (pairs2 l) = [(a, b, 2)])).
  - intros _ x [].
  - intros a b r He IH HN x Hx. inversion HN as [|? ? Ha HN1]; subst. inversion HN1 as [|? ? Hb HN2]; subst.
    cbn [pairs2 filter takes_part]. cbn in Ha.
    destruct (Z.eqb_spec a x) as [->|Na].
    + cbn [orb]. rewrite filter_not_in by tauto. eauto.
    + destruct (Z.eqb_spec b x) as [->|Nb]; cbn [orb].
      * rewrite filter_not_in by tauto. eauto.
      * apply IH; [exact HN2|]. destruct Hx as [->|[->|Hx]]; [contradiction..|exact Hx].
Qed.

Lemma pairing_in l a b h : NoDup l -> In (a, b, h) (pairing l) -> In a l /\ In b l /\ a <> b.
Proof.
  unfold pairing. intros HN H. destruct (alen l <? 2); [destruct H|]. destruct (Z.even (alen l)).
  - pose proof (pairs2_in _ _ _ _ H). pose proof (pairs2_distinct _ _ _ _ HN H). tauto.
  - destruct l as [|x [|y [|z r]]]; try (destruct H; fail).
    inversion HN as [|? ? H1 HN1]; subst. inversion HN1 as [|? ? H2 HN2]; subst. inversion HN2 as [|? ? H3 HN3]; subst.
    apply in_app_or in H. cbn in *. destruct H as [[H|[H|[H|[]]]]|H].
    + injection H; intros; subst. intuition congruence.
    + injection H; intros; subst. intuition congruence.
    + injection H; intros; subst. intuition congruence.
    + pose proof (pairs2_in _ _ _ _ H). pose proof (pairs2_distinct _ _ _ _ HN3 H). tauto.
Qed.

Lemma pairing_out l x : NoDup l -> ~ In x l -> filter (takes_part x) (pairing l) = [].
Proof.
  intros HN H. destruct (filter _ _) as [|[[a b] h] r] eqn:E; [reflexivity|exfalso].
  assert (Hin : In (a, b, h) (filter (takes_part x) (pairing l))) by (rewrite E; now left).
  apply filter_In in Hin. destruct Hin as [Hin Ht]. apply pairing_in in Hin; [|exact HN]. cbn in Ht.
  apply orb_prop in Ht. rewrite !Z.eqb_eq in Ht. destruct Hin as [? [? ?]], Ht; subst; contradiction.
Qed.

Lemma pairing_weight l x : NoDup l -> In x l -> 2 <= alen l ->
  1 <= collisions x (pairing l) <= 2 /\ total_weight x (pairing l) = 2.
Proof.
  intros HN Hx HL. unfold pairing. destruct (Z.ltb_spec (alen l) 2); [lia|].
  destruct (Z.even (alen l)) eqn:He.
  - destruct (pairs2_weight l He HN x Hx) as [a [b E]]. unfold collisions, total_weight. rewrite E.
    unfold alen. cbn. lia.
  - destruct l as [|a [|b [|c r]]]; [unfold alen in HL; cbn in HL; lia..|cbn in He; discriminate|].
    inversion HN as [|? ? H1 HN1]; subst. inversion HN1 as [|? ? H2 HN2]; subst. inversion HN2 as [|? ? H3 HN3]; subst.
    assert (Her : Z.even (alen r) = true).
    { rewrite !alen_cons in He. replace (1 + (1 + (1 + alen r))) with (Z.succ (Z.succ (Z.succ (alen r)))) in He by lia.
      rewrite Z.even_succ_succ, Z.even_succ, <- Z.negb_even in He. destruct (Z.even (alen r)); [reflexivity|discriminate]. }
    unfold collisions, total_weight. rewrite filter_app. cbn [In] in *.
    assert (Hab : a <> b) by (intros ->; tauto). assert (Hac : a <> c) by (intros ->; tauto).
    assert (Hbc : b <> c) by (intros ->; tauto).
    destruct Hx as [->|[->|[->|Hx]]].
    + rewrite (filter_not_in r) by tauto. cbn [filter takes_part]. rewrite Z.eqb_refl. cbn [orb].
      destruct (Z.eqb_spec b x), (Z.eqb_spec c x); try congruence. cbn. unfold alen; cbn; lia.
    + rewrite (filter_not_in r) by tauto. cbn [filter takes_part]. rewrite !Z.eqb_refl, !orb_true_r.
      destruct (Z.eqb_spec a x), (Z.eqb_spec c x); try congruence. cbn. unfold alen; cbn; lia.
    + rewrite (filter_not_in r) by tauto. cbn [filter takes_part]. rewrite !Z.eqb_refl, !orb_true_r.
      destruct (Z.eqb_spec a x), (Z.eqb_spec b x); try congruence. cbn. unfold alen; cbn; lia.
    + destruct (pairs2_weight r Her HN3 x Hx) as [a' [b' E]]. rewrite E. cbn [filter takes_part].
      destruct (Z.eqb_spec a x), (Z.eqb_spec b x), (Z.eqb_spec c x); subst; try contradiction; try tauto.
      cbn. unfold alen; cbn; lia.
Qed.

(** ** Offsets *)

Section Offsets.
  Context {P : Type}.
  Variable c : P -> Z.

  Lemma fill_ok : forall fuel offs last upto n, fuel = Z.to_nat (upto - last) -> 0 <= last <= upto -> upto < alen offs ->
    exists offs', fill_offsets fuel offs last upto n = Some (offs', upto) /\ alen offs' = alen offs /\
      forall i, aget offs' i = if (last <? i) && (i <=? upto) then Some n else aget offs i.
  Proof.
    induction fuel as [|fuel IH]; intros offs last upto n Hf Hl Hu; cbn [fill_offsets].
    - assert (last = upto) by lia. subst. destruct (Z.ltb_spec upto upto); [lia|]. exists offs.
      split; [reflexivity|]. split; [reflexivity|]. intros i.
      destruct (Z.ltb_spec upto i), (Z.leb_spec i upto); try lia; reflexivity.
    - destruct (Z.ltb_spec last upto); [|lia].
      destruct (aset_some offs (last + 1) n ltac:(lia)) as [o1 [E1 [L1 G1]]]. rewrite E1.
      destruct (IH o1 (last + 1) upto n ltac:(lia) ltac:(lia) ltac:(lia)) as [o2 [E2 [L2 G2]]].
      exists o2. split; [exact E2|]. split; [lia|]. intros i. rewrite G2, G1.
      destruct (Z.ltb_spec (last + 1) i), (Z.leb_spec i upto), (Z.ltb_spec last i), (Z.eqb_spec i (last + 1)); cbn [andb]; try lia; reflexivity.
  Qed.

  Definition sorted (l : list P) : Prop := StronglySorted (fun a b => c a <= c b) l.

  Lemma sorted_of_aget l : (forall i j a b, 0 <= i <= j -> aget l i = Some a -> aget l j = Some b -> c a <= c b) -> sorted l.
  Proof.
    induction l as [|x l IH]; intros H; [constructor|]. constructor.
    - apply IH. intros i j a b Hij Ha Hb. apply (H (i + 1) (j + 1) a b); [lia| |]; rewrite aget_cons.
      + destruct (Z.eqb_spec (i + 1) 0); [lia|]. replace (i + 1 - 1) with i by lia. exact Ha.
      + destruct (Z.eqb_spec (j + 1) 0); [lia|]. replace (j + 1 - 1) with j by lia. exact Hb.
    - apply Forall_forall. intros y Hy. apply In_aget in Hy. destruct Hy as [j Hj].
      pose proof (aget_bounds _ _ _ Hj). apply (H 0 (j + 1) x y); [lia|reflexivity|]. rewrite aget_cons.
      destruct (Z.eqb_spec (j + 1) 0); [lia|]. replace (j + 1 - 1) with j by lia. exact Hj.
  Qed.

  Lemma sorted_app l1 l2 : sorted (l1 ++ l2) -> forall a b, In a l1 -> In b l2 -> c a <= c b.
  Proof.
    induction l1 as [|x l1 IH]; intros H a b Ha Hb; [destruct Ha|]. inversion H as [|? ? Hs Hf]; subst.
    destruct Ha as [->|Ha]; [|apply IH; assumption]. rewrite Forall_forall in Hf. apply Hf. apply in_or_app. now right.
  Qed.

  Lemma ltc_split pre post i : (forall a, In a pre -> c a < i) -> (forall b, In b post -> i <= c b) ->
    alen (ltc c i (pre ++ post)) = alen pre.
  Proof.
    intros H1 H2. unfold ltc. rewrite filter_app, alen_app.
    change (filter (fun x => c x <? i) pre) with (ltc c i pre). rewrite ltc_all by (apply Forall_forall; exact H1).
    replace (filter (fun x => c x <? i) post) with (@nil P); [rewrite alen_nil; lia|].
    symmetry. destruct (filter _ post) as [|x r] eqn:E; [reflexivity|exfalso].
    assert (Hin : In x (filter (fun x => c x <? i) post)) by (rewrite E; now left).
    apply filter_In in Hin. destruct Hin as [Hin Hlt]. apply H2 in Hin. lia.
  Qed.

  Lemma sorted_pos l n p i : sorted l -> aget l n = Some p -> (n < alen (ltc c i l) <-> c p < i).
  Proof.
    intros Hs Hn. pose proof (aget_bounds _ _ _ Hn) as Hb. revert n Hn Hb.
    induction Hs as [|x l Hs IH Hf]; intros n Hn Hb; [unfold alen in Hb; cbn in Hb; lia|].
    unfold ltc. cbn [filter]. fold (ltc c i l). rewrite aget_cons in Hn. destruct (Z.ltb_spec (c x) i) as [Hx|Hx].
    - rewrite alen_cons. destruct (Z.eqb_spec n 0) as [En|N].
      + subst n. injection Hn as ->. pose proof (alen_nonneg (ltc c i l)). lia.
      + rewrite <- (IH (n - 1) Hn); [lia|]. rewrite alen_cons in Hb. lia.
    - assert (E : ltc c i l = []).
      { unfold ltc. destruct (filter _ l) as [|y r] eqn:E; [reflexivity|exfalso].
        assert (Hin : In y (filter (fun x => c x <? i) l)) by (rewrite E; now left).
        apply filter_In in Hin. rewrite Forall_forall in Hf. specialize (Hf y (proj1 Hin)). lia. }
      rewrite E, alen_nil. destruct (Z.eqb_spec n 0) as [En|N]; [subst n; injection Hn as ->; lia|].
      apply aget_In in Hn. rewrite Forall_forall in Hf. specialize (Hf p Hn). lia.
  Qed.

  Variable n_cells : Z.
  Variable prts : list P.
  Hypothesis Hsorted : sorted prts.
  Hypothesis Hgood : good c n_cells prts.
  Hypothesis Hn : 0 <= n_cells.

  Lemma loop_ok : forall post pre offs last, prts = pre ++ post ->
    0 <= last <= n_cells -> alen offs = n_cells + 1 -> (forall a, In a pre -> c a <= last) ->
    (forall b, In b post -> last <= c b) ->
    (forall i, 0 <= i <= last -> aget offs i = Some (alen (ltc c i prts))) ->
    exists offs' last', offsets_loop (fun p => Some (c p)) post (alen pre) offs last = Some (offs', last') /\
      0 <= last' <= n_cells /\ alen offs' = n_cells + 1 /\ (forall a, In a prts -> c a <= last') /\
      (forall i, 0 <= i <= last' -> aget offs' i = Some (alen (ltc c i prts))).
  Proof.
    induction post as [|x post IH]; intros pre offs last E Hl HL Hpre Hpost HG.
    - rewrite app_nil_r in E. exists offs, last. split; [reflexivity|]. split; [exact Hl|]. split; [exact HL|]. split; [|exact HG].
      intros a Ha. rewrite E in Ha. apply Hpre, Ha.
    - cbn [offsets_loop]. assert (Hx : last <= c x) by (apply Hpost; now left).
      destruct (Z.leb_spec last (c x)); [|lia].
      assert (Hcx : 0 <= c x < n_cells).
      { unfold good in Hgood. rewrite E in Hgood. apply Forall_app in Hgood. destruct Hgood as [_ G]. inversion G; assumption. }
      destruct (fill_ok _ offs last (c x) (alen pre) eq_refl ltac:(lia) ltac:(lia)) as [o1 [E1 [L1 G1]]].
      rewrite E1. replace (alen pre + 1) with (alen (pre ++ [x])) by (rewrite alen_app, alen_cons, alen_nil; lia).
      unfold sorted in Hsorted.
      assert (Hs2 : forall b, In b post -> c x <= c b).
      { intros b Hb. apply (sorted_app (pre ++ [x]) post); [rewrite <- app_assoc; cbn [app]; rewrite <- E; exact Hsorted| |exact Hb].
        apply in_or_app. right. now left. }
      apply IH; try lia.
      + rewrite <- app_assoc. exact E.
      + intros a Ha. apply in_app_or in Ha. destruct Ha as [Ha|[<-|[]]]; [|lia]. specialize (Hpre a Ha). lia.
      + intros i Hi. rewrite G1. destruct (Z.ltb_spec last i), (Z.leb_spec i (c x)); cbn [andb]; try lia.
        * f_equal. symmetry. rewrite E. apply ltc_split.
          -- intros a Ha. specialize (Hpre a Ha). lia.
          -- intros b [<-|Hb]; [lia|]. specialize (Hs2 b Hb). lia.
        * apply HG. lia.
  Qed.

  Lemma offsets_vals offs : alen offs = n_cells + 1 -> exists offs',
    find_cell_offsets (fun p => Some (c p)) n_cells prts offs = Some offs' /\ alen offs' = n_cells + 1 /\
    forall i, 0 <= i <= n_cells -> aget offs' i = Some (alen (ltc c i prts)).
  Proof.
    intros HL. unfold find_cell_offsets.
    destruct (aset_some offs 0 0 ltac:(lia)) as [o0 [E0 [L0 G0]]]. rewrite E0.
    assert (Hnn : Forall (fun x => 0 <= c x) prts) by (eapply Forall_impl; [|exact Hgood]; cbn; lia).
    destruct (loop_ok prts [] o0 0 eq_refl) as [o1 [last [E1 [Hl [L1 [Hle G1]]]]]]; try lia.
    - intros a [].
    - rewrite Forall_forall in Hnn. exact Hnn.
    - intros i Hi. assert (i = 0) by lia. subst. rewrite G0. cbn. rewrite ltc_zero by exact Hnn. reflexivity.
    - rewrite alen_nil in E1. rewrite E1.
      destruct (fill_ok _ o1 last n_cells (alen prts) eq_refl ltac:(lia) ltac:(lia)) as [o2 [E2 [L2 G2]]].
      rewrite E2. exists o2. split; [reflexivity|]. split; [lia|]. intros i Hi. rewrite G2.
      destruct (Z.ltb_spec last i), (Z.leb_spec i n_cells); cbn [andb]; try lia.
      + rewrite ltc_all; [reflexivity|]. apply Forall_forall. intros a Ha. specialize (Hle a Ha). lia.
      + apply G1. lia.
  Qed.

  Lemma offsets_partition offs : alen offs = n_cells + 1 ->
    (forall i, 0 <= i <= n_cells -> aget offs i = Some (alen (ltc c i prts))) -> partitions c n_cells prts offs.
  Proof.
    intros HL HG. assert (Hnn : Forall (fun x => 0 <= c x) prts) by (eapply Forall_impl; [|exact Hgood]; cbn; lia).
    split; [exact HL|]. split; [rewrite HG by lia; rewrite ltc_zero by exact Hnn; reflexivity|].
    split; [rewrite HG, ltc_all; [reflexivity| |lia]; eapply Forall_impl; [|exact Hgood]; cbn; lia|].
    intros k lo hi Hlo Hhi. pose proof (aget_bounds _ _ _ Hlo). pose proof (aget_bounds _ _ _ Hhi).
    rewrite HG in Hlo, Hhi by lia. injection Hlo as <-. injection Hhi as <-.
    pose proof (ltc_mono c k (k + 1) prts ltac:(lia)). pose proof (alen_nonneg (ltc c k prts)). split; [lia|].
    intros n p Hp. pose proof (sorted_pos prts n p k Hsorted Hp). pose proof (sorted_pos prts n p (k + 1) Hsorted Hp). lia.
  Qed.

  (** ** All cells *)
  Variable ldims : V3 Z.
  Hypothesis Hpos : forall d, 0 <= get3 ldims d.
  Hypothesis Hvol : n_cells = volume ldims.
  Variable shuffle : Z -> list Z -> list Z.
  Hypothesis Hshuffle : forall k l, Permutation l (shuffle k l).

  Definition cell_list (k : Z) : list Z := shuffle k (zrange (alen (ltc c k prts)) (alen (ltc c (k + 1) prts))).

  Lemma collide_patch_eq : collide_patch (fun p => Some (c p)) shuffle ldims prts =
    Some (concat (map (fun k => pairing (cell_list k)) (zrange 0 n_cells))).
  Proof.
    unfold collide_patch. change (c0 ldims * c1 ldims * c2 ldims) with (volume ldims). rewrite <- Hvol.
    destruct (offsets_vals (repeat 0 (Z.to_nat (n_cells + 1)))) as [offs [E [L G]]]; [rewrite alen_repeat; lia|].
    rewrite E.
    rewrite (map_ext_in _ (fun i => Some (pairing (cell_list (flatc ldims i))))).
    - rewrite <- (map_map (fun i => pairing (cell_list (flatc ldims i))) Some), all_some_map. cbn [option_map].
      rewrite <- (map_map (flatc ldims) (fun k => pairing (cell_list k))).
      rewrite foreach_flat, <- Hvol; [reflexivity|apply (Hpos D0)|apply (Hpos D1)|apply (Hpos D2)].
    - intros i Hi. unfold collide_cell. fold (flatc ldims i).
      assert (Hk : 0 <= flatc ldims i < n_cells).
      { apply in_zrange. rewrite Hvol, <- foreach_flat; [|apply (Hpos D0)|apply (Hpos D1)|apply (Hpos D2)].
        apply in_map. exact Hi. }
      rewrite !G by lia. apply collide_in_cell_ok.
  Qed.

  Lemma in_cell_list k n : In n (cell_list k) <-> alen (ltc c k prts) <= n < alen (ltc c (k + 1) prts).
  Proof.
    unfold cell_list. rewrite <- in_zrange. split; apply Permutation_in; [symmetry|]; apply Hshuffle.
  Qed.

  Lemma NoDup_cell_list k : NoDup (cell_list k).
  Proof. eapply Permutation_NoDup; [apply Hshuffle|apply NoDup_zrange]. Qed.

  Lemma alen_cell_list k : alen (cell_list k) = alen (eqc c k prts).
  Proof.
    unfold cell_list, alen at 1. rewrite <- (Permutation_length (Hshuffle k _)), zrange_length.
    rewrite ltc_succ. pose proof (alen_nonneg (eqc c k prts)). lia.
  Qed.

  Lemma in_cell_iff k n p : aget prts n = Some p -> (In n (cell_list k) <-> c p = k).
  Proof.
    intros Hp. rewrite in_cell_list.
    pose proof (sorted_pos prts n p k Hsorted Hp). pose proof (sorted_pos prts n p (k + 1) Hsorted Hp). lia.
  Qed.

  Lemma cell_list_valid k n : 0 <= k < n_cells -> In n (cell_list k) -> exists p, aget prts n = Some p.
  Proof.
    intros Hk Hin. apply in_cell_list in Hin. apply aget_some.
    pose proof (ltc_mono c (k + 1) n_cells prts ltac:(lia)) as M.
    rewrite (ltc_all c n_cells prts) in M by (eapply Forall_impl; [|exact Hgood]; cbn; lia).
    pose proof (alen_nonneg (ltc c k prts)). lia.
  Qed.

  Lemma collide_patch_ok : exists evs, collide_patch (fun p => Some (c p)) shuffle ldims prts = Some evs /\
    collides_properly c prts evs.
  Proof.
    rewrite collide_patch_eq. eexists. split; [reflexivity|]. split.
    - intros a b h Hin. apply in_concat in Hin. destruct Hin as [l [Hl Hin]]. apply in_map_iff in Hl.
      destruct Hl as [k [<- Hk]]. apply in_zrange in Hk.
      destruct (pairing_in _ _ _ _ (NoDup_cell_list k) Hin) as [Ha [Hb Hne]]. split; [exact Hne|].
      destruct (cell_list_valid k a Hk Ha) as [pa Hpa], (cell_list_valid k b Hk Hb) as [pb Hpb].
      exists pa, pb. split; [exact Hpa|]. split; [exact Hpb|].
      apply (in_cell_iff k a pa Hpa) in Ha. apply (in_cell_iff k b pb Hpb) in Hb. congruence.
    - intros n p Hp. assert (Hcp : 0 <= c p < n_cells).
      { unfold good in Hgood. rewrite Forall_forall in Hgood. apply Hgood. eapply aget_In; eauto. }
      assert (Hin : In n (cell_list (c p))) by (apply (in_cell_iff (c p) n p Hp); reflexivity).
      unfold collisions, total_weight.
      rewrite (filter_concat_one _ _ _ (c p)).
      + unfold cell_population. change (filter (fun p0 => c p0 =? c p) prts) with (eqc c (c p) prts).
        rewrite <- alen_cell_list. destruct (Z.leb_spec 2 (alen (cell_list (c p)))) as [H|H].
        * apply (pairing_weight _ n (NoDup_cell_list (c p)) Hin H).
        * unfold pairing. destruct (Z.ltb_spec (alen (cell_list (c p))) 2); [|lia]. reflexivity.
      + apply NoDup_zrange.
      + apply in_zrange. exact Hcp.
      + intros k Hk Hne. apply pairing_out; [apply NoDup_cell_list|]. rewrite (in_cell_iff k n p Hp). congruence.
  Qed.
End Offsets.

(** ** Transfer to partial cell functions *)

Lemma offsets_loop_ext {P} (f g : P -> option Z) l : (forall x, In x l -> f x = g x) ->
  forall n offs last, offsets_loop f l n offs last = offsets_loop g l n offs last.
Proof.
  induction l as [|x l IH]; intros H n offs last; [reflexivity|]. cbn. rewrite (H x) by now left.
  destruct (g x); [|reflexivity]. destruct (last <=? z); [|reflexivity].
  destruct (fill_offsets _ _ _ _ _) as [[o l0]|]; [|reflexivity]. apply IH. intros; apply H; now right.
Qed.

Section Top.
  Context {P : Type}.
  Variable cell : P -> option Z.
  Variable c : P -> Z.
  Variable ldims : V3 Z.
  Variable prts : list P.
  Hypothesis Hpos : forall d, 0 <= get3 ldims d.
  Hypothesis Hcell : forall x, In x prts -> cell x = Some (c x) /\ 0 <= c x < volume ldims.
  Hypothesis Hsorted : forall i j a b, 0 <= i <= j -> aget prts i = Some a -> aget prts j = Some b -> c a <= c b.

  Lemma volume_nonneg : 0 <= volume ldims.
  Proof.
    unfold volume. pose proof (Hpos D0). pose proof (Hpos D1). pose proof (Hpos D2). cbn [get3] in *.
    repeat apply Z.mul_nonneg_nonneg; assumption.
  Qed.

  Lemma offsets_top : exists offs,
    find_cell_offsets cell (volume ldims) prts (repeat 0 (Z.to_nat (volume ldims + 1))) = Some offs /\
    partitions c (volume ldims) prts offs.
  Proof.
    pose proof volume_nonneg as HV. assert (Hg : good c (volume ldims) prts) by (apply Forall_forall; intros x Hx; apply Hcell, Hx).
    pose proof (sorted_of_aget c prts Hsorted) as Hs.
    destruct (offsets_vals c (volume ldims) prts Hs Hg HV (repeat 0 (Z.to_nat (volume ldims + 1)))) as [o [E [L G]]];
      [rewrite alen_repeat; lia|].
    exists o. split; [|apply offsets_partition; assumption].
    rewrite <- E. unfold find_cell_offsets. destruct (aset _ 0 0); [|reflexivity].
    rewrite (offsets_loop_ext cell (fun p => Some (c p)) prts); [reflexivity|]. intros x Hx. apply Hcell, Hx.
  Qed.

  Lemma collide_top shuffle : (forall k l, Permutation l (shuffle k l)) -> exists evs,
    collide_patch cell shuffle ldims prts = Some evs /\ collides_properly c prts evs.
  Proof.
    intros Hsh. pose proof volume_nonneg as HV.
    assert (Hg : good c (volume ldims) prts) by (apply Forall_forall; intros x Hx; apply Hcell, Hx).
    pose proof (sorted_of_aget c prts Hsorted) as Hs.
    destruct (collide_patch_ok c (volume ldims) prts Hs Hg HV ldims Hpos eq_refl shuffle Hsh) as [evs [E H]].
    exists evs. split; [|exact H]. rewrite <- E. unfold collide_patch, find_cell_offsets.
    destruct (aset _ 0 0); [|reflexivity].
    rewrite (offsets_loop_ext cell (fun p => Some (c p)) prts); [reflexivity|]. intros x Hx. apply Hcell, Hx.
  Qed.
End Top.
