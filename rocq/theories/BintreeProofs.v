From Verif Require Import Base Arr CollisionProofs BintreeModel.
Local Open Scope Z_scope.

Section Tree.
  Variable keys values : list Z.
  Hypothesis Hlen : alen values = alen keys.

  (** [p] points to a tree for positions lo..hi of the arrays, stored in the nodes
      m, m+1, ... *)
  Inductive rep (ns : list (option node)) : Z -> ptr -> Z -> Z -> Prop :=
  | rep_nil m lo hi : hi < lo -> rep ns m None lo hi
  | rep_node m lo hi med k v l r : lo <= med <= hi -> aget keys med = Some k -> aget values med = Some v ->
      aget ns m = Some (Some (Node k v l r)) ->
      rep ns (m + 1) l lo (med - 1) -> rep ns (m + 1 + (med - lo)) r (med + 1) hi ->
      rep ns m (Some m) lo hi.

  Lemma rep_frame ns ns' m p lo hi : rep ns m p lo hi ->
    (forall i, m <= i < m + (hi - lo + 1) -> aget ns' i = aget ns i) -> rep ns' m p lo hi.
  Proof.
    induction 1 as [|m lo hi med k v l r Hm Hk Hv Hn Hl IHl Hr IHr]; intros HF; [constructor; assumption|].
    eapply rep_node; eauto.
    - rewrite HF by lia. exact Hn.
    - apply IHl. intros i Hi. apply HF. lia.
    - apply IHr. intros i Hi. apply HF. lia.
  Qed.

  Definition upd (s : slot) (p : ptr) (n : node) : node :=
    match s with
    | SRoot => n
    | SLeft _ => Node (nd_key n) (nd_value n) p (nd_right n)
    | SRight _ => Node (nd_key n) (nd_value n) (nd_left n) p
    end.
  Definition slot_node (s : slot) : Z := match s with SRoot => -1 | SLeft n | SRight n => n end.
  Definition is_root (s : slot) : bool := match s with SRoot => true | _ => false end.

  (** the tree [t'] is [t] with [p] stored in slot [s] *)
  Definition stored (t : tree) (s : slot) (p : ptr) (bound : Z) (t' : tree) : Prop :=
    root t' = (if is_root s then p else root t) /\
    forall i, 0 <= i < bound ->
      aget (nodes t') i = if i =? slot_node s then option_map (option_map (upd s p)) (aget (nodes t) i) else aget (nodes t) i.

  Lemma get_node_some t i n : get_node t i = Some n <-> aget (nodes t) i = Some (Some n).
  Proof. unfold get_node. destruct (aget (nodes t) i) as [[x|]|]; split; congruence. Qed.

  Lemma store_ok t s p q : load t s = Some q -> exists t', store t s p = Some t' /\
    numelements t' = numelements t /\ alen (nodes t') = alen (nodes t) /\ load t' s = Some p /\
    stored t s p (alen (nodes t)) t'.
  Proof.
    intros H. destruct s as [|n|n].
    - cbn. eexists. split; [reflexivity|]. cbn. split; [reflexivity|]. split; [reflexivity|]. split; [reflexivity|].
      split; [reflexivity|]. intros i Hi. cbn. destruct (Z.eqb_spec i (-1)); [lia|reflexivity].
    - cbn in *. destruct (get_node t n) as [x|] eqn:E; [|discriminate]. pose proof E as E0. apply get_node_some in E.
      unfold set_node. destruct (aset_some (nodes t) n (Some (Node (nd_key x) (nd_value x) p (nd_right x))) (aget_bounds _ _ _ E)) as [l [El [L G]]].
      rewrite El. eexists. split; [reflexivity|]. cbn. split; [reflexivity|]. split; [exact L|]. split.
      + unfold get_node. cbn. rewrite G, Z.eqb_refl. reflexivity.
      + split; [reflexivity|]. intros i Hi. cbn. rewrite G. destruct (Z.eqb_spec i n); [subst; rewrite E; reflexivity|reflexivity].
    - cbn in *. destruct (get_node t n) as [x|] eqn:E; [|discriminate]. pose proof E as E0. apply get_node_some in E.
      unfold set_node. destruct (aset_some (nodes t) n (Some (Node (nd_key x) (nd_value x) (nd_left x) p)) (aget_bounds _ _ _ E)) as [l [El [L G]]].
      rewrite El. eexists. split; [reflexivity|]. cbn. split; [reflexivity|]. split; [exact L|]. split.
      + unfold get_node. cbn. rewrite G, Z.eqb_refl. reflexivity.
      + split; [reflexivity|]. intros i Hi. cbn. rewrite G. destruct (Z.eqb_spec i n); [subst; rewrite E; reflexivity|reflexivity].
  Qed.

  Lemma load_stored t s p b t' q : load t s = Some q -> (is_root s = false -> 0 <= slot_node s < b) ->
    stored t s p b t' -> load t' s = Some p.
  Proof.
    intros H Hb [Hr Hn]. destruct s as [|n|n]; cbn in *; [congruence| |].
    - destruct (get_node t n) as [x|] eqn:E; [|discriminate]. apply get_node_some in E.
      unfold get_node. rewrite Hn, Z.eqb_refl, E by auto. reflexivity.
    - destruct (get_node t n) as [x|] eqn:E; [|discriminate]. apply get_node_some in E.
      unfold get_node. rewrite Hn, Z.eqb_refl, E by auto. reflexivity.
  Qed.

  (** the slot is in a node below the counter *)
  Definition slot_ok (t : tree) (s : slot) : Prop :=
    0 <= numelements t /\ load t s = Some None /\ (is_root s = false -> 0 <= slot_node s < numelements t).

  Lemma addelement_ok t s k v : slot_ok t s -> numelements t < alen (nodes t) ->
    exists t', addelement t s k v = Some t' /\ alen (nodes t') = alen (nodes t) /\ numelements t' = numelements t + 1 /\
      aget (nodes t') (numelements t) = Some (Some (Node k v None None)) /\ load t' s = Some (Some (numelements t)) /\
      stored t s (Some (numelements t)) (numelements t) t'.
  Proof.
    intros [H0 [Hl Hs]] Hn. unfold addelement, set_node. cbn [nodes root numelements].
    destruct (aset_some (nodes t) (numelements t) (Some (Node k v None None)) ltac:(lia)) as [l [El [L G]]]. rewrite El.
    set (t1 := Tree l (root t) (numelements t + 1)).
    assert (Hl1 : load t1 s = Some None).
    { destruct s as [|n|n]; cbn in *; [exact Hl| |]; specialize (Hs eq_refl); unfold get_node in *; cbn; rewrite G;
        (destruct (Z.eqb_spec n (numelements t)); [lia|exact Hl]). }
    rewrite Hl1. replace (find_target _ t1 k None s) with (Some s) by (destruct (length (nodes t1)); reflexivity).
    destruct (store_ok t1 s (Some (numelements t)) None Hl1) as [t' [E [N' [L' [Ld [Hr' Hn']]]]]].
    exists t'. split; [exact E|]. split; [cbn in *; lia|]. split; [exact N'|]. split; [|split; [exact Ld|split]].
    - rewrite Hn' by (cbn; lia). cbn [nodes t1]. destruct (Z.eqb_spec (numelements t) (slot_node s)) as [Es|].
      + destruct s; cbn in Es, Hs; specialize (Hs eq_refl) || (clear Hs); lia.
      + rewrite G, Z.eqb_refl. reflexivity.
    - exact Hr'.
    - intros i Hi. rewrite Hn' by (cbn; lia). cbn [nodes t1]. rewrite G.
      destruct (Z.eqb_spec i (numelements t)); [lia|reflexivity].
  Qed.

  Lemma addfromarray_ok : forall fuel t s lo hi, slot_ok t s -> hi - lo + 1 <= Z.of_nat fuel -> lo <= hi + 1 ->
    0 <= lo -> hi < alen keys -> numelements t + (hi - lo + 1) <= alen (nodes t) ->
    exists t' p, addfromarray fuel t s keys values lo hi = Some t' /\ alen (nodes t') = alen (nodes t) /\
      numelements t' = numelements t + (hi - lo + 1) /\ rep (nodes t') (numelements t) p lo hi /\
      load t' s = Some p /\ stored t s p (numelements t) t'.
  Proof.
    induction fuel as [|fuel IH]; intros t s lo hi Hok Hf Hlh H0 Hhi Hcap.
    - cbn [addfromarray]. destruct (Z.ltb_spec hi lo); [|lia]. destruct Hok as [Hn [Hl Hs]].
      exists t, None. split; [reflexivity|]. split; [reflexivity|]. split; [lia|]. split; [constructor; lia|]. split; [exact Hl|].
      split.
      + destruct s; cbn in *; congruence.
      + intros i Hi. destruct (Z.eqb_spec i (slot_node s)); [|reflexivity].
        destruct s as [|n|n]; cbn in *; [lia| |]; unfold get_node in Hl; subst; destruct (aget (nodes t) n) as [[[k v l r]|]|]; cbn in *; congruence.
    - cbn [addfromarray]. destruct (Z.ltb_spec hi lo) as [Hlt|Hge].
      + destruct Hok as [Hn [Hl Hs]].
        exists t, None. split; [reflexivity|]. split; [reflexivity|]. split; [lia|]. split; [constructor; lia|]. split; [exact Hl|].
        split.
        * destruct s; cbn in *; congruence.
        * intros i Hi. destruct (Z.eqb_spec i (slot_node s)); [|reflexivity].
          destruct s as [|n|n]; cbn in *; [lia| |]; unfold get_node in Hl; subst; destruct (aget (nodes t) n) as [[[k v l r]|]|]; cbn in *; congruence.
      + set (med := lo + Z.quot (hi - lo) 2).
        assert (Hmed : lo <= med <= hi) by (unfold med; rewrite Z.quot_div_nonneg by lia; lia). clearbody med.
        destruct (aget_some keys med ltac:(lia)) as [k Hk]. destruct (aget_some values med ltac:(lia)) as [v Hv].
        rewrite Hk, Hv. set (m := numelements t) in *. assert (Hm0 : 0 <= m) by apply Hok.
        destruct (addelement_ok t s k v Hok ltac:(fold m; lia)) as [t1 [E1 [L1 [N1 [G1 [Ld1 St1]]]]]]. fold m in N1, G1, Ld1, St1.
        rewrite E1, Ld1.
        destruct (IH t1 (SLeft m) lo (med - 1)) as [t2 [l [E2 [L2 [N2 [R2 [Ld2 [Rt2 St2]]]]]]]]; try lia.
        { split; [lia|]. split; [|cbn; lia]. cbn. unfold get_node. rewrite G1. reflexivity. }
        rewrite E2. cbn [slot_node is_root] in St2, Rt2.
        assert (Gm2 : aget (nodes t2) m = Some (Some (Node k v l None))).
        { rewrite St2 by lia. rewrite Z.eqb_refl, G1. reflexivity. }
        assert (Low2 : forall i, 0 <= i < m -> aget (nodes t2) i = aget (nodes t1) i).
        { intros i Hi. rewrite St2 by lia. destruct (Z.eqb_spec i m); [lia|reflexivity]. }
        assert (LdS2 : load t2 s = Some (Some m)).
        { destruct Hok as [_ [_ Hs]]. destruct s as [|n|n]; cbn in *.
          - congruence.
          - specialize (Hs eq_refl). unfold get_node in *. rewrite Low2 by (fold m in Hs; lia). exact Ld1.
          - specialize (Hs eq_refl). unfold get_node in *. rewrite Low2 by (fold m in Hs; lia). exact Ld1. }
        rewrite LdS2.
        destruct (IH t2 (SRight m) (med + 1) hi) as [t3 [r [E3 [L3 [N3 [R3 [Ld3 [Rt3 St3]]]]]]]]; try lia.
        { split; [lia|]. split; [|cbn; lia]. cbn. unfold get_node. rewrite Gm2. reflexivity. }
        rewrite E3. cbn [slot_node is_root] in St3, Rt3.
        assert (Stt : stored t s (Some m) m t3).
        { destruct St1 as [Rt1 St1]. split; [rewrite Rt3, Rt2; exact Rt1|]. intros i Hi. rewrite <- St1 by exact Hi.
          rewrite <- Low2 by exact Hi. rewrite St3 by lia. destruct (Z.eqb_spec i m); [lia|reflexivity]. }
        exists t3, (Some m). split; [reflexivity|]. split; [lia|]. split; [lia|]. split; [|split].
        * apply (rep_node _ m lo hi med k v l r); try assumption.
          -- rewrite St3 by lia. rewrite Z.eqb_refl, Gm2. reflexivity.
          -- replace (m + 1) with (numelements t1) by lia. apply (rep_frame (nodes t2)); [exact R2|].
             intros i Hi. rewrite St3 by lia. destruct (Z.eqb_spec i m); [lia|reflexivity].
          -- replace (m + 1 + (med - lo)) with (numelements t2) by lia. exact R3.
        * destruct Hok as [_ [Hl Hs]]. apply (load_stored t s (Some m) m t3 None Hl Hs Stt).
        * exact Stt.
  Qed.

  (** strictly increasing *)
  Hypothesis Hsorted : forall i j a b, aget keys i = Some a -> aget keys j = Some b -> i < j -> a < b.

  Lemma get_loop_ok t key : forall m p lo hi, rep (nodes t) m p lo hi -> 0 <= lo -> hi < alen keys ->
    forall fuel, hi - lo + 1 <= Z.of_nat fuel ->
    get_loop fuel t key p = Some (match find (fun i => match aget keys i with Some k => k =? key | None => false end) (zrange lo (hi + 1)) with
                                  | Some i => aget values i | None => None end).
  Proof.
    intros m p lo hi H. induction H as [m lo hi H|m lo hi med k v l r Hm Hk Hv Hn Hl IHl Hr IHr]; intros H0 Hh fuel Hf.
    - rewrite zrange_empty by lia. destruct fuel; reflexivity.
    - destruct fuel as [|fuel]; [lia|]. cbn [get_loop].
      assert (Hg : get_node t m = Some (Node k v l r)) by (apply get_node_some; exact Hn). rewrite Hg. cbn [nd_key nd_value nd_left nd_right].
      (* the positions below, at and above med *)
      assert (HF : forall (f : Z -> bool) a b, (forall i, a <= i < b -> f i = false) -> find f (zrange a b) = None).
      { intros f a b Hfalse. destruct (find f (zrange a b)) as [i|] eqn:E; [|reflexivity].
        apply find_some in E. destruct E as [Hi E]. apply in_zrange in Hi. rewrite Hfalse in E by exact Hi. discriminate. }
      assert (HA : forall (f : Z -> bool) a b, find f (a ++ b) = match find f a with Some x => Some x | None => find f b end).
      { intros f a b. induction a as [|x a IHa]; [reflexivity|]. cbn. destruct (f x); [reflexivity|exact IHa]. }
      set (f := fun i => match aget keys i with Some k0 => k0 =? key | None => false end) in *.
      assert (Hsplit : find f (zrange lo (hi + 1)) = match find f (zrange lo med) with Some x => Some x | None =>
                 if f med then Some med else find f (zrange (med + 1) (hi + 1)) end).
      { rewrite (zrange_split lo med (hi + 1)) by lia. rewrite HA. rewrite (zrange_cons med) by lia. reflexivity. }
      rewrite Hsplit. unfold f at 2. rewrite Hk.
      destruct (Z.eqb_spec k key) as [->|Ne].
      + rewrite HF; [rewrite Hv; reflexivity|]. intros i Hi. unfold f. destruct (aget keys i) as [x|] eqn:Ei; [|reflexivity].
        pose proof (Hsorted i med x key Ei Hk ltac:(lia)). lia.
      + destruct (Z.ltb_spec key k) as [Hlt|Hge].
        * rewrite IHl by lia. replace (med - 1 + 1) with med by lia.
          destruct (find f (zrange lo med)) as [x|]; [reflexivity|]. rewrite HF; [reflexivity|].
          intros i Hi. unfold f. destruct (aget keys i) as [x|] eqn:Ei; [|reflexivity].
          pose proof (Hsorted med i k x Hk Ei ltac:(lia)). lia.
        * rewrite IHr by lia. rewrite (HF f lo med); [reflexivity|].
          intros i Hi. unfold f. destruct (aget keys i) as [x|] eqn:Ei; [|reflexivity].
          pose proof (Hsorted i med x k Ei Hk ltac:(lia)). lia.
  Qed.
End Tree.

(** what a sorted list of pairs maps a key to *)
Definition looks_up (keys values : list Z) (key : Z) (r : option Z) : Prop :=
  match r with
  | Some v => exists i, aget keys i = Some key /\ aget values i = Some v
  | None => ~ In key keys
  end.

Definition increasing (keys : list Z) : Prop :=
  forall i j a b, aget keys i = Some a -> aget keys j = Some b -> i < j -> a < b.

Lemma bintree_ok keys values : alen values = alen keys -> increasing keys -> exists t,
  create_from_ordered_list 0 keys values (alen keys) = Some t /\ numelements t = 0 /\
  forall key, exists r, bintree_get t key = Some r /\ looks_up keys values key r.
Proof.
  intros HL Hs. unfold create_from_ordered_list. pose proof (alen_nonneg keys) as Hn.
  destruct (addfromarray_ok keys values HL (Z.to_nat (alen keys)) (Tree (repeat None (Z.to_nat (alen keys))) None 0) SRoot 0 (alen keys - 1))
    as [t [p [E [L [N [R [Ld St]]]]]]]; try lia.
  - split; [cbn; lia|]. split; [reflexivity|discriminate].
  - cbn [nodes numelements]. rewrite alen_repeat. lia.
  - rewrite E. eexists. split; [reflexivity|]. split; [reflexivity|]. intros key. cbn in Ld. injection Ld as ->.
    unfold bintree_get. cbn [nodes root]. eexists. split.
    + apply (get_loop_ok keys values Hs) with (m := 0) (lo := 0) (hi := alen keys - 1); cbn [nodes]; try lia; [exact R|].
      cbn [nodes] in L. rewrite alen_repeat in L. unfold alen in L at 1. lia.
    + destruct (find _ _) as [i|] eqn:Ef.
      * apply find_some in Ef. destruct Ef as [Hi Hk]. apply in_zrange in Hi.
        destruct (aget keys i) as [k|] eqn:Ek; [|discriminate]. apply Z.eqb_eq in Hk. subst k.
        destruct (aget_some values i ltac:(lia)) as [v Hv]. rewrite Hv. exists i. auto.
      * cbn. intros Hin. apply In_aget in Hin. destruct Hin as [i Hi]. pose proof (aget_bounds _ _ _ Hi).
        apply (find_none _ _) with (x := i) in Ef; [|apply in_zrange; lia]. rewrite Hi, Z.eqb_refl in Ef. discriminate.
Qed.

(** the sparse patch map: inverse of the list of curve indices *)
Lemma map_ok sfc_indices : increasing sfc_indices -> Forall (fun i => 0 <= i) sfc_indices -> exists t,
  map_create sfc_indices = Some t /\
  (forall gp i, aget sfc_indices gp = Some i -> map_sfc_idx_to_gpatch t i = Some gp) /\
  (forall i, ~ In i sfc_indices -> map_sfc_idx_to_gpatch t i = Some (-1)).
Proof.
  intros Hs Hp. unfold map_create. pose proof (alen_nonneg sfc_indices) as Hn.
  destruct (bintree_ok sfc_indices (zrange 0 (alen sfc_indices))) as [t [E [_ G]]]; [rewrite alen_zrange; lia|exact Hs|].
  exists t. split; [exact E|]. unfold map_sfc_idx_to_gpatch. split.
  - intros gp i Hi. destruct (G i) as [[v|] [Er Hr]]; rewrite Er.
    + destruct Hr as [j [Hj Hv]]. pose proof (aget_bounds _ _ _ Hj) as Hb. rewrite aget_zrange in Hv.
      destruct (Z.leb_spec 0 j), (Z.ltb_spec j (alen sfc_indices - 0)); cbn [andb] in Hv; try lia. injection Hv as <-.
      f_equal. destruct (Z.lt_trichotomy gp j) as [H'|[H'|H']]; [|lia|].
      * pose proof (Hs gp j i i Hi Hj H'). lia.
      * pose proof (Hs j gp i i Hj Hi H'). lia.
    + exfalso. apply Hr. eapply aget_In; eauto.
  - intros i Hi. destruct (G i) as [[v|] [Er Hr]]; rewrite Er; [|reflexivity].
    exfalso. destruct Hr as [j [Hj _]]. apply Hi. eapply aget_In; eauto.
Qed.
