From Verif Require Import Base Arr DomainModel DomainSpec MpiModel BalanceModel BalanceMoveProofs BalanceCommProofs CollisionProofs SortModel SortProofs DdcPrtSpec DdcPrtProofs RestartProofs
  GhostModel PatchListProofs OutPrtModel OutPrtSpec OutPrtSortProofs OutPrtLocalProofs.
Local Open Scope Z_scope.

(** ** lists *)
Lemma aget_combine_inv {A B} (a : list A) : forall (b : list B) i x y, aget (combine a b) i = Some (x, y) -> aget a i = Some x /\ aget b i = Some y.
Proof.
  induction a as [|u a IH]; intros [|v b] i x y H; cbn [combine] in H; try (rewrite aget_none in H by (unfold alen; cbn; lia); discriminate).
  rewrite aget_cons in H. rewrite (aget_cons u), (aget_cons v). destruct (i =? 0); [inversion H; auto|]. apply IH, H.
Qed.

Lemma aget_combine_some {A B} (a : list A) : forall (b : list B) i x y, aget a i = Some x -> aget b i = Some y -> aget (combine a b) i = Some (x, y).
Proof.
  induction a as [|u a IH]; intros [|v b] i x y H H'; try (rewrite aget_none in H by (unfold alen; cbn; lia); discriminate); try (rewrite aget_none in H' by (unfold alen; cbn; lia); discriminate).
  cbn [combine]. rewrite aget_cons in H. rewrite aget_cons in H'. rewrite aget_cons. destruct (i =? 0); [congruence|]. apply IH; assumption.
Qed.

Lemma alen_combine' {A B} (a : list A) (b : list B) : alen a = alen b -> alen (combine a b) = alen a.
Proof. unfold alen. rewrite combine_length. lia. Qed.

Lemma aget_map_inf {A} (f : Z -> A) n p x : aget (map f (zrange 0 n)) p = Some x -> 0 <= p < n /\ x = f p.
Proof. rewrite aget_map, aget_zrange. destruct (Z.leb_spec 0 p), (Z.ltb_spec p (n - 0)); cbn [andb option_map]; intros [= <-]. split; [lia|f_equal; lia]. Qed.

Lemma copy_run_append {T} (src : list T) : forall a n, alen src <= Z.of_nat n ->
  copy_run (map Some a ++ repeat None n) (alen a) src = Some (map Some (a ++ src) ++ repeat None (n - length src)).
Proof.
  induction src as [|x src IH]; intros a n H; cbn [copy_run].
  - rewrite app_nil_r. cbn [length]. rewrite Nat.sub_0_r. reflexivity.
  - rewrite alen_cons in H. pose proof (alen_nonneg src). destruct n as [|n]; [lia|]. cbn [repeat].
    assert (E : aset (map Some a ++ None :: repeat None n) (alen a) (Some x) = Some (map Some (a ++ [x]) ++ repeat None n)).
    { destruct (aset_some (map Some a ++ None :: repeat None n) (alen a) (Some x)) as [l [E [L G]]]; [rewrite alen_app, alen_map, alen_cons; pose proof (alen_nonneg a); pose proof (alen_nonneg (repeat (@None T) n)); lia|].
      rewrite E. f_equal. apply alist_ext; [rewrite L, map_app, !alen_app; cbn [map]; rewrite !alen_cons; change (alen (@nil (option T))) with 0; lia|]. intros i Hi. rewrite G, map_app, <- app_assoc. cbn [map app].
      rewrite !aget_app, !alen_map, !aget_cons. destruct (Z.eqb_spec i (alen a)) as [->|N]; [rewrite Z.ltb_irrefl, Z.sub_diag; reflexivity|].
      destruct (Z.ltb_spec i (alen a)); [reflexivity|]. destruct (Z.eqb_spec (i - alen a) 0); [lia|reflexivity]. }
    rewrite E. replace (alen a + 1) with (alen (a ++ [x])) by (rewrite alen_app; unfold alen; cbn; lia). rewrite IH by lia. rewrite <- app_assoc. reflexivity.
Qed.

(** ** pieces of a concatenation *)
Section Pieces.
  Context {A T : Type}.
  Variable f : A -> list T.

  Lemma piece_find : forall l i, 0 <= i < alen (flat_map f l) -> exists pre x post, l = pre ++ x :: post /\ alen (flat_map f pre) <= i < alen (flat_map f pre) + alen (f x).
  Proof.
    induction l as [|a l IH]; intros i Hi; cbn [flat_map] in Hi; [unfold alen in Hi; cbn in Hi; lia|]. rewrite alen_app in Hi. destruct (Z_lt_dec i (alen (f a))).
    - exists [], a, l. split; [reflexivity|]. cbn [flat_map]. change (alen (@nil T)) with 0. lia.
    - destruct (IH (i - alen (f a)) ltac:(lia)) as [pre [x [post [-> B]]]]. exists (a :: pre), x, post. split; [reflexivity|]. cbn [flat_map]. rewrite alen_app. lia.
  Qed.

  Lemma piece_unique : forall pre x post pre' x' post' i, pre ++ x :: post = pre' ++ x' :: post' ->
    alen (flat_map f pre) <= i < alen (flat_map f pre) + alen (f x) -> alen (flat_map f pre') <= i < alen (flat_map f pre') + alen (f x') -> x = x' /\ pre = pre'.
  Proof.
    induction pre as [|a pre IH]; intros x post [|b pre'] x' post' i E H H'; cbn [app flat_map] in *.
    - injection E as -> _. auto.
    - injection E as -> _. rewrite alen_app in H'. pose proof (alen_nonneg (flat_map f pre')). change (alen (@nil T)) with 0 in *. lia.
    - injection E as -> _. rewrite alen_app in H. pose proof (alen_nonneg (flat_map f pre)). change (alen (@nil T)) with 0 in *. lia.
    - injection E as -> E. rewrite alen_app in *. destruct (IH x post pre' x' post' (i - alen (f b)) E) as [-> ->]; [lia|lia|auto].
  Qed.

  Lemma piece_slice pre x post : slice (flat_map f (pre ++ x :: post)) (alen (flat_map f pre)) (alen (flat_map f pre) + alen (f x)) = f x.
  Proof.
    unfold slice. rewrite flat_map_app. cbn [flat_map]. unfold alen. rewrite Nat2Z.id. replace (Z.to_nat (_ + _ - _)) with (length (f x)) by lia.
    rewrite skipn_app, skipn_all, Nat.sub_diag. cbn [skipn app]. rewrite firstn_app, firstn_all, Nat.sub_diag. cbn [firstn]. apply app_nil_r.
  Qed.

  Lemma flat_map_one l x : NoDup l -> In x l -> (forall y, In y l -> y <> x -> f y = []) -> flat_map f l = f x.
  Proof.
    induction l as [|a l IH]; intros ND HI H; [destruct HI|]. inversion ND as [|? ? N ND']; subst. cbn [flat_map]. destruct HI as [->|HI].
    - assert (E : flat_map f l = []).
      { assert (G : forall y, In y l -> f y = []) by (intros y Hy; apply H; [now right|intros ->; contradiction]). clear - G. induction l as [|b l IH]; [reflexivity|]. cbn. rewrite (G b) by now left. apply IH. intros y Hy. apply G. now right. }
      rewrite E. apply app_nil_r.
    - rewrite (H a) by (try (now left); intros ->; contradiction). apply IH; auto. intros y Hy. apply H. now right.
  Qed.
End Pieces.

Lemma split_unique {A} (pre : list A) : forall x post pre' post', NoDup (pre ++ x :: post) -> pre ++ x :: post = pre' ++ x :: post' -> pre = pre'.
Proof.
  induction pre as [|a pre IH]; intros x post [|b pre'] post' ND E; cbn [app] in *; [reflexivity| | |].
  - injection E as -> ->. inversion ND as [|? ? Hn _]; subst. exfalso. apply Hn, in_or_app. right. now left.
  - injection E as -> E. inversion ND as [|? ? Hn _]; subst. exfalso. apply Hn, in_or_app. right. now left.
  - injection E as -> E. f_equal. inversion ND; subst. eapply IH; eassumption.
Qed.

Lemma flat_map_flat_map {A B C} (f : B -> list C) (g : A -> list B) l : flat_map f (flat_map g l) = flat_map (fun a => flat_map f (g a)) l.
Proof. induction l as [|a l IH]; [reflexivity|]. cbn [flat_map]. rewrite flat_map_app, IH. reflexivity. Qed.

Lemma flat_map_map {A B C} (f : B -> list C) (g : A -> B) l : flat_map f (map g l) = flat_map (fun a => f (g a)) l.
Proof. induction l as [|a l IH]; [reflexivity|]. cbn [flat_map map]. rewrite IH. reflexivity. Qed.

Lemma chosen_patches_get {P S} (selector : S -> P -> bool * S) : forall ll s p l, aget (chosen_patches selector s ll) p = Some l -> exists s' l0, aget ll p = Some l0 /\ l = fst (chosen selector s' l0).
Proof.
  induction ll as [|a ll IH]; intros s p l H; cbn [chosen_patches] in H; [apply aget_bounds in H; unfold alen in H; cbn in H; lia|].
  rewrite aget_cons in H. rewrite aget_cons. destruct (p =? 0); [injection H as <-; eauto|]. eapply IH. exact H.
Qed.

Section Global.
  Context {P T S : Type}.
  Variables (cellpos : P -> V3 Z) (kindof : P -> Z) (written : patch_info -> P -> T).
  Variables (selector : S -> P -> bool * S) (selector0 : S).
  Variables (lo hi : V3 Z) (nr_kinds : Z).
  Variables (c : curve) (np gdims : V3 Z) (per : V3 bool) (pr : option (list Z)) (size : Z) (dm : domain).
  Variable mprts : Z -> list (list P).
  Hypothesis Hpos : all_pos np.
  Hypothesis Hset : domain_setup c np gdims per pr size = Some dm.
  Hypothesis Hcnt : counts_valid pr (volume np) size.
  Hypothesis Hproc : processes pr size.
  Hypothesis Hgd : forall d, 0 < get3 gdims d.
  Hypothesis Hnk : 0 <= nr_kinds.
  Hypothesis Hreg : forall d, 0 <= get3 lo d <= get3 hi d /\ get3 hi d <= get3 gdims d.
  Hypothesis Hmp : per_patch dm size mprts.
  Hypothesis Hprt : particles_ok cellpos kindof dm size mprts nr_kinds.

  Notation ldims := (grid_ldims dm).
  Notation N := (patches_of dm).
  Notation valid := (DdcPrtProofs.valid size N).
  Notation inf := (inf dm).
  Definition po (r p : Z) : V3 Z := pi_off (inf r p).
  Notation cells := (OutPrtModel.cells lo hi nr_kinds ldims).
  Notation sz := (patch_sz lo hi nr_kinds ldims).

  Let Hld d : 0 < get3 ldims d := ldims_pos c np gdims per pr size dm Hpos Hset Hcnt Hproc d Hgd.
  Let Hinf := inf_ok c np gdims per pr size dm Hpos Hset Hcnt Hproc.

  Lemma box_ok off d : get3 (patch_ilo lo ldims off) d <= get3 (patch_ihi hi ldims off) d.
  Proof. unfold patch_ilo, patch_ihi. rewrite !get3_gen3. specialize (Hld d). specialize (Hreg d). lia. Qed.

  Lemma in_cells_iff off j k : In (j, k) (cells off) <-> (forall d, 0 <= get3 j d < get3 ldims d /\ get3 lo d <= get3 off d + get3 j d < get3 hi d) /\ 0 <= k < nr_kinds.
  Proof.
    rewrite in_cells. split; intros [H Hk]; (split; [|exact Hk]); intros d; specialize (H d); specialize (Hld d); unfold patch_ilo, patch_ihi in *; rewrite !get3_gen3 in *; lia.
  Qed.

  (** ** the particles of a process, sorted *)
  Definition ch (r p : Z) : list P := match aget (chosen_patches selector selector0 (mprts r)) p with Some l => l | None => [] end.
  Definition ct (r p : Z) (k : key) : list T := map (written (inf r p)) (filter (lcell cellpos kindof ldims (fst k) (snd k)) (ch r p)).

  Lemma count_sort_ok : forall ll s, (forall l q, In l ll -> In q l -> okp cellpos kindof nr_kinds ldims q) ->
    exists sorted, count_sort cellpos kindof selector nr_kinds ldims ll s = Some sorted /\ alen sorted = alen ll /\
      forall p l, aget ll p = Some l -> exists off m chp, aget sorted p = Some (off, m) /\ aget (chosen_patches selector s ll) p = Some chp /\
        forall j k info, (forall d, 0 <= get3 j d < get3 ldims d) -> 0 <= k < nr_kinds ->
          n_in_cell nr_kinds ldims off (j, k) = Some (alen (filter (lcell cellpos kindof ldims j k) chp)) /\
          records written info l off m (sort_index nr_kinds ldims j k) = Some (map (written info) (filter (lcell cellpos kindof ldims j k) chp)).
  Proof.
    induction ll as [|l ll IH]; intros s H.
    - exists []. split; [reflexivity|]. split; [reflexivity|]. intros p l Hp. apply aget_bounds in Hp. unfold alen in Hp. cbn in Hp. lia.
    - cbn [count_sort chosen_patches].
      destruct (count_sort_patch_ok cellpos kindof written selector nr_kinds ldims Hld Hnk l s) as [off [m [E G]]]; [intros q Hq; apply (H l q); [now left|exact Hq]|]. rewrite E.
      destruct (IH (snd (chosen selector s l))) as [sorted [E' [L G']]]; [intros l' q Hl Hq; apply (H l' q); [now right|exact Hq]|]. rewrite E'.
      exists ((off, m) :: sorted). split; [reflexivity|]. split; [rewrite !alen_cons; lia|]. intros p l' Hp. rewrite !aget_cons in *. destruct (p =? 0).
      + injection Hp as <-. exists off, m, (fst (chosen selector s l)). split; [reflexivity|]. split; [reflexivity|]. exact G.
      + destruct (G' _ _ Hp) as [off' [m' [chp [A [B C]]]]]. exists off', m', chp. auto.
  Qed.

  Lemma patches_in_ok r : 0 <= r < size -> exists ps, patches_in cellpos kindof selector selector0 nr_kinds dm ldims mprts r = Some ps /\ alen ps = N r /\
    forall p q, aget ps p = Some q -> good_patch written lo hi nr_kinds ldims (po r) (ct r) p q.
  Proof.
    intros Hr. unfold patches_in. pose proof (Hmp r Hr) as HN.
    destruct (count_sort_ok (mprts r) selector0) as [sorted [E [L G]]].
    { intros l q Hl Hq. destruct (In_aget _ _ Hl) as [p Hp]. pose proof (aget_bounds _ _ _ Hp) as Hb. destruct (Hinf r p) as [E1 [_ [_ [E2 _]]]]; [split; lia|].
      destruct (Hprt r p (inf r p) l q Hr E1 Hp Hq) as [A B]. rewrite E2 in A. split; assumption. }
    rewrite E. rewrite (linfos_ok c np gdims per pr size dm Hpos Hset Hcnt Hproc r (alen (mprts r)) Hr HN).
    eexists. split; [reflexivity|]. pose proof (alen_nonneg (mprts r)). split.
    - assert (LI : alen (combine (map (inf r) (zrange 0 (alen (mprts r)))) (mprts r)) = alen (mprts r)) by (rewrite alen_combine'; rewrite alen_map, alen_zrange; lia).
      etransitivity; [apply alen_combine'; lia|lia].
    - intros p [[info prts] [off m]] Hp. apply aget_combine_inv in Hp. destruct Hp as [Hp Hs]. apply aget_combine_inv in Hp. destruct Hp as [Hi Hl].
      apply aget_map_inf in Hi. destruct Hi as [Hb ->]. destruct (G p prts Hl) as [off' [m' [chp [A [B C]]]]]. rewrite A in Hs. injection Hs as -> ->.
      cbn [good_patch]. split; [reflexivity|]. intros [j k] Hc. apply in_cells_iff in Hc. destruct Hc as [Hj Hk]. cbn [fst snd]. unfold ct, ch. rewrite B. cbn [fst snd].
      destruct (C j k (inf r p)) as [C1 C2]; [intros d; apply (Hj d)|exact Hk|]. rewrite C1, C2, alen_map. auto.
  Qed.

  (** what process r writes *)
  Definition W (r : Z) : list T := flat_map (wr lo hi nr_kinds ldims (po r) (ct r)) (zrange 0 (N r)).

  Notation n_write_of := (n_write_of cellpos kindof selector selector0 lo hi nr_kinds dm ldims mprts).
  Notation n_before := (n_before cellpos kindof selector selector0 lo hi nr_kinds dm ldims mprts).
  Notation local_of := (local_of cellpos kindof written selector selector0 lo hi nr_kinds dm ldims mprts).

  Lemma n_write_of_ok r : 0 <= r < size -> n_write_of r = Some (alen (W r)).
  Proof.
    intros Hr. unfold OutPrtModel.n_write_of. destruct (patches_in_ok r Hr) as [ps [E [L G]]]. rewrite E.
    rewrite (n_write_ok written lo hi nr_kinds ldims (po r) (ct r) (fun p => box_ok (po r p)) ps 0) by exact G. unfold W. rewrite L. reflexivity.
  Qed.

  Lemma n_before_ok r : 0 <= r <= size -> n_before r = Some (alen (flat_map W (zrange 0 r))).
  Proof.
    intros Hr. unfold OutPrtModel.n_before. rewrite (sequence_map_some _ (fun r => alen (W r))) by (intros a Ha; apply in_zrange in Ha; apply n_write_of_ok; lia).
    rewrite zsum_alen. reflexivity.
  Qed.

  Definition key3 := (Z * Z * key)%type.
  Definition vkey (x : key3) : Prop := let '(r, p, k) := x in valid r p /\ In k (cells (po r p)).
  Definition ctK (x : key3) : list T := let '(r, p, k) := x in ct r p k.
  Definition beg (x : key3) : Z := let '(r, p, k) := x in
    alen (flat_map W (zrange 0 r)) + alen (flat_map (wr lo hi nr_kinds ldims (po r) (ct r)) (zrange 0 p)) + alen (flat_map (ct r p) (upto k (cells (po r p)))).

  (** the table idx[p] of process r *)
  Definition good_idx (r p : Z) (idx : list (option Z)) : Prop :=
    alen idx = 2 * sz (po r p) /\ forall k, In k (cells (po r p)) ->
      aget idx (ipos lo hi nr_kinds ldims (po r p) k 0) = Some (Some (beg (r, p, k))) /\ aget idx (ipos lo hi nr_kinds ldims (po r p) k 1) = Some (Some (beg (r, p, k) + alen (ct r p k))).

  Lemma local_of_ok r : 0 <= r < size -> exists idxs, local_of r = Some (W r, idxs) /\ alen idxs = N r /\ forall p, 0 <= p < N r -> exists idx, aget idxs p = Some idx /\ good_idx r p idx.
  Proof.
    intros Hr. unfold OutPrtModel.local_of. rewrite n_write_of_ok, n_before_ok by lia. destruct (patches_in_ok r Hr) as [ps [E [L G]]]. rewrite E.
    destruct (local_array_ok written lo hi nr_kinds ldims Hnk (alen (flat_map W (zrange 0 r))) (po r) (ct r)) with (ps := ps) as [idxs [E' [L' B]]]; [intros; apply box_ok|exact G|].
    rewrite L in *. exists idxs. split; [exact E'|]. split; [exact L'|]. intros p Hp. destruct (B p Hp) as [idx [A1 [A2 A3]]]. exists idx. split; [exact A1|]. split; [exact A2|]. exact A3.
  Qed.

  Definition idxs (r : Z) : list (list (option Z)) := match local_of r with Some (_, i) => i | None => [] end.

  Lemma local_of_val r : 0 <= r < size -> local_of r = Some (W r, idxs r) /\ alen (idxs r) = N r /\ forall p, 0 <= p < N r -> exists idx, aget (idxs r) p = Some idx /\ good_idx r p idx.
  Proof. intros Hr. unfold idxs. destruct (local_of_ok r Hr) as [i [E [L B]]]. rewrite E. auto. Qed.

  (** ** the particles in the file *)
  Definition file : list T := flat_map W (zrange 0 size).

  Lemma particle_data_ok : particle_data cellpos kindof written selector selector0 lo hi nr_kinds dm size ldims mprts = Some file.
  Proof.
    unfold particle_data. pose proof (size_pos c np gdims per pr size dm Hpos Hset Hcnt Hproc) as Hs. rewrite n_before_ok by lia. fold file. unfold alen at 1. rewrite Nat2Z.id.
    assert (G : forall n, 0 <= n -> n <= size -> fold_left (fun f r => match f, local_of r, n_before r with Some f, Some (arr, _), Some n_off => copy_run f n_off arr | _, _, _ => None end)
      (zrange 0 n) (Some (repeat None (length file))) = Some (map Some (flat_map W (zrange 0 n)) ++ repeat None (length file - length (flat_map W (zrange 0 n))))).
    { intros n Hn. pattern n. apply natlike_ind; [| |exact Hn].
      - intros _. rewrite zrange_empty by lia. cbn. rewrite Nat.sub_0_r. reflexivity.
      - clear n Hn. intros n Hn IH H1. unfold Z.succ in *. rewrite zrange_snoc, fold_left_app, IH by lia. cbn [fold_left]. destruct (local_of_val n ltac:(lia)) as [E _]. rewrite E, n_before_ok by lia.
        assert (HL : (length (flat_map W (zrange 0 n)) + length (W n) <= length file)%nat).
        { unfold file. rewrite (zrange_app 0 n size), (zrange_cons n size) by lia. rewrite flat_map_app. cbn [flat_map]. rewrite !app_length. lia. }
        rewrite copy_run_append by (unfold alen; lia). rewrite flat_map_app. cbn [flat_map]. rewrite app_nil_r. do 3 f_equal. rewrite app_length. lia. }
    rewrite G by lia. fold file. rewrite Nat.sub_diag. cbn [repeat]. rewrite app_nil_r. apply all_some_map.
  Qed.

  (** ** the tables *)
  Definition gpos (x : key3) : Z := let '(r, p, k) := x in gidx_at lo hi (po r p) (fst k) (snd k).
  Definition M : Z := (c0 hi - c0 lo) * (c1 hi - c1 lo) * (c2 hi - c2 lo) * nr_kinds.

  Lemma gpos_range x : vkey x -> 0 <= gpos x < M.
  Proof.
    destruct x as [[r p] [j k]]. intros [_ H]. apply in_cells_iff in H. destruct H as [H Hk]. pose proof (H D0) as H0. pose proof (H D1) as H1. pose proof (H D2) as H2. cbn [get3] in *.
    unfold gpos, gidx_at, M. cbn [fst snd]. unfold gen3. cbn [c0 c1 c2 get3].
    set (x := c0 j + _ - _). set (y := c1 j + _ - _). set (z := c2 j + _ - _). set (nx := c0 hi - c0 lo). set (ny := c1 hi - c1 lo). set (nz := c2 hi - c2 lo).
    assert (0 <= x < nx /\ 0 <= y < ny /\ 0 <= z < nz) as (X & Y & Z') by (subst x y z nx ny nz; lia). clearbody x y z nx ny nz. clear - X Y Z' Hk.
    set (b := k * nz + z). assert (0 <= b < nr_kinds * nz) by (subst b; nia). set (w := b * ny + y). assert (0 <= w < nr_kinds * nz * ny) by (subst w; nia). nia.
  Qed.

  Lemma gpos_cell r p j k r' p' j' k' : vkey (r, p, (j, k)) -> vkey (r', p', (j', k')) -> gpos (r, p, (j, k)) = gpos (r', p', (j', k')) ->
    (forall d, get3 (po r p) d + get3 j d = get3 (po r' p') d + get3 j' d) /\ k = k'.
  Proof.
    intros [_ H] [_ H'] E. apply in_cells_iff in H, H'. destruct H as [H Hk], H' as [H' Hk'].
    pose proof (H D0) as H0. pose proof (H D1) as H1. pose proof (H D2) as H2. pose proof (H' D0) as H0'. pose proof (H' D1) as H1'. pose proof (H' D2) as H2'. cbn [get3] in *.
    unfold gpos, gidx_at in E. cbn [fst snd] in E. unfold gen3 in E. cbn [c0 c1 c2 get3] in E.
    apply mixed in E; [|lia..]. destruct E as [E E0]. apply mixed in E; [|lia..]. destruct E as [E E1]. apply mixed in E; [|lia..]. destruct E as [-> E2].
    split; [|reflexivity]. intros []; cbn [get3]; lia.
  Qed.

  Lemma same_cell r p j k r' p' j' : vkey (r, p, (j, k)) -> vkey (r', p', (j', k)) -> (forall d, get3 (po r p) d + get3 j d = get3 (po r' p') d + get3 j' d) -> (r, p, (j, k)) = (r', p', (j', k)).
  Proof.
    intros [V H] [V' H'] E. apply in_cells_iff in H, H'. destruct H as [H _], H' as [H' _].
    destruct (cell_owner_unique c np gdims per pr size dm Hpos Hset Hcnt Hproc (gen3 (fun d => get3 (po r p) d + get3 j d)) r p r' p' V V') as [-> ->].
    - intros d. rewrite get3_gen3. unfold po. specialize (H d). lia.
    - intros d. rewrite get3_gen3, E. unfold po. specialize (H' d). lia.
    - f_equal. f_equal. apply v3_ext. intros d. specialize (E d). lia.
  Qed.

  Lemma gpos_inj x x' : vkey x -> vkey x' -> gpos x = gpos x' -> x = x'.
  Proof.
    destruct x as [[r p] [j k]], x' as [[r' p'] [j' k']]. intros H H' E. destruct (gpos_cell _ _ _ _ _ _ _ _ H H' E) as [G ->]. apply same_cell; assumption.
  Qed.

  Definition good_tab (V : key3 -> Prop) (st : option tables) : Prop := exists tb te, st = Some (tb, te) /\ alen tb = M /\ alen te = M /\
    forall x, vkey x -> V x -> aget tb (gpos x) = Some (Some (beg x)) /\ aget te (gpos x) = Some (Some (beg x + alen (ctK x))).

  Lemma good_tab_mono (V V' : key3 -> Prop) st : (forall x, vkey x -> V' x -> V x) -> good_tab V st -> good_tab V' st.
  Proof. intros H [tb [te [E [L [L' G]]]]]. exists tb, te. split; [exact E|]. split; [exact L|]. split; [exact L'|]. intros x Hx Hv. apply G; auto. Qed.

  Lemma put_ok (V : key3 -> Prop) st r p k : vkey (r, p, k) -> good_tab V st ->
    good_tab (fun x => V x \/ x = (r, p, k)) (put_tables lo hi (po r p) st k (Some (Some (beg (r, p, k)), Some (beg (r, p, k) + alen (ct r p k))))).
  Proof.
    intros Hk [tb [te [-> [L [L' G]]]]]. unfold put_tables. pose proof (gpos_range _ Hk) as HR. unfold gpos in HR at 1 2.
    destruct (aset_some tb _ (Some (beg (r, p, k))) ltac:(rewrite L; exact HR)) as [tb' [E1 [L1 G1]]]. destruct (aset_some te _ (Some (beg (r, p, k) + alen (ct r p k))) ltac:(rewrite L'; exact HR)) as [te' [E2 [L2 G2]]].
    rewrite E1, E2. exists tb', te'. split; [reflexivity|]. split; [lia|]. split; [lia|]. intros x Hx Hv. rewrite G1, G2. change (gidx_at lo hi (po r p) (fst k) (snd k)) with (gpos (r, p, k)).
    destruct (Z.eqb_spec (gpos x) (gpos (r, p, k))) as [E|Ne].
    - apply gpos_inj in E; [|assumption..]. subst x. auto.
    - destruct Hv as [Hv| ->]; [apply G; assumption|contradiction].
  Qed.

  Lemma fold_put r p (step : option tables -> key -> option tables) : valid r p ->
    (forall st k, In k (cells (po r p)) -> step st k = put_tables lo hi (po r p) st k (Some (Some (beg (r, p, k)), Some (beg (r, p, k) + alen (ct r p k))))) ->
    forall L (V : key3 -> Prop) st, (forall k, In k L -> In k (cells (po r p))) -> good_tab V st -> good_tab (fun x => V x \/ exists k, In k L /\ x = (r, p, k)) (fold_left step L st).
  Proof.
    intros Hv Hs. induction L as [|k L IH]; intros V st HL HG; cbn [fold_left].
    - eapply good_tab_mono; [|exact HG]. intros x _ [H|[k [[] _]]]. exact H.
    - rewrite Hs by (apply HL; now left). eapply good_tab_mono; [|apply IH; [intros k' Hk'; apply HL; now right|apply put_ok; [split; [exact Hv|apply HL; now left]|exact HG]]].
      cbn beta. intros x _ [H|[k' [[<-|H] ->]]]; [left; left; exact H|left; right; reflexivity|right; exists k'; auto].
  Qed.

  Lemma fold_cells r p (step : option tables -> key -> option tables) (V : key3 -> Prop) st : valid r p ->
    (forall st k, In k (cells (po r p)) -> step st k = put_tables lo hi (po r p) st k (Some (Some (beg (r, p, k)), Some (beg (r, p, k) + alen (ct r p k))))) ->
    good_tab V st -> good_tab (fun x => V x \/ fst x = (r, p)) (fold_left step (cells (po r p)) st).
  Proof.
    intros Hv Hs HG. eapply good_tab_mono; [|apply (fold_put r p step Hv Hs (cells (po r p)) V st (fun k H => H) HG)].
    cbn beta. intros [[r' p'] k] [_ Hx] [H|[= -> ->]]; [left; exact H|right; exists k; auto].
  Qed.

  (** *** local part *)
  Definition aligned : Prop := forall p j k, 0 <= p < N 0 -> In (j, k) (cells (po 0 p)) -> forall d, get3 lo d <= get3 (po 0 p) d.

  Lemma root_local_ok p idx (V : key3 -> Prop) st : aligned -> 0 < size -> 0 <= p < N 0 -> good_idx 0 p idx -> good_tab V st ->
    good_tab (fun x => V x \/ fst x = (0, p)) (root_local lo hi nr_kinds st (inf 0 p, idx)).
  Proof.
    intros Ha Hs Hp [_ Hi] HG. assert (Hv : valid 0 p) by (split; lia). unfold root_local. destruct (Hinf 0 p Hv) as [_ [_ [_ [-> _]]]].
    apply fold_cells; [exact Hv| |exact HG]. intros st' [j k] Hk. destruct (Hi _ Hk) as [I1 I2].
    assert (E : gen3 (fun d => get3 j d - get3 (patch_ilo lo ldims (po 0 p)) d) = j).
    { apply v3_ext. intros d. rewrite get3_gen3. unfold patch_ilo. rewrite get3_gen3. specialize (Ha p j k Hp Hk d). specialize (Hld d). lia. }
    unfold ipos in I1, I2. cbn [fst snd] in I1, I2. rewrite E in I1, I2. fold (po 0 p). rewrite I1, I2. reflexivity.
  Qed.

  Lemma root_local_all : forall l base (V : key3 -> Prop) st, aligned -> 0 < size -> 0 <= base -> base + alen l <= N 0 ->
    (forall i a, aget l i = Some a -> exists idx, a = (inf 0 (base + i), idx) /\ good_idx 0 (base + i) idx) -> good_tab V st ->
    good_tab (fun x => V x \/ exists p, base <= p < base + alen l /\ fst x = (0, p)) (fold_left (root_local lo hi nr_kinds) l st).
  Proof.
    induction l as [|a l IH]; intros base V st Ha Hs H0 HN Hl HG; cbn [fold_left].
    - eapply good_tab_mono; [|exact HG]. intros x _ [H|[p [Hp _]]]; [exact H|]. unfold alen in Hp. cbn in Hp. lia.
    - rewrite alen_cons in *. pose proof (alen_nonneg l). destruct (Hl 0 a eq_refl) as [idx [-> HI]]. rewrite Z.add_0_r in *.
      eapply good_tab_mono; [|apply (IH (base + 1)); [exact Ha|exact Hs|lia|lia| |apply (root_local_ok base idx V st Ha Hs); [lia|exact HI|exact HG]]].
      + cbn beta. intros x _ [H1|[p [Hp Ex]]]; [left; left; exact H1|]. destruct (Z.eq_dec p base) as [->|]; [left; right; exact Ex|right; exists p; split; [lia|exact Ex]].
      + intros i a Hi. replace (base + 1 + i) with (base + (i + 1)) by lia. apply Hl. pose proof (aget_bounds _ _ _ Hi). rewrite aget_cons. destruct (Z.eqb_spec (i + 1) 0); [lia|]. replace (i + 1 - 1) with i by lia. exact Hi.
  Qed.

  (** *** remote part *)
  Lemma root_remote_ok bufs r p pre idx post (V : key3 -> Prop) st ptr : valid r p -> r <> 0 -> good_idx r p idx -> bufs r = pre ++ idx ++ post -> ptr r = alen pre -> good_tab V st ->
    let '(st', ptr') := root_remote lo hi nr_kinds bufs (st, ptr) (inf r p) in
    good_tab (fun x => V x \/ fst x = (r, p)) st' /\ ptr' r = alen (pre ++ idx) /\ forall r', r' <> r -> ptr' r' = ptr r'.
  Proof.
    intros Hv Hr [HL Hi] Hb Hp HG. unfold root_remote. destruct (Hinf r p Hv) as [_ [-> [_ [-> _]]]]. destruct (Z.eqb_spec r 0); [contradiction|]. split.
    - apply fold_cells; [exact Hv| |exact HG]. intros st' [j k] Hk. destruct (Hi _ Hk) as [I1 I2]. pose proof (ipos_range lo hi nr_kinds ldims (po r p) (j, k) 0 Hk ltac:(lia)) as R1.
      pose proof (ipos_range lo hi nr_kinds ldims (po r p) (j, k) 1 Hk ltac:(lia)) as R2. fold (po r p).
      assert (G : forall i, 0 <= i < alen idx -> aget (bufs r) (ptr r + i) = aget idx i).
      { intros i Hib. rewrite Hb, Hp, aget_app. destruct (Z.ltb_spec (alen pre + i) (alen pre)); [lia|]. rewrite aget_app. replace (alen pre + i - alen pre) with i by lia. destruct (Z.ltb_spec i (alen idx)); [reflexivity|lia]. }
      set (ld := patch_ld lo hi ldims (po r p)) in *. set (ilo := patch_ilo lo ldims (po r p)) in *.
      assert (E1 : ((k * c2 ld + c2 j - c2 ilo) * c1 ld + c1 j - c1 ilo) * c0 ld + c0 j - c0 ilo = ipos lo hi nr_kinds ldims (po r p) (j, k) 0).
      { unfold ipos, idx_at. cbn [fst snd]. fold ld ilo. unfold gen3. cbn [c0 c1 c2 get3]. ring. }
      assert (E2 : ipos lo hi nr_kinds ldims (po r p) (j, k) 0 + patch_sz lo hi nr_kinds ldims (po r p) = ipos lo hi nr_kinds ldims (po r p) (j, k) 1).
      { unfold ipos, idx_at, patch_sz. cbn [fst snd]. fold ld ilo. unfold gen3. cbn [c0 c1 c2 get3]. ring. }
      rewrite E1, <- Z.add_assoc, E2, !G by lia. rewrite I1, I2. reflexivity.
    - split.
      + rewrite Z.eqb_refl, Hp, alen_app, HL. unfold po. lia.
      + intros r' Hn. destruct (Z.eqb_spec r' r); [contradiction|reflexivity].
  Qed.

  Lemma remote_rank bufs r : 0 <= r < size -> r <> 0 -> forall l base pre (V : key3 -> Prop) st ptr, 0 <= base -> base + alen l <= N r ->
    (forall i idx, aget l i = Some idx -> good_idx r (base + i) idx) -> bufs r = pre ++ concat l -> ptr r = alen pre -> good_tab V st ->
    let '(st', ptr') := fold_left (root_remote lo hi nr_kinds bufs) (map (inf r) (zrange base (base + alen l))) (st, ptr) in
    good_tab (fun x => V x \/ exists p, base <= p < base + alen l /\ fst x = (r, p)) st' /\ forall r', r' <> r -> ptr' r' = ptr r'.
  Proof.
    intros Hr Hn. induction l as [|idx l IH]; intros base pre V st ptr H0 HN Hl Hb Hp HG.
    - change (alen []) with 0. rewrite zrange_empty by lia. cbn [map fold_left]. split; [|auto]. eapply good_tab_mono; [|exact HG]. intros x _ [H|[p [Hq _]]]; [exact H|lia].
    - rewrite alen_cons in *. pose proof (alen_nonneg l). rewrite zrange_cons by lia. cbn [map fold_left concat] in *.
      pose proof (Hl 0 idx eq_refl) as HI. rewrite Z.add_0_r in HI.
      pose proof (root_remote_ok bufs r base pre idx (concat l) V st ptr ltac:(split; lia) Hn HI Hb Hp HG) as R. destruct (root_remote lo hi nr_kinds bufs (st, ptr) (inf r base)) as [st1 ptr1]. destruct R as [R1 [R2 R3]].
      replace (base + (1 + alen l)) with (base + 1 + alen l) by lia.
      pose proof (IH (base + 1) (pre ++ idx) (fun x => V x \/ fst x = (r, base)) st1 ptr1 ltac:(lia) ltac:(lia)) as Q. specialize (Q ltac:(intros i a Hi; replace (base + 1 + i) with (base + (i + 1)) by lia; apply Hl; pose proof (aget_bounds _ _ _ Hi); rewrite aget_cons; destruct (Z.eqb_spec (i + 1) 0); [lia|]; replace (i + 1 - 1) with i by lia; exact Hi)).
      rewrite <- app_assoc in Q. specialize (Q Hb R2 R1). revert Q. destruct (fold_left _ _ (st1, ptr1)) as [st2 ptr2]. intros [Q1 Q2]. split.
      + eapply good_tab_mono; [|exact Q1]. cbn beta. intros x _ [H1|[p [Hq Ex]]]; [left; left; exact H1|]. destruct (Z.eq_dec p base) as [->|]; [left; right; exact Ex|right; exists p; split; [lia|exact Ex]].
      + intros r' Hr'. rewrite Q2, R3 by exact Hr'. reflexivity.
  Qed.

  Lemma remote_all bufs : (forall r, 0 < r < size -> bufs r = concat (idxs r)) -> forall n, 0 <= n -> n <= size -> forall (V : key3 -> Prop) st ptr,
    (forall r, 0 <= r < size -> ptr r = 0) -> good_tab V st ->
    let '(st', ptr') := fold_left (root_remote lo hi nr_kinds bufs) (flat_map (fun r => map (inf r) (zrange 0 (N r))) (zrange 0 n)) (st, ptr) in
    good_tab (fun x => V x \/ exists r p, 0 < r < n /\ fst x = (r, p)) st' /\ forall r, n <= r < size -> ptr' r = 0.
  Proof.
    intros Hb n Hn. pattern n. apply natlike_ind; [| |exact Hn].
    - intros _ V st ptr Hp HG. rewrite zrange_empty by lia. cbn [flat_map fold_left]. split; [|exact Hp]. eapply good_tab_mono; [|exact HG]. intros x _ [H|[r [p [Hr _]]]]; [exact H|lia].
    - clear n Hn. intros n Hn IH H1 V st ptr Hp HG. unfold Z.succ in *. rewrite zrange_snoc, flat_map_app, fold_left_app by lia. specialize (IH ltac:(lia) V st ptr Hp HG).
      destruct (fold_left _ (flat_map _ (zrange 0 n)) (st, ptr)) as [st1 ptr1]. destruct IH as [I1 I2]. cbn [flat_map]. rewrite app_nil_r.
      destruct (Z.eq_dec n 0) as [->|Nz].
      + assert (E : forall l, (forall p, In p l -> 0 <= p < N 0) -> fold_left (root_remote lo hi nr_kinds bufs) (map (inf 0) l) (st1, ptr1) = (st1, ptr1)).
        { induction l as [|p l IHl]; intros Hl; [reflexivity|]. cbn [map fold_left]. unfold root_remote at 2. destruct (Hinf 0 p) as [_ [-> _]]; [split; [lia|apply Hl; now left]|]. cbn [Z.eqb]. apply IHl. intros q Hq. apply Hl. now right. }
        rewrite E by (intros p H; apply in_zrange in H; lia). split; [|intros r Hr; apply I2; lia]. eapply good_tab_mono; [|exact I1]. cbn beta. intros x _ [H|[r [p [Hr _]]]]; [left; exact H|lia].
      + destruct (local_of_val n ltac:(lia)) as [_ [L G]].
        pose proof (remote_rank bufs n ltac:(lia) Nz (idxs n) 0 [] (fun x => V x \/ exists r p, 0 < r < n /\ fst x = (r, p)) st1 ptr1 ltac:(lia) ltac:(lia)) as Q. specialize (Q ltac:(intros i idx Hi; rewrite Z.add_0_l; destruct (G i) as [idx' [A B]]; [pose proof (aget_bounds _ _ _ Hi); lia|]; rewrite A in Hi; injection Hi as <-; exact B)).
        specialize (Q (Hb n ltac:(lia)) (I2 n ltac:(lia)) I1). rewrite Z.add_0_l, L in Q. destruct (fold_left _ _ (st1, ptr1)) as [st2 ptr2]. destruct Q as [Q1 Q2]. split.
        * eapply good_tab_mono; [|exact Q1]. cbn beta. intros [[r' p'] k] [[Hvr Hvp] _] [H|[r [p [Hr E]]]]; [left; left; exact H|]. cbn [fst] in E. injection E as -> ->.
          destruct (Z.eq_dec r n) as [->|]; [right; exists p; split; [lia|reflexivity]|left; right; exists r, p; split; [lia|reflexivity]].
        * intros r Hr. rewrite Q2 by lia. apply I2. lia.
  Qed.

  (** ** communication *)
  Notation ginfos := (flat_map (fun r => map (inf r) (zrange 0 (N r))) (zrange 0 size)).
  Definition msgs : list (chan * list (option Z)) := map (fun r => ((r, 0, 16384), concat (idxs r))) (zrange 1 size).

  Lemma messages_ok : messages cellpos kindof written selector selector0 lo hi nr_kinds dm size ldims mprts = Some msgs.
  Proof.
    unfold messages, concat_option. rewrite (sequence_map_some _ (fun r => [((r, 0, 16384), concat (idxs r))])).
    - f_equal. unfold msgs. induction (zrange 1 size) as [|a l IH]; [reflexivity|]. cbn [map concat app]. rewrite IH. reflexivity.
    - intros r Hr. apply in_zrange in Hr. unfold message. destruct (local_of_val r ltac:(lia)) as [-> _]. reflexivity.
  Qed.

  Lemma concat_len r : 0 <= r < size -> alen (concat (idxs r)) = 2 * zsum (map (fun p => sz (po r p)) (zrange 0 (N r))).
  Proof.
    intros Hr. destruct (local_of_val r Hr) as [_ [L G]]. rewrite <- L in *. clear L.
    assert (K : forall l base, (forall p, base <= p < base + alen l -> exists idx, aget l (p - base) = Some idx /\ good_idx r p idx) -> alen (concat l) = 2 * zsum (map (fun p => sz (po r p)) (zrange base (base + alen l)))).
    { induction l as [|a l IH]; intros base Hb; [change (alen []) with 0; rewrite zrange_empty by lia; reflexivity|]. rewrite alen_cons in *. pose proof (alen_nonneg l). rewrite zrange_cons by lia. cbn [concat map zsum]. rewrite alen_app.
      replace (base + (1 + alen l)) with (base + 1 + alen l) by lia. rewrite (IH (base + 1)).
      - destruct (Hb base ltac:(lia)) as [idx [E [E' _]]]. rewrite Z.sub_diag in E. injection E as <-. lia.
      - intros p Hp. destruct (Hb p ltac:(lia)) as [idx [E E']]. exists idx. split; [|exact E']. rewrite aget_cons in E. destruct (Z.eqb_spec (p - base) 0); [lia|]. rewrite <- E. f_equal. lia. }
    rewrite (K (idxs r) 0); [rewrite Z.add_0_l; reflexivity|]. intros p Hp. rewrite Z.sub_0_r. apply G. lia.
  Qed.

  Lemma remote_sz_ok r : 0 <= r < size -> remote_sz lo hi nr_kinds ginfos r = zsum (map (fun p => sz (po r p)) (zrange 0 (N r))).
  Proof.
    intros Hr. unfold remote_sz.
    assert (K : forall l, NoDup l -> (forall a, In a l -> 0 <= a < size) ->
      zsum (map (fun info => if pi_rank info =? r then patch_sz lo hi nr_kinds (pi_ldims info) (pi_off info) else 0) (flat_map (fun r => map (inf r) (zrange 0 (N r))) l)) =
      if in_dec Z.eq_dec r l then zsum (map (fun p => sz (po r p)) (zrange 0 (N r))) else 0).
    { induction l as [|a l IH]; intros ND Hl; [reflexivity|]. inversion ND as [|? ? Hn ND']; subst. cbn [flat_map]. rewrite map_app, zsum_app, IH by (try assumption; intros b Hb; apply Hl; now right).
      assert (E : map (fun info => if pi_rank info =? r then patch_sz lo hi nr_kinds (pi_ldims info) (pi_off info) else 0) (map (inf a) (zrange 0 (N a))) = map (fun p => if a =? r then sz (po a p) else 0) (zrange 0 (N a))).
      { rewrite map_map. apply map_ext_in. intros p Hp. apply in_zrange in Hp. destruct (Hinf a p) as [_ [-> [_ [-> _]]]]; [split; [apply Hl; now left|lia]|]. reflexivity. }
      rewrite E. destruct (Z.eqb_spec a r) as [->|Ne].
      - destruct (in_dec Z.eq_dec r (r :: l)) as [_|X]; [|exfalso; apply X; now left]. destruct (in_dec Z.eq_dec r l); [contradiction|]. lia.
      - assert (Z0 : zsum (map (fun _ : Z => 0) (zrange 0 (N a))) = 0) by (clear; induction (zrange 0 (N a)) as [|b l IH]; [reflexivity|cbn [map zsum]; lia]). rewrite Z0.
        destruct (in_dec Z.eq_dec r l) as [I|I], (in_dec Z.eq_dec r (a :: l)) as [J|J]; try lia; [exfalso; apply J; now right|destruct J; contradiction]. }
    rewrite K; [|apply NoDup_zrange|intros a Ha; apply in_zrange in Ha; lia]. destruct (in_dec Z.eq_dec r (zrange 0 size)) as [_|X]; [reflexivity|exfalso; apply X, in_zrange; lia].
  Qed.

  Lemma recv_buf_ok pool r : Permutation pool msgs -> 0 < r < size -> recv_buf lo hi nr_kinds pool ginfos r = Some (concat (idxs r)).
  Proof.
    intros HP Hr. unfold recv_buf. rewrite (receive_unique pool msgs 0 r 16384 (concat (idxs r)) HP).
    - rewrite remote_sz_ok, <- concat_len by lia. rewrite Z.leb_refl, Z.sub_diag. cbn [Z.to_nat repeat]. rewrite app_nil_r. reflexivity.
    - apply in_map_iff. exists r. split; [reflexivity|apply in_zrange; lia].
    - intros d' H. apply in_map_iff in H. destruct H as [r' [[= -> <-] _]]. reflexivity.
  Qed.

  Lemma M_nonneg : 0 <= M.
  Proof. unfold M. pose proof (Hreg D0). pose proof (Hreg D1). pose proof (Hreg D2). cbn [get3] in *. repeat apply Z.mul_nonneg_nonneg; lia. Qed.

  Lemma root_ok pool : aligned -> Permutation pool msgs -> good_tab (fun _ => True) (root cellpos kindof written selector selector0 lo hi nr_kinds dm size ldims mprts pool).
  Proof.
    intros Ha HP. pose proof (size_pos c np gdims per pr size dm Hpos Hset Hcnt Hproc) as Hs. unfold root. cbv zeta.
    destruct (local_of_val 0 ltac:(lia)) as [E [L G]]. rewrite E.
    rewrite (linfos_ok c np gdims per pr size dm Hpos Hset Hcnt Hproc 0 (alen (mprts 0)) ltac:(lia) (Hmp 0 ltac:(lia))). rewrite (ginfos_ok c np gdims per pr size dm Hpos Hset Hcnt Hproc).
    rewrite (sequence_map_some _ (fun r => concat (idxs r))) by (intros r Hr; apply in_zrange in Hr; apply recv_buf_ok; [exact HP|lia]).
    pose proof (Hmp 0 ltac:(lia)) as HN. pose proof (alen_nonneg (mprts 0)) as Hnn.
    assert (LC : alen (combine (map (inf 0) (zrange 0 (alen (mprts 0)))) (idxs 0)) = N 0) by (rewrite alen_combine'; rewrite alen_map, alen_zrange; lia).
    set (w := gen3 (fun d => get3 hi d - get3 lo d)).
    set (e := repeat None (Z.to_nat (c0 w * c1 w * c2 w * nr_kinds))).
    assert (Le : alen e = M). { unfold e. rewrite alen_repeat. change (c0 w * c1 w * c2 w * nr_kinds) with M. pose proof M_nonneg. lia. }
    pose proof (root_local_all (combine (map (inf 0) (zrange 0 (alen (mprts 0)))) (idxs 0)) 0 (fun _ => False) (Some (e, e)) Ha Hs ltac:(lia) ltac:(lia)) as Q.
    assert (Q1 : good_tab (fun _ => False) (Some (e, e))) by (exists e, e; split; [reflexivity|]; split; [exact Le|]; split; [exact Le|]; intros x _ []).
    specialize (fun A => Q A Q1). rewrite LC in Q.
    pose proof (remote_all (fun r => match aget (map (fun r => concat (idxs r)) (zrange 1 size)) (r - 1) with Some b => b | None => [] end)) as R.
    specialize (R ltac:(intros r Hr; cbv beta; rewrite aget_map, aget_zrange; destruct (Z.leb_spec 0 (r - 1)), (Z.ltb_spec (r - 1) (size - 1)); try lia; cbn [andb option_map]; do 2 f_equal; lia) size ltac:(lia) ltac:(lia)).
    specialize (R _ _ (fun _ => 0) ltac:(reflexivity) (Q ltac:(intros i a Hi; destruct a as [info idx]; apply aget_combine_inv in Hi; destruct Hi as [H1 H2]; apply aget_map_inf in H1; destruct H1 as [H1 ->]; exists idx; split; [reflexivity|]; rewrite Z.add_0_l; destruct (G i ltac:(lia)) as [idx' [A B]]; rewrite A in H2; injection H2 as <-; exact B))).
    destruct (fold_left _ ginfos _) as [st' ptr']. destruct R as [R _]. cbn [fst]. eapply good_tab_mono; [|exact R]. cbn beta. intros [[r p] k] [[Hr Hp] _] _. cbn [fst].
    destruct (Z.eq_dec r 0) as [->|]; [left; right; exists p; split; [lia|reflexivity]|right; exists r, p; split; [lia|reflexivity]].
  Qed.

  (** ** all cells of all patches *)
  Definition Kp (r p : Z) : list key3 := map (fun k => (r, p, k)) (cells (po r p)).
  Definition Kr (r : Z) : list key3 := flat_map (Kp r) (zrange 0 (N r)).
  Definition K : list key3 := flat_map Kr (zrange 0 size).

  Lemma ctK_Kp r p : flat_map ctK (Kp r p) = wr lo hi nr_kinds ldims (po r) (ct r) p.
  Proof. unfold Kp, wr. rewrite flat_map_map. reflexivity. Qed.

  Lemma ctK_Kr r l : flat_map ctK (flat_map (Kp r) l) = flat_map (wr lo hi nr_kinds ldims (po r) (ct r)) l.
  Proof. rewrite flat_map_flat_map. apply flat_map_ext. intros p. apply ctK_Kp. Qed.

  Lemma ctK_K l : flat_map ctK (flat_map Kr l) = flat_map W l.
  Proof. rewrite flat_map_flat_map. apply flat_map_ext. intros r. apply ctK_Kr. Qed.

  Lemma in_K x : In x K <-> vkey x.
  Proof.
    destruct x as [[r p] k]. unfold K, Kr, Kp. rewrite in_flat_map. split.
    - intros [r' [Hr H]]. apply in_flat_map in H. destruct H as [p' [Hp H]]. apply in_map_iff in H. destruct H as [k' [[= -> -> ->] Hk]]. apply in_zrange in Hr, Hp. split; [split; lia|exact Hk].
    - intros [[Hr Hp] Hk]. exists r. split; [apply in_zrange; lia|]. apply in_flat_map. exists p. split; [apply in_zrange; lia|]. apply in_map. exact Hk.
  Qed.

  Lemma NoDup_K : NoDup K.
  Proof.
    unfold K, Kr, Kp. apply NoDup_flat_map with (k := fun x : key3 => fst (fst x)); [apply NoDup_zrange| |].
    - intros r x _ H. apply in_flat_map in H. destruct H as [p [_ H]]. apply in_map_iff in H. destruct H as [k [<- _]]. reflexivity.
    - intros r _. apply NoDup_flat_map with (k := fun x : key3 => snd (fst x)); [apply NoDup_zrange| |].
      + intros p x _ H. apply in_map_iff in H. destruct H as [k [<- _]]. reflexivity.
      + intros p _. apply NoDup_map_inj_in; [|apply NoDup_cells]. intros a b _ _ [= ->]. reflexivity.
  Qed.

  Lemma key_split x : vkey x -> exists pre post, K = pre ++ x :: post /\ beg x = alen (flat_map ctK pre).
  Proof.
    destruct x as [[r p] k]. intros [[Hr Hp] Hk]. destruct (upto_split k (cells (po r p)) Hk) as [post E].
    exists (flat_map Kr (zrange 0 r) ++ flat_map (Kp r) (zrange 0 p) ++ map (fun k => (r, p, k)) (upto k (cells (po r p)))),
      (map (fun k => (r, p, k)) post ++ flat_map (Kp r) (zrange (p + 1) (N r)) ++ flat_map Kr (zrange (r + 1) size)). split.
    - unfold K. rewrite (zrange_app 0 r size), (zrange_cons r size) by lia. rewrite flat_map_app. cbn [flat_map]. unfold Kr at 2. rewrite (zrange_app 0 p (N r)), (zrange_cons p (N r)) by lia. rewrite flat_map_app. cbn [flat_map].
      unfold Kp at 2. rewrite E at 1. rewrite map_app. cbn [map]. rewrite <- !app_assoc. cbn [app]. rewrite <- ?app_assoc. reflexivity.
    - unfold beg. rewrite !flat_map_app, !alen_app, ctK_K, ctK_Kr, flat_map_map. cbn [ctK]. rewrite Z.add_assoc. reflexivity.
  Qed.

  (** ** what is expected *)
  Lemma ch_ok r p q : valid r p -> In q (ch r p) -> okp cellpos kindof nr_kinds ldims q.
  Proof.
    intros Hv. unfold ch. destruct (aget (chosen_patches selector selector0 (mprts r)) p) as [l|] eqn:E; [|intros []]. intros Hq.
    destruct (chosen_patches_get _ _ _ _ _ E) as [s' [l0 [E0 ->]]]. apply chosen_sub in Hq. destruct (Hinf r p Hv) as [E1 [_ [_ [E2 _]]]].
    destruct (Hprt r p (inf r p) l0 q (proj1 Hv) E1 E0 Hq) as [A B]. rewrite E2 in A. split; assumption.
  Qed.

  Definition cell_of (g : V3 Z) (r p : Z) : V3 Z := gen3 (fun d => get3 g d - get3 (po r p) d).

  Lemma in_cell_lcell g k r p q : valid r p -> in_cell cellpos kindof g k (inf r p) q = lcell cellpos kindof ldims (cell_of g r p) k q.
  Proof.
    intros Hv. unfold in_cell, lcell, global_cell, lpos, cell_of, po. destruct (Hinf r p Hv) as [_ [_ [_ [-> _]]]]. f_equal.
    apply eq_true_iff_eq. rewrite !forallb_forall. split; intros H d Hd; specialize (H d Hd); rewrite Z.eqb_eq in *; rewrite !get3_gen3 in *; lia.
  Qed.

  Lemma expected_ok g k r p : valid r p -> in_patch (po r p) ldims g -> expected cellpos kindof written selector selector0 dm size mprts g k = ct r p (cell_of g r p, k).
  Proof.
    intros Hv Hg. unfold expected.
    assert (X : forall r' p', valid r' p' -> match get_local_patch_info dm r' p', aget (chosen_patches selector selector0 (mprts r')) p' with Some info, Some l => map (written info) (filter (in_cell cellpos kindof g k info) l) | _, _ => [] end = ct r' p' (cell_of g r' p', k)).
    { intros r' p' Hv'. destruct (Hinf r' p' Hv') as [-> _]. unfold ct, ch. cbn [fst snd]. destruct (aget _ p') as [l|]; [|reflexivity]. f_equal. apply filter_ext. intros q. apply in_cell_lcell, Hv'. }
    assert (Y : forall r' p', valid r' p' -> (r', p') <> (r, p) -> ct r' p' (cell_of g r' p', k) = []).
    { intros r' p' Hv' Hn. unfold ct. cbn [fst snd]. destruct (filter _ (ch r' p')) as [|q l] eqn:E; [reflexivity|exfalso]. assert (Hq : In q (filter (lcell cellpos kindof ldims (cell_of g r' p') k) (ch r' p'))) by (rewrite E; now left).
      apply filter_In in Hq. destruct Hq as [Hq Hc]. pose proof (ch_ok _ _ _ Hv' Hq) as Ho. pose proof (lpos_box cellpos kindof written selector nr_kinds ldims Hld q Ho) as Hb. unfold lcell in Hc. apply andb_true_iff in Hc. destruct Hc as [Hc _]. rewrite forallb_forall in Hc.
      apply Hn. destruct (cell_owner_unique c np gdims per pr size dm Hpos Hset Hcnt Hproc g r' p' r p Hv' Hv) as [-> ->]; [|exact Hg|reflexivity].
      intros d. specialize (Hc d ltac:(destruct d; cbn; tauto)). rewrite Z.eqb_eq in Hc. specialize (Hb d). rewrite Hc in Hb. unfold cell_of, po in Hb. rewrite get3_gen3 in Hb. lia. }
    destruct Hv as [Hr Hp].
    rewrite (flat_map_one _ (zrange 0 size) r); [|apply NoDup_zrange|apply in_zrange; lia|].
    - rewrite (flat_map_one _ (zrange 0 (N r)) p); [apply X; split; lia|apply NoDup_zrange|apply in_zrange; lia|].
      intros p' Hp' Hn. apply in_zrange in Hp'. rewrite X by (split; lia). apply Y; [split; lia|congruence].
    - intros r' Hr' Hn. apply in_zrange in Hr'. assert (Z0 : forall l, (forall p', In p' l -> 0 <= p' < N r') -> flat_map (fun p => match get_local_patch_info dm r' p, aget (chosen_patches selector selector0 (mprts r')) p with Some info, Some l => map (written info) (filter (in_cell cellpos kindof g k info) l) | _, _ => [] end) l = []).
      { induction l as [|p' l IH]; intros Hl; [reflexivity|]. cbn [flat_map]. rewrite X by (split; [lia|apply Hl; now left]). rewrite Y by (try (split; [lia|apply Hl; now left]); congruence). apply IH. intros q Hq. apply Hl. now right. }
      apply Z0. intros p' Hp'. apply in_zrange in Hp'. lia.
  Qed.

  Lemma region_key g k : in_region lo hi g -> 0 <= k < nr_kinds -> exists r p, vkey (r, p, (cell_of g r p, k)) /\ in_patch (po r p) ldims g.
  Proof.
    intros Hg Hk. destruct (cell_owner c np gdims per pr size dm Hpos Hset Hcnt Hproc g) as [r [p [Hv Hi]]]; [intros d; specialize (Hg d); specialize (Hreg d); lia|].
    exists r, p. split; [|exact Hi]. split; [exact Hv|]. apply in_cells_iff. split; [|exact Hk]. intros d. specialize (Hi d). specialize (Hg d). unfold cell_of, po. rewrite get3_gen3. lia.
  Qed.

  Lemma entry_gpos t g k r p : entry lo hi t g k = aget t (gpos (r, p, (cell_of g r p, k))).
  Proof. unfold entry, gpos, gidx_at, cell_of. cbn [fst snd]. unfold gen3. cbn [c0 c1 c2 get3]. f_equal. ring. Qed.

  Lemma good_file_ok tb te : good_tab (fun _ => True) (Some (tb, te)) -> good_file cellpos kindof written selector selector0 dm size mprts lo hi nr_kinds file tb te.
  Proof.
    intros [tb' [te' [[= <- <-] [_ [_ G]]]]].
    assert (EF : file = flat_map ctK K) by (unfold K; rewrite ctK_K; reflexivity). split.
    - intros g k Hg Hk. destruct (region_key g k Hg Hk) as [r [p [Hx Hi]]]. destruct (G _ Hx I) as [G1 G2]. exists (beg (r, p, (cell_of g r p, k))), (beg (r, p, (cell_of g r p, k)) + alen (ctK (r, p, (cell_of g r p, k)))).
      rewrite !(entry_gpos _ g k r p). split; [exact G1|]. split; [exact G2|]. destruct (key_split _ Hx) as [pre [post [EK EB]]]. rewrite EB, EF, EK. pose proof (alen_nonneg (flat_map ctK pre)). pose proof (alen_nonneg (ctK (r, p, (cell_of g r p, k)))).
      split; [lia|]. split; [rewrite flat_map_app; cbn [flat_map]; rewrite !alen_app; pose proof (alen_nonneg (flat_map ctK post)); lia|].
      rewrite piece_slice. symmetry. apply expected_ok; [apply Hx|exact Hi].
    - intros i Hi. rewrite EF in Hi. destruct (piece_find ctK K i Hi) as [pre [x [post [EK Hb]]]]. assert (Hx : vkey x) by (apply in_K; rewrite EK; apply in_or_app; right; now left).
      assert (EB : beg x = alen (flat_map ctK pre)). { destruct (key_split x Hx) as [pre' [post' [EK' ->]]]. do 2 f_equal. symmetry. eapply split_unique; [|rewrite <- EK; exact EK']. rewrite <- EK. apply NoDup_K. }
      destruct x as [[r p] [j k]]. set (g := gen3 (fun d => get3 (po r p) d + get3 j d)).
      assert (Ej : cell_of g r p = j) by (apply v3_ext; intros d; unfold cell_of, g; rewrite !get3_gen3; lia).
      assert (Hr : in_region lo hi g /\ 0 <= k < nr_kinds). { destruct Hx as [_ Hx]. apply in_cells_iff in Hx. destruct Hx as [Hx Hk]. split; [|exact Hk]. intros d. unfold g. rewrite get3_gen3. apply Hx. }
      destruct (G _ Hx I) as [G1 G2]. exists g, k, (beg (r, p, (j, k))), (beg (r, p, (j, k)) + alen (ctK (r, p, (j, k)))). split; [apply Hr|]. split; [apply Hr|].
      rewrite !(entry_gpos _ g k r p), Ej. split; [exact G1|]. split; [exact G2|]. assert (EB2 : beg (r, p, (j, k)) = alen (flat_map ctK pre)) by exact EB. split; [rewrite EB2; exact Hb|].
      intros g' k' b' e' Hg' Hk' E1 E2 Hb'. destruct (region_key g' k' Hg' Hk') as [r' [p' [Hx' Hi']]]. rewrite (entry_gpos _ g' k' r' p') in E1. rewrite (entry_gpos _ g' k' r' p') in E2. destruct (G _ Hx' I) as [G1' G2']. rewrite G1' in E1. rewrite G2' in E2. injection E1 as <-. injection E2 as <-.
      destruct (key_split _ Hx') as [pre' [post' [EK' EB']]]. rewrite EK in EK'. destruct (piece_unique ctK _ _ _ _ _ _ i EK' Hb) as [E _]; [rewrite <- EB'; exact Hb'|]. injection E as -> -> -> ->.
      split; [|reflexivity]. apply v3_ext. intros d. unfold g, cell_of. rewrite !get3_gen3. lia.
  Qed.

  Lemma output_ok pool : aligned -> Permutation pool msgs -> exists tb te,
    output cellpos kindof written selector selector0 lo hi nr_kinds dm size ldims mprts pool = Some (file, (tb, te)) /\
    good_file cellpos kindof written selector selector0 dm size mprts lo hi nr_kinds file tb te.
  Proof.
    intros Ha HP. unfold output. rewrite particle_data_ok. pose proof (root_ok pool Ha HP) as G. pose proof G as [tb [te [E _]]]. exists tb, te. rewrite E in *. split; [reflexivity|]. apply good_file_ok, G.
  Qed.

  (** ** when the region starts within a patch of process 0 *)
  Lemma put_none off l : forall f : key -> option (option Z * option Z), fold_left (fun st k => put_tables lo hi off st k (f k)) l None = None.
  Proof. intros f. induction l as [|k l IH]; [reflexivity|]. cbn [fold_left put_tables]. exact IH. Qed.

  Lemma root_local_none l : fold_left (root_local lo hi nr_kinds) l None = None.
  Proof.
    induction l as [|[info idx] l IH]; [reflexivity|]. cbn [fold_left]. unfold root_local at 2.
    replace (fold_left _ (OutPrtModel.cells lo hi nr_kinds (pi_ldims info) (pi_off info)) None) with (@None tables); [exact IH|]. symmetry.
    generalize (OutPrtModel.cells lo hi nr_kinds (pi_ldims info) (pi_off info)). intros L. induction L as [|[j k] L IHL]; [reflexivity|]. cbn [fold_left put_tables]. exact IHL.
  Qed.

  Lemma root_remote_none bufs l : forall ptr, fst (fold_left (root_remote lo hi nr_kinds bufs) l (None, ptr)) = None.
  Proof.
    induction l as [|info l IH]; intros ptr; [reflexivity|]. cbn [fold_left]. unfold root_remote at 2. destruct (pi_rank info =? 0); [apply IH|].
    replace (fold_left _ (OutPrtModel.cells lo hi nr_kinds (pi_ldims info) (pi_off info)) None) with (@None tables); [apply IH|]. symmetry.
    generalize (OutPrtModel.cells lo hi nr_kinds (pi_ldims info) (pi_off info)). intros L. induction L as [|[j k] L IHL]; [reflexivity|]. cbn [fold_left put_tables]. exact IHL.
  Qed.

  Lemma root_local_stop p idx st j k d : 0 < size -> 0 <= p < N 0 -> alen idx = 2 * sz (po 0 p) -> In (j, k) (cells (po 0 p)) -> get3 (po 0 p) d < get3 lo d ->
    root_local lo hi nr_kinds st (inf 0 p, idx) = None.
  Proof.
    intros Hs Hp HL Hin Hd. unfold root_local. destruct (Hinf 0 p) as [_ [_ [_ [-> _]]]]; [split; lia|]. fold (po 0 p).
    set (ihi := patch_ihi hi ldims (po 0 p)). set (ilo := patch_ilo lo ldims (po 0 p)). set (ld := patch_ld lo hi ldims (po 0 p)). apply in_cells in Hin. destruct Hin as [Hj Hk].
    set (jm := gen3 (fun d => get3 ihi d - 1)).
    assert (Hm : In (jm, nr_kinds - 1) (cells (po 0 p))). { apply in_cells. split; [|lia]. intros e. unfold jm. rewrite get3_gen3. specialize (Hj e). fold ihi ilo in Hj. fold ihi ilo. lia. }
    assert (Hout : aget idx (idx_at nr_kinds ld jm (nr_kinds - 1) 1) = None).
    { apply aget_none. enough (2 * sz (po 0 p) <= idx_at nr_kinds ld jm (nr_kinds - 1) 1) by lia. unfold patch_sz. fold ld. assert (H0 : forall e, get3 jm e = get3 ld e + get3 ilo e - 1 /\ 1 <= get3 ld e /\ 0 <= get3 ilo e).
      { intros e. unfold jm, ld, patch_ld. rewrite !get3_gen3. fold ihi ilo. specialize (Hj e). fold ihi ilo in Hj. split; [lia|]. split; [lia|]. unfold ilo, patch_ilo. rewrite get3_gen3. specialize (Hld e). lia. }
      assert (H1 : 1 <= get3 ilo d). { unfold ilo, patch_ilo. rewrite get3_gen3. specialize (Hld d). lia. }
      pose proof (H0 D0) as [J0 [L0 I0]]. pose proof (H0 D1) as [J1 [L1 I1]]. pose proof (H0 D2) as [J2 [L2 I2]]. assert (HI : 1 <= get3 ilo D0 + get3 ilo D1 + get3 ilo D2) by (destruct d; lia). cbn [get3] in *. unfold idx_at. rewrite J0, J1, J2.
      clear - L0 L1 L2 I0 I1 I2 HI. set (l0 := c0 ld) in *. set (l1 := c1 ld) in *. set (l2 := c2 ld) in *. set (i0 := c0 ilo) in *. set (i1 := c1 ilo) in *. set (i2 := c2 ilo) in *. clearbody l0 l1 l2 i0 i1 i2.
      assert (0 <= i2 * l1 * l0) by (repeat apply Z.mul_nonneg_nonneg; lia). assert (0 <= i1 * l0) by (apply Z.mul_nonneg_nonneg; lia).
      enough (1 <= i2 * l1 * l0 + i1 * l0 + i0) by lia. assert (i2 <= i2 * l1) by nia. assert (i2 * l1 <= i2 * l1 * l0) by nia. assert (i1 <= i1 * l0) by nia. lia. }
    apply in_split in Hm. destruct Hm as [L1 [L2 ->]]. rewrite fold_left_app. cbn [fold_left]. rewrite Hout.
    replace (put_tables lo hi (po 0 p) _ (jm, nr_kinds - 1) _) with (@None tables).
    - clear. induction L2 as [|[j k] L2 IH]; [reflexivity|]. cbn [fold_left put_tables]. exact IH.
    - unfold put_tables. destruct (fold_left _ L1 st) as [[? ?]|]; [|reflexivity]. destruct (aget idx (idx_at nr_kinds ld jm (nr_kinds - 1) 0)); reflexivity.
  Qed.

  Lemma root_stop pool p j k d : 0 <= p < N 0 -> In (j, k) (cells (po 0 p)) -> get3 (po 0 p) d < get3 lo d ->
    root cellpos kindof written selector selector0 lo hi nr_kinds dm size ldims mprts pool = None.
  Proof.
    intros Hp Hin Hd. pose proof (size_pos c np gdims per pr size dm Hpos Hset Hcnt Hproc) as Hs. unfold root. cbv zeta.
    destruct (local_of_val 0 ltac:(lia)) as [E [L G]]. rewrite E. pose proof (Hmp 0 ltac:(lia)) as HN.
    rewrite (linfos_ok c np gdims per pr size dm Hpos Hset Hcnt Hproc 0 (alen (mprts 0)) ltac:(lia) HN). rewrite (ginfos_ok c np gdims per pr size dm Hpos Hset Hcnt Hproc).
    destruct (G p Hp) as [idx [Ei [Li _]]].
    assert (HI : In (inf 0 p, idx) (combine (map (inf 0) (zrange 0 (alen (mprts 0)))) (idxs 0))).
    { eapply aget_In. apply (aget_combine_some _ _ p); [|exact Ei]. rewrite aget_map, aget_zrange. destruct (Z.leb_spec 0 p), (Z.ltb_spec p (alen (mprts 0) - 0)); try lia. cbn [andb option_map]. do 2 f_equal. }
    apply in_split in HI. destruct HI as [l1 [l2 ->]]. rewrite fold_left_app. cbn [fold_left]. rewrite (root_local_stop p idx _ j k d Hs Hp Li Hin Hd), root_local_none.
    destruct (sequence _); [apply root_remote_none|reflexivity].
  Qed.
End Global.
