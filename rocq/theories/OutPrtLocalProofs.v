From Verif Require Import Base Arr DomainModel MpiModel BalanceModel BalanceMoveProofs CollisionProofs SortModel SortProofs RestartProofs BalanceCommProofs BalanceCommProofs DdcPrtSpec OutPrtModel OutPrtSpec OutPrtSortProofs.
Local Open Scope Z_scope.

(** ** lists of keys *)
Definition key := (V3 Z * Z)%type.
Lemma key_dec (a b : key) : {a = b} + {a <> b}.
Proof. repeat decide equality. Qed.

(** what comes before k *)
Fixpoint upto (k : key) (l : list key) : list key :=
  match l with [] => [] | a :: l => if key_dec a k then [] else a :: upto k l end.

Lemma upto_split k l : In k l -> exists post, l = upto k l ++ k :: post.
Proof.
  induction l as [|a l IH]; intros H; [destruct H|]. cbn [upto]. destruct (key_dec a k) as [->|N]; [exists l; reflexivity|].
  destruct H as [H|H]; [contradiction|]. destruct (IH H) as [post E]. exists post. cbn. rewrite <- E. reflexivity.
Qed.

Section Local.
  Context {P T S : Type}.
  Variables (written : patch_info -> P -> T).
  Variables (lo hi : V3 Z) (nr_kinds : Z) (ldims : V3 Z).
  Hypothesis Hnk : 0 <= nr_kinds.

  Notation cells := (cells lo hi nr_kinds ldims).
  Notation ilo := (patch_ilo lo ldims).
  Notation ihi := (patch_ihi hi ldims).
  Notation ld := (patch_ld lo hi ldims).
  Notation sz := (patch_sz lo hi nr_kinds ldims).

  Lemma in_cells off j k : In (j, k) (cells off) <-> (forall d, get3 (ilo off) d <= get3 j d < get3 (ihi off) d) /\ 0 <= k < nr_kinds.
  Proof.
    unfold OutPrtModel.cells. rewrite in_flat_map. split.
    - intros [z [Hz H]]. apply in_flat_map in H. destruct H as [y [Hy H]]. apply in_flat_map in H. destruct H as [x [Hx H]]. apply in_map_iff in H.
      destruct H as [k' [[= <- <-] Hk]]. apply in_zrange in Hx, Hy, Hz, Hk. split; [intros []; cbn [get3 c0 c1 c2]; lia|lia].
    - intros [H Hk]. pose proof (H D0). pose proof (H D1). pose proof (H D2). cbn [get3] in *. exists (c2 j). split; [apply in_zrange; lia|].
      apply in_flat_map. exists (c1 j). split; [apply in_zrange; lia|]. apply in_flat_map. exists (c0 j). split; [apply in_zrange; lia|].
      apply in_map_iff. exists k. split; [destruct j; reflexivity|apply in_zrange; lia].
  Qed.

  Lemma NoDup_cells off : NoDup (cells off).
  Proof.
    unfold OutPrtModel.cells. apply (NoDup_flat_map _ _ (fun b : key => c2 (fst b))); [apply NoDup_zrange|..].
    - intros z b _ H. apply in_flat_map in H. destruct H as [y [_ H]]. apply in_flat_map in H. destruct H as [x [_ H]]. apply in_map_iff in H. destruct H as [k [<- _]]. reflexivity.
    - intros z _. apply (NoDup_flat_map _ _ (fun b : key => c1 (fst b))); [apply NoDup_zrange|..].
      + intros y b _ H. apply in_flat_map in H. destruct H as [x [_ H]]. apply in_map_iff in H. destruct H as [k [<- _]]. reflexivity.
      + intros y _. apply (NoDup_flat_map _ _ (fun b : key => c0 (fst b))); [apply NoDup_zrange|..].
        * intros x b _ H. apply in_map_iff in H. destruct H as [k [<- _]]. reflexivity.
        * intros x _. apply NoDup_map_inj_in; [|apply NoDup_zrange]. intros a b _ _ [= ->]. reflexivity.
  Qed.

  (** where the entries of a cell are in idx[p] *)
  Definition ipos (off : V3 Z) (c : key) (e : Z) : Z := idx_at nr_kinds (ld off) (gen3 (fun d => get3 (fst c) d - get3 (ilo off) d)) (snd c) e.

  Lemma ipos_range off c e : In c (cells off) -> 0 <= e < 2 -> 0 <= ipos off c e < 2 * sz off.
  Proof.
    destruct c as [j k]. intros H He. apply in_cells in H. destruct H as [H Hk]. pose proof (H D0) as H0. pose proof (H D1) as H1. pose proof (H D2) as H2. cbn [get3] in *.
    unfold ipos, idx_at, patch_sz. cbn [fst snd]. unfold gen3 at 1 2 3. unfold patch_ld, gen3. cbn [c0 c1 c2 get3].
    set (x := c0 j - _). set (y := c1 j - _). set (z := c2 j - _). set (nx := _ - c0 (ilo off)). set (ny := _ - c1 (ilo off)). set (nz := _ - c2 (ilo off)).
    assert (0 <= x < nx /\ 0 <= y < ny /\ 0 <= z < nz) as (X & Y & Z') by (subst x y z nx ny nz; lia). clearbody x y z nx ny nz. clear - X Y Z' Hk He.
    set (a := e * nr_kinds + k). assert (0 <= a < 2 * nr_kinds) by (subst a; nia).
    set (b := a * nz + z). assert (0 <= b < 2 * nr_kinds * nz) by (subst b; nia).
    set (w := b * ny + y). assert (0 <= w < 2 * nr_kinds * nz * ny) by (subst w; nia). nia.
  Qed.

  Lemma ipos_inj off c e c' e' : In c (cells off) -> In c' (cells off) -> ipos off c e = ipos off c' e' -> c = c' /\ e = e'.
  Proof.
    destruct c as [j k], c' as [j' k']. intros H H' E. apply in_cells in H, H'. destruct H as [H Hk], H' as [H' Hk'].
    pose proof (H D0) as H0. pose proof (H D1) as H1. pose proof (H D2) as H2. pose proof (H' D0) as H0'. pose proof (H' D1) as H1'. pose proof (H' D2) as H2'. cbn [get3] in *.
    unfold ipos, idx_at in E. cbn [fst snd] in E. unfold gen3 in E. cbn [c0 c1 c2 get3] in E.
    assert (L : c0 (ld off) = c0 (ihi off) - c0 (ilo off) /\ c1 (ld off) = c1 (ihi off) - c1 (ilo off) /\ c2 (ld off) = c2 (ihi off) - c2 (ilo off)) by (repeat split; reflexivity).
    destruct L as (L0 & L1 & L2).
    apply mixed in E; [|lia..]. destruct E as [E E0]. apply mixed in E; [|lia..]. destruct E as [E E1]. apply mixed in E; [|lia..]. destruct E as [E E2].
    apply mixed in E; [|lia..]. destruct E as [-> ->]. split; [|reflexivity]. f_equal. destruct j, j'; cbn in *. f_equal; lia.
  Qed.

  (** ** one patch *)
  Section One.
    Variables (n_off : Z) (info : patch_info) (prts : list P) (off m : list Z) (ct : key -> list T).
    Notation po := (pi_off info).
    Hypothesis Hct : forall c, In c (cells po) -> n_in_cell nr_kinds ldims off c = Some (alen (ct c)) /\
      records written info prts off m (sort_index nr_kinds ldims (fst c) (snd c)) = Some (ct c).

    Lemma fold_local : forall L arr idx, (forall c, In c L -> In c (cells po)) -> NoDup L -> alen idx = 2 * sz po ->
      exists idx', fold_left (local_cell written lo hi nr_kinds ldims n_off info prts off m) L (Some (arr, idx)) = Some (arr ++ flat_map ct L, idx') /\
        alen idx' = 2 * sz po /\
        (forall c, In c L -> aget idx' (ipos po c 0) = Some (Some (n_off + alen arr + alen (flat_map ct (upto c L)))) /\
                             aget idx' (ipos po c 1) = Some (Some (n_off + alen arr + alen (flat_map ct (upto c L)) + alen (ct c)))) /\
        (forall c e, ~ In c L -> In c (cells po) -> aget idx' (ipos po c e) = aget idx (ipos po c e)).
    Proof.
      induction L as [|c L IH]; intros arr idx HL ND Hlen.
      - exists idx. cbn [fold_left flat_map]. rewrite app_nil_r. split; [reflexivity|]. split; [exact Hlen|]. split; [intros c []|reflexivity].
      - inversion ND as [|? ? Hn ND']; subst. destruct c as [j k]. pose proof (HL (j, k) (or_introl eq_refl)) as Hc. destruct (Hct _ Hc) as [E1 E2]. cbn [fst snd] in E2.
        cbn [fold_left]. unfold local_cell at 2. rewrite E1, E2. cbv zeta.
        change (idx_at nr_kinds (ld po) (gen3 (fun d => get3 j d - get3 (ilo po) d)) k 0) with (ipos po (j, k) 0).
        change (idx_at nr_kinds (ld po) (gen3 (fun d => get3 j d - get3 (ilo po) d)) k 1) with (ipos po (j, k) 1).
        destruct (aset_some idx (ipos po (j, k) 0) (Some (alen arr + n_off))) as [i1 [A1 [L1 G1]]]; [rewrite Hlen; apply ipos_range; [exact Hc|lia]|]. rewrite A1.
        destruct (aset_some i1 (ipos po (j, k) 1) (Some (alen arr + n_off + alen (ct (j, k))))) as [i2 [A2 [L2 G2]]]; [rewrite L1, Hlen; apply ipos_range; [exact Hc|lia]|]. rewrite A2.
        destruct (IH (arr ++ ct (j, k)) i2) as [idx' [E [L' [G U]]]]; [intros c H; apply HL; now right|exact ND'|lia|].
        exists idx'. split; [rewrite E; cbn [flat_map]; rewrite app_assoc; reflexivity|]. split; [exact L'|]. split.
        + intros c [<-|H]; cbn [upto].
          * destruct (key_dec (j, k) (j, k)); [|contradiction]. cbn [flat_map]. rewrite !U by assumption. rewrite !G2, !G1.
            destruct (Z.eqb_spec (ipos po (j, k) 0) (ipos po (j, k) 1)) as [X|_]; [apply ipos_inj in X; [lia|assumption..]|]. rewrite !Z.eqb_refl. change (alen (@nil T)) with 0. split; do 2 f_equal; lia.
          * destruct (key_dec (j, k) c) as [<-|_]; [contradiction|]. cbn [flat_map]. destruct (G c H) as [Ga Gb]. rewrite Ga, Gb, !alen_app. split; do 2 f_equal; lia.
        + intros c e H Hin. rewrite U; [|intros X; apply H; now right|exact Hin]. rewrite G2, G1.
          destruct (Z.eqb_spec (ipos po c e) (ipos po (j, k) 1)) as [X|_]; [apply ipos_inj in X; [|assumption..]; destruct X as [-> _]; exfalso; apply H; now left|].
          destruct (Z.eqb_spec (ipos po c e) (ipos po (j, k) 0)) as [X|_]; [apply ipos_inj in X; [|assumption..]; destruct X as [-> _]; exfalso; apply H; now left|]. reflexivity.
    Qed.

    Definition begins (arr_len : Z) (idx : list (option Z)) : Prop :=
      alen idx = 2 * sz po /\
      forall c, In c (cells po) -> aget idx (ipos po c 0) = Some (Some (n_off + arr_len + alen (flat_map ct (upto c (cells po))))) /\
                                   aget idx (ipos po c 1) = Some (Some (n_off + arr_len + alen (flat_map ct (upto c (cells po))) + alen (ct c))).

    Lemma sz_nonneg : (forall d, get3 (ilo po) d <= get3 (ihi po) d) -> 0 <= sz po.
    Proof.
      intros H. pose proof (H D0). pose proof (H D1). pose proof (H D2). unfold patch_sz, patch_ld, gen3. cbn [c0 c1 c2 get3] in *.
      repeat apply Z.mul_nonneg_nonneg; lia.
    Qed.

    Lemma local_patch_ok arr : (forall d, get3 (ilo po) d <= get3 (ihi po) d) ->
      exists idx, local_patch written lo hi nr_kinds ldims n_off (info, prts, (off, m)) arr = Some (arr ++ flat_map ct (cells po), idx) /\ begins (alen arr) idx.
    Proof.
      intros Hb. unfold local_patch. destruct (fold_local (cells po) arr (repeat None (Z.to_nat (sz po * 2)))) as [idx [E [L [G _]]]].
      - auto.
      - apply NoDup_cells.
      - rewrite alen_repeat. pose proof (sz_nonneg Hb). lia.
      - exists idx. split; [exact E|]. split; [exact L|exact G].
    Qed.

    Lemma n_cells_ok : sequence (map (n_in_cell nr_kinds ldims off) (cells po)) = Some (map (fun c => alen (ct c)) (cells po)).
    Proof. apply sequence_map_some. intros c Hc. apply Hct, Hc. Qed.
  End One.

  Lemma zsum_alen {A B} (f : A -> list B) l : zsum (map (fun a => alen (f a)) l) = alen (flat_map f l).
  Proof. induction l as [|a l IH]; [reflexivity|]. cbn [map flat_map]. rewrite alen_app. cbn [zsum]. rewrite IH. reflexivity. Qed.

  (** ** all patches of a process *)
  Section All.
    Variables (n_off : Z) (po : Z -> V3 Z) (ct : Z -> key -> list T).
    Hypothesis Hb : forall p d, get3 (ilo (po p)) d <= get3 (ihi (po p)) d.

    Definition wr (p : Z) : list T := flat_map (ct p) (cells (po p)).

    Definition good_patch (p : Z) (q : patch_in) : Prop :=
      let '(info, prts, (off, m)) := q in pi_off info = po p /\
      forall c, In c (cells (po p)) -> n_in_cell nr_kinds ldims off c = Some (alen (ct p c)) /\
        records written info prts off m (sort_index nr_kinds ldims (fst c) (snd c)) = Some (ct p c).

    Lemma local_patches_ok : forall ps base arr, (forall p q, aget ps p = Some q -> good_patch (base + p) q) ->
      exists idxs, local_patches written lo hi nr_kinds ldims n_off ps arr = Some (arr ++ flat_map wr (zrange base (base + alen ps)), idxs) /\ alen idxs = alen ps /\
        forall p, base <= p < base + alen ps -> exists idx, aget idxs (p - base) = Some idx /\ alen idx = 2 * sz (po p) /\
          forall c, In c (cells (po p)) ->
            aget idx (ipos (po p) c 0) = Some (Some (n_off + alen arr + alen (flat_map wr (zrange base p)) + alen (flat_map (ct p) (upto c (cells (po p)))))) /\
            aget idx (ipos (po p) c 1) = Some (Some (n_off + alen arr + alen (flat_map wr (zrange base p)) + alen (flat_map (ct p) (upto c (cells (po p)))) + alen (ct p c))).
    Proof.
      induction ps as [|q ps IH]; intros base arr Hg.
      - exists []. cbn [local_patches]. change (alen []) with 0. rewrite zrange_empty by lia. cbn [flat_map]. rewrite app_nil_r. split; [reflexivity|]. split; [reflexivity|]. intros; lia.
      - cbn [local_patches]. destruct q as [[info prts] [off m]]. pose proof (Hg 0 (info, prts, (off, m)) eq_refl) as G. cbn [good_patch] in G. rewrite Z.add_0_r in G. destruct G as [Ep G].
        destruct (local_patch_ok n_off info prts off m (ct base)) with (arr := arr) as [idx [E [L B]]]; [rewrite Ep; exact G|rewrite Ep; apply Hb|]. rewrite E, Ep in *. fold (wr base) in *.
        destruct (IH (base + 1) (arr ++ wr base)) as [idxs [E' [L' B']]].
        { intros p q Hp. replace (base + 1 + p) with (base + (p + 1)) by lia. apply Hg. pose proof (aget_bounds _ _ _ Hp). rewrite aget_cons. destruct (Z.eqb_spec (p + 1) 0); [lia|]. replace (p + 1 - 1) with p by lia. exact Hp. }
        rewrite E'. exists (idx :: idxs). rewrite !alen_cons in *. pose proof (alen_nonneg ps). split.
        { do 2 f_equal. rewrite (zrange_cons base) by lia. cbn [flat_map]. rewrite <- app_assoc. do 3 f_equal. f_equal. lia. }
        split; [lia|]. intros p Hp. destruct (Z.eq_dec p base) as [->|N].
        + exists idx. rewrite aget_cons. destruct (Z.eqb_spec (base - base) 0); [|lia]. split; [reflexivity|]. split; [exact L|]. rewrite zrange_empty by lia. cbn [flat_map]. change (alen (@nil T)) with 0.
          intros c Hc. destruct (B c Hc) as [B1 B2]. rewrite B1, B2. split; do 2 f_equal; lia.
        + destruct (B' p ltac:(lia)) as [idx' [A1 [A2 A3]]]. exists idx'. rewrite aget_cons. destruct (Z.eqb_spec (p - base) 0); [lia|]. replace (p - base - 1) with (p - (base + 1)) by lia.
          split; [exact A1|]. split; [exact A2|]. intros c Hc. destruct (A3 c Hc) as [A4 A5]. rewrite A4, A5. rewrite (zrange_cons base p) by lia. cbn [flat_map]. rewrite !alen_app. split; do 2 f_equal; lia.
    Qed.

    Lemma n_write_ok : forall ps base, (forall p q, aget ps p = Some q -> good_patch (base + p) q) ->
      n_write lo hi nr_kinds ldims ps = Some (alen (flat_map wr (zrange base (base + alen ps)))).
    Proof.
      intros ps base Hg. unfold n_write, concat_option.
      assert (E : sequence (map (fun '(info, _, (off, _)) => sequence (map (n_in_cell nr_kinds ldims off) (cells (pi_off info)))) ps) =
                  Some (map (fun p => map (fun c => alen (ct p c)) (cells (po p))) (zrange base (base + alen ps)))).
      { revert base Hg. induction ps as [|q ps IH]; intros base Hg; [change (alen []) with 0; rewrite zrange_empty by lia; reflexivity|].
        destruct q as [[info prts] [off m]]. pose proof (Hg 0 (info, prts, (off, m)) eq_refl) as G. cbn [good_patch] in G. rewrite Z.add_0_r in G. destruct G as [Ep G].
        cbn [map sequence]. rewrite Ep. rewrite (sequence_map_some _ (fun c => alen (ct base c))) by (intros c Hc; apply G, Hc).
        rewrite (IH (base + 1)).
        - rewrite alen_cons. pose proof (alen_nonneg ps). rewrite (zrange_cons base) by lia. cbn [map]. do 4 f_equal. lia.
        - intros p q Hp. replace (base + 1 + p) with (base + (p + 1)) by lia. apply Hg. pose proof (aget_bounds _ _ _ Hp). rewrite aget_cons. destruct (Z.eqb_spec (p + 1) 0); [lia|]. replace (p + 1 - 1) with p by lia. exact Hp. }
      rewrite E. f_equal. rewrite <- flat_map_concat_map. rewrite <- (zsum_alen wr). clear E Hg.
      induction (zrange base (base + alen ps)) as [|p l IH]; [reflexivity|]. cbn [flat_map map]. rewrite zsum_app, IH. unfold wr. rewrite zsum_alen. reflexivity.
    Qed.

    Lemma local_array_ok ps : (forall p q, aget ps p = Some q -> good_patch p q) ->
      exists idxs, local_array written lo hi nr_kinds ldims n_off (alen (flat_map wr (zrange 0 (alen ps)))) ps = Some (flat_map wr (zrange 0 (alen ps)), idxs) /\ alen idxs = alen ps /\
        forall p, 0 <= p < alen ps -> exists idx, aget idxs p = Some idx /\ alen idx = 2 * sz (po p) /\
          forall c, In c (cells (po p)) ->
            aget idx (ipos (po p) c 0) = Some (Some (n_off + alen (flat_map wr (zrange 0 p)) + alen (flat_map (ct p) (upto c (cells (po p)))))) /\
            aget idx (ipos (po p) c 1) = Some (Some (n_off + alen (flat_map wr (zrange 0 p)) + alen (flat_map (ct p) (upto c (cells (po p)))) + alen (ct p c))).
    Proof.
      intros Hg. destruct (local_patches_ok ps 0 []) as [idxs [E [L B]]]; [exact Hg|]. unfold local_array. rewrite E. cbn [app]. rewrite Z.add_0_l, Z.eqb_refl.
      exists idxs. split; [reflexivity|]. split; [exact L|]. intros p Hp. destruct (B p ltac:(lia)) as [idx [A1 [A2 A3]]]. rewrite Z.sub_0_r in A1. exists idx. split; [exact A1|]. split; [exact A2|].
      intros c Hc. destruct (A3 c Hc) as [A4 A5]. change (alen (@nil T)) with 0 in *. rewrite A4, A5. split; do 2 f_equal; lia.
    Qed.
  End All.
End Local.
