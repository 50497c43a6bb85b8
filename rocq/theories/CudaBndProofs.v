From Coq Require Import Reals Lra.
From Verif Require Import Base Arr RSum DomainModel DomainSpec DomainProofs DomainBoxProofs MpiModel MpiProofs BalanceModel BalanceMoveProofs BalanceCommProofs
  CollisionProofs BndPrtModel DdcPrtModel DdcPrtSpec DdcPrtProofs SetupProofs GhostModel GhostSpec GhostProofs CudaPrtModel CudaPrtProofs CudaBndModel CudaBndSpec.
Local Open Scope Z_scope.

(** ** lists *)

Lemma flat_map_filter_nil {A B} (f : A -> list B) (b : A -> bool) l : (forall a, In a l -> b a = false -> f a = []) -> flat_map f (filter b l) = flat_map f l.
Proof.
  intros H. induction l as [|a l IH]; [reflexivity|]. cbn [filter flat_map]. rewrite <- IH by (intros; apply H; [now right|assumption]).
  destruct (b a) eqn:E; [reflexivity|]. rewrite (H a (or_introl eq_refl) E). reflexivity.
Qed.

Lemma combine_app_eq {A B} (a a' : list A) (b b' : list B) : length a = length b -> combine (a ++ a') (b ++ b') = combine a b ++ combine a' b'.
Proof. revert b. induction a as [|x a IH]; intros [|y b] H; try discriminate; [reflexivity|]. cbn. f_equal. apply IH. cbn in H. lia. Qed.

Lemma combine_flat_map {A B C} (f : A -> list B) (g : A -> list C) l : (forall a, In a l -> length (f a) = length (g a)) ->
  combine (flat_map f l) (flat_map g l) = flat_map (fun a => combine (f a) (g a)) l.
Proof.
  intros H. induction l as [|a l IH]; [reflexivity|]. cbn [flat_map]. rewrite combine_app_eq by (apply H; now left). f_equal. apply IH. intros; apply H; now right.
Qed.

Lemma length_flat_map_eq {A B C} (f : A -> list B) (g : A -> list C) l : (forall a, In a l -> length (f a) = length (g a)) -> length (flat_map f l) = length (flat_map g l).
Proof. intros H. induction l as [|a l IH]; [reflexivity|]. cbn [flat_map]. rewrite !app_length, (H a (or_introl eq_refl)), IH; [reflexivity|]. intros; apply H; now right. Qed.

Lemma all_some_app {A} (a b : list (option A)) x y : all_some a = Some x -> all_some b = Some y -> all_some (a ++ b) = Some (x ++ y).
Proof.
  revert x. induction a as [|o a IH]; intros x Ha Hb; cbn in *; [injection Ha as <-; exact Hb|]. destruct o as [v|]; [|discriminate].
  destruct (all_some a) as [a'|]; [|discriminate]. injection Ha as <-. rewrite (IH a' eq_refl Hb). reflexivity.
Qed.

Lemma flat_map_if {A B} (b : A -> bool) (f : A -> list B) l : flat_map (fun a => if b a then [] else f a) l = flat_map f (filter (fun a => negb (b a)) l).
Proof. induction l as [|a l IH]; [reflexivity|]. cbn [flat_map filter]. destruct (b a); cbn [negb]; [exact IH|]. cbn [flat_map app]. rewrite IH. reflexivity. Qed.

(** ** writing blocks of a vector *)

Lemma aset_app {A} (a : list A) x b y : aset (a ++ x :: b) (alen a) y = Some (a ++ y :: b).
Proof.
  unfold aset, alen. replace (Z.of_nat (length a) <? 0) with false by lia. rewrite Nat2Z.id. induction a as [|z a IH]; [reflexivity|]. cbn. rewrite IH. reflexivity.
Qed.

Lemma write_block {A} (l : list A) : forall a old b, length old = length l -> run_writes (numbered (alen a) l) (a ++ old ++ b) = Some (a ++ l ++ b).
Proof.
  induction l as [|x l IH]; intros a [|o old] b H; try discriminate; [reflexivity|]. cbn [numbered run_writes app]. rewrite aset_app.
  specialize (IH (a ++ [x]) old b ltac:(cbn in H; lia)). rewrite <- !app_assoc in IH. cbn [app] in IH. rewrite <- IH. f_equal. f_equal. unfold alen. rewrite app_length. cbn. lia.
Qed.

Lemma repeat_app {A} (x : A) n m : repeat x (n + m) = repeat x n ++ repeat x m.
Proof. induction n; [reflexivity|]. cbn. now rewrite IHn. Qed.

(** ** the positions of an entry *)

Definition idx_of dm ibn n_comps mb me (e : sr_entry) : list Z := map (fun '(m, i) => gt_index dm ibn n_comps (sr_patch e) m i) (loop4 mb me (sr_ilo e) (sr_ihi e)).

Section Setup.
  Variables (dm : domain) (ibn : V3 Z) (n_comps mb me : Z).
  Hypothesis Hm : mb <= me.
  Let idx := idx_of dm ibn n_comps mb me.

  Definition fits (e : sr_entry) : Prop := box_ok (sr_ilo e) (sr_ihi e) /\ sr_len e = vol (sr_ilo e) (sr_ihi e).

  Lemma loop4_len ilo ihi : box_ok ilo ihi -> Z.of_nat (length (loop4 mb me ilo ihi)) = vol ilo ihi * (me - mb).
  Proof.
    intros B. pose proof (f_equal (@length Z) (loop4_idx 0 mb me ilo ihi B Hm)) as E. rewrite map_length in E. rewrite E, zrange_length.
    assert (0 <= vol ilo ihi). { pose proof (B D0). pose proof (B D1). pose proof (B D2). cbn [get3] in *. unfold vol. repeat apply Z.mul_nonneg_nonneg; lia. }
    nia.
  Qed.

  Lemma idx_len e : fits e -> alen (idx e) = sr_len e * (me - mb) /\ 0 <= sr_len e.
  Proof.
    intros [B L]. unfold alen, idx, idx_of. rewrite map_length, loop4_len by exact B. rewrite L. split; [reflexivity|].
    pose proof (B D0). pose proof (B D1). pose proof (B D2). cbn [get3] in *. unfold vol. repeat apply Z.mul_nonneg_nonneg; lia.
  Qed.

  Lemma idx_total es : (forall e, In e es -> fits e) -> alen (flat_map idx es) = total_len es * (me - mb) /\ 0 <= total_len es.
  Proof.
    unfold total_len. induction es as [|e es IH]; intros H; [split; [reflexivity|cbn; lia]|]. destruct (IH (fun x Hx => H x (or_intror Hx))) as [E1 E2].
    destruct (idx_len e (H e (or_introl eq_refl))) as [E3 E4]. cbn [flat_map map zsum]. unfold alen in *. rewrite app_length. split; nia.
  Qed.

  (** the offsets of [local_recv_setup] are those of [maps_setup] if the lengths agree *)
  Lemma local_recv_is ps : (forall s r, In (s, r) ps -> sr_len s = sr_len r) -> forall mp off,
    local_recv_setup dm ibn n_comps mp off mb me ps = maps_setup dm ibn n_comps mp off mb me (map snd ps).
  Proof.
    induction ps as [|[s r] ps IH]; intros H mp off; [reflexivity|]. cbn [local_recv_setup map maps_setup snd]. destruct (map_setup _ _ _ _ _ _ _ r); [|reflexivity].
    rewrite (H s r (or_introl eq_refl)). apply IH. intros; apply H; now right.
  Qed.

  Lemma maps_setup_val es : (forall e, In e es -> fits e) -> forall a,
    maps_setup dm ibn n_comps (a ++ repeat 0 (Z.to_nat (total_len es * (me - mb)))) (alen a) mb me es = Some (a ++ flat_map idx es).
  Proof.
    induction es as [|e es IH]; intros H a; [reflexivity|].
    destruct (idx_len e (H e (or_introl eq_refl))) as [E3 E4]. destruct (idx_total es (fun x Hx => H x (or_intror Hx))) as [E1 E2].
    cbn [maps_setup flat_map]. unfold map_setup. change (map _ (loop4 mb me (sr_ilo e) (sr_ihi e))) with (idx e).
    replace (Z.to_nat (total_len (e :: es) * (me - mb))) with (length (idx e) + Z.to_nat (total_len es * (me - mb)))%nat.
    2:{ unfold total_len in *. cbn [map zsum]. unfold alen in E3. nia. }
    rewrite repeat_app, write_block by (rewrite repeat_length; reflexivity). rewrite app_assoc.
    replace (alen a + sr_len e * (me - mb)) with (alen (a ++ idx e)) by (unfold alen in *; rewrite app_length; lia).
    rewrite IH by (intros; apply H; now right). rewrite <- app_assoc. reflexivity.
  Qed.

  Lemma maps_setup_zero es : (forall e, In e es -> fits e) -> maps_setup dm ibn n_comps (repeat 0 (Z.to_nat (total_len es * (me - mb)))) 0 mb me es = Some (flat_map idx es).
  Proof. intros H. apply (maps_setup_val es H []). Qed.

  Lemma total_len_flat {A} (f : A -> list sr_entry) l : zsum (map (fun a => total_len (f a)) l) = total_len (flat_map f l).
  Proof. unfold total_len. induction l as [|a l IH]; [reflexivity|]. cbn [map zsum flat_map]. rewrite map_app, IH. clear. induction (map sr_len (f a)) as [|x m IH]; cbn [zsum app]; lia. Qed.

  Lemma remote_map_val sel rank ri : (forall i e, In i ri -> In e (sel i) -> fits e) ->
    setup_remote_map dm ibn n_comps sel rank ri mb me = Some (flat_map idx (flat_map sel (others rank ri))).
  Proof.
    intros H. unfold setup_remote_map, patt_len. rewrite total_len_flat. apply maps_setup_zero. intros e He. apply in_flat_map in He. destruct He as [i [Hi He]].
    unfold others in Hi. apply filter_In in Hi. apply (H i e); tauto.
  Qed.
End Setup.

(** ** gather, parts and scatter *)

Section Mem.
  Context {T : Type}.

  Lemma parts_val {A} (ch : A -> list T) (n : A -> Z) l : (forall a, In a l -> n a = alen (ch a)) ->
    parts (map (fun a => (a, n a)) l) (flat_map ch l) = Some (map (fun a => (a, ch a)) l).
  Proof.
    induction l as [|a l IH]; intros H; [reflexivity|]. cbn [map flat_map parts]. rewrite (H a (or_introl eq_refl)).
    replace ((0 <=? alen (ch a)) && (alen (ch a) <=? alen (ch a ++ flat_map ch l))) with true by (unfold alen; rewrite app_length; lia).
    unfold alen at 1 2. rewrite Nat2Z.id, firstn_app, skipn_app, firstn_all, skipn_all, Nat.sub_diag. cbn [firstn skipn app]. rewrite app_nil_r, IH; [reflexivity|].
    intros; apply H; now right.
  Qed.

  Lemma parts_map {A B} (h : A -> B) (ns : list (A * Z)) (buf : list T) : parts (map (fun a => (h (fst a), snd a)) ns) buf = option_map (map (fun a => (h (fst a), snd a))) (parts ns buf).
  Proof.
    revert buf. induction ns as [|[a n] ns IH]; intros buf; cbn [map parts fst snd]; [destruct buf; reflexivity|]. destruct ((0 <=? n) && (n <=? alen buf)); [|reflexivity].
    rewrite IH. destruct (parts ns _); reflexivity.
  Qed.

  Lemma gather_val {A} (mem : list T) (pos : A -> Z) (v : A -> T) l : (forall a, In a l -> aget mem (pos a) = Some (v a)) -> gather mem (map pos l) = Some (map v l).
  Proof. intros H. unfold gather. rewrite map_map. apply all_some_fun. exact H. Qed.

  Lemma gather_flat {A} (mem : list T) (pos : A -> list Z) (v : A -> list T) l : (forall a, In a l -> gather mem (pos a) = Some (v a)) ->
    gather mem (flat_map pos l) = Some (flat_map v l).
  Proof.
    intros H. induction l as [|a l IH]; [reflexivity|]. cbn [flat_map]. unfold gather in *. rewrite map_app. apply all_some_app; [apply H; now left|]. apply IH. intros; apply H; now right.
  Qed.

  Variables (dm : domain) (ibn : V3 Z) (n_comps rank : Z).

  Definition held (mem : list T) (F : flds T) : Prop :=
    alen mem = match nr_patches dm rank with Some n => gt_size dm ibn n_comps n | None => 0 end /\
    forall p m i, store_of dm ibn n_comps rank p m i = true -> aget mem (gt_index dm ibn n_comps p m i) = Some (F p m i).

  Lemma in_store_iff n p m i : in_store dm ibn n_comps n p m i = true <->
    0 <= p < n /\ 0 <= m < n_comps /\ 0 <= c0 i + c0 ibn < gt_shape dm ibn D0 /\ 0 <= c1 i + c1 ibn < gt_shape dm ibn D1 /\ 0 <= c2 i + c2 ibn < gt_shape dm ibn D2.
  Proof.
    unfold in_store, gt_shape. cbn [forallb dims3 get3]. rewrite !andb_true_iff. rewrite !Z.leb_le, !Z.ltb_lt. intuition lia.
  Qed.

  Lemma store_iff p m i : store_of dm ibn n_comps rank p m i = true <->
    0 <= p < patches_of dm rank /\ 0 <= m < n_comps /\ (forall d, - get3 ibn d <= get3 i d < get3 (grid_ldims dm) d + get3 ibn d).
  Proof.
    unfold store_of, patches_of. destruct (nr_patches dm rank) as [n|]; [|split; [discriminate|lia]]. rewrite in_store_iff. unfold gt_shape. split.
    - intros (H1 & H2 & H3 & H4 & H5). split; [exact H1|]. split; [exact H2|]. intros []; cbn [get3] in *; lia.
    - intros (H1 & H2 & H3). pose proof (H3 D0). pose proof (H3 D1). pose proof (H3 D2). cbn [get3] in *. lia.
  Qed.

  Lemma held_iff mem F : held mem F <-> holds dm ibn n_comps rank mem F.
  Proof.
    unfold held, holds. cbv zeta. replace (match nr_patches dm rank with Some n => gt_size dm ibn n_comps n | None => 0 end) with
      (patches_of dm rank * n_comps * (get3 (grid_ldims dm) D2 + 2 * get3 ibn D2) * (get3 (grid_ldims dm) D1 + 2 * get3 ibn D1) * (get3 (grid_ldims dm) D0 + 2 * get3 ibn D0)).
    2:{ unfold patches_of. destruct (nr_patches dm rank); [reflexivity|ring]. }
    split; intros [H1 H2]; (split; [exact H1|]); intros p m i.
    - intros A B C. apply (H2 p m i). apply store_iff. auto.
    - intros A. apply store_iff in A. destruct A as (A & B & C). exact (H2 p m i A B C).
  Qed.

  Lemma pair_lt a b A B : 0 <= a < A -> 0 <= b < B -> 0 <= a * B + b < A * B.
  Proof. intros. nia. Qed.
  Lemma pair_inj a b a' b' B : 0 <= b < B -> 0 <= b' < B -> a * B + b = a' * B + b' -> a = a' /\ b = b'.
  Proof. intros H1 H2 E. assert (a = a') by nia. subst. lia. Qed.

  Lemma index_range n p m i : in_store dm ibn n_comps n p m i = true -> 0 <= gt_index dm ibn n_comps p m i < gt_size dm ibn n_comps n.
  Proof. rewrite in_store_iff. intros (H1 & H2 & H3 & H4 & H5). unfold gt_index, gt_size. repeat (apply pair_lt; [|assumption]). assumption. Qed.

  Lemma index_inj n p m i p' m' i' : in_store dm ibn n_comps n p m i = true -> in_store dm ibn n_comps n p' m' i' = true ->
    gt_index dm ibn n_comps p m i = gt_index dm ibn n_comps p' m' i' -> p = p' /\ m = m' /\ i = i'.
  Proof.
    rewrite !in_store_iff. intros (H1 & H2 & H3 & H4 & H5) (K1 & K2 & K3 & K4 & K5) E. unfold gt_index in E.
    apply pair_inj in E; [|assumption..]. destruct E as [E E0]. apply pair_inj in E; [|assumption..]. destruct E as [E E1].
    apply pair_inj in E; [|assumption..]. destruct E as [E E2]. apply pair_inj in E; [|assumption..]. destruct E as [-> ->].
    split; [reflexivity|]. split; [reflexivity|]. apply v3_ext. intros []; cbn [get3]; lia.
  Qed.

  Definition fl (u : @update T) : Z * T := let '(p, m, i, v) := u in (gt_index dm ibn n_comps p m i, v).

  (** scattering to the positions of stored points *)
  Lemma scatter_val op us : forall mem F, held mem F -> (forall p m i v, In (p, m, i, v) us -> store_of dm ibn n_comps rank p m i = true) ->
    exists mem', scatter op (map fl us) mem = Some mem' /\ held mem' (apply_u op F us).
  Proof.
    induction us as [|[[[p m] i] v] us IH]; intros mem F [HL HG] HS; [exists mem; split; [reflexivity|split; assumption]|].
    pose proof (HS p m i v (or_introl eq_refl)) as S0. cbn [map fl scatter]. rewrite (HG p m i S0).
    assert (HR : 0 <= gt_index dm ibn n_comps p m i < alen mem).
    { rewrite HL. unfold store_of in S0. destruct (nr_patches dm rank) as [n|]; [|discriminate]. apply index_range. exact S0. }
    destruct (aset_some mem _ (op (F p m i) v) HR) as [mem1 [E1 [L1 G1]]]. rewrite E1. apply IH; [|intros; eapply HS; right; eassumption].
    split; [rewrite L1; exact HL|]. intros p' m' i' S'. rewrite G1. unfold upd.
    destruct ((p' =? p) && (m' =? m) && (c0 i' =? c0 i) && (c1 i' =? c1 i) && (c2 i' =? c2 i)) eqn:E.
    - assert (p' = p /\ m' = m /\ i' = i) as (-> & -> & ->). { split; [lia|]. split; [lia|]. apply v3_ext. intros []; cbn [get3]; lia. }
      rewrite Z.eqb_refl. reflexivity.
    - destruct (Z.eqb_spec (gt_index dm ibn n_comps p' m' i') (gt_index dm ibn n_comps p m i)) as [EE|_]; [|apply HG; exact S'].
      unfold store_of in S0, S'. destruct (nr_patches dm rank) as [n|]; [|discriminate]. destruct (index_inj n _ _ _ _ _ _ S' S0 EE) as (-> & -> & ->). exfalso.
      rewrite !Z.eqb_refl in E. discriminate.
  Qed.
End Mem.

(** ** loops shifted *)

Lemma loop4_shift mb me ilo ihi s : loop4 mb me (plus3 ilo s) (plus3 ihi s) = map (fun '(m, i) => (m, plus3 i s)) (loop4 mb me ilo ihi).
Proof.
  unfold loop4. rewrite map_flat_map'. apply flat_map_ext. intros m. rewrite map_flat_map'. destruct ilo as [x y z], ihi as [x' y' z'], s as [sx sy sz].
  unfold plus3, gen3. cbn [get3 c0 c1 c2]. rewrite (zrange_shift z z' sz), flat_map_concat_map, map_map, <- flat_map_concat_map. apply flat_map_ext. intros k.
  rewrite map_flat_map'. rewrite (zrange_shift y y' sy), flat_map_concat_map, map_map, <- flat_map_concat_map. apply flat_map_ext. intros j.
  rewrite (zrange_shift x x' sx), !map_map. apply map_ext. intros i. cbn [get3 c0 c1 c2]. f_equal. f_equal; lia.
Qed.

(** ** the maps of a domain *)

Section Domain.
  Variables (c : curve) (np gdims : V3 Z) (per : V3 bool) (pr : option (list Z)) (size : Z) (dm : domain).
  Hypothesis Hpos : all_pos np.
  Hypothesis Hset : domain_setup c np gdims per pr size = Some dm.
  Hypothesis Hcnt : counts_valid pr (volume np) size.
  Hypothesis Hproc : processes pr size.
  Variable ibn : V3 Z.
  Hypothesis Hibn : forall d, 0 <= get3 ibn d <= get3 (grid_ldims dm) d.
  Let keys := keys dm.
  Let ent := ent dm ibn.
  Let lo := lo dm ibn.
  Let hi := hi dm ibn.

  Lemma shape_nonneg d : 0 <= gt_shape dm ibn d.
  Proof. unfold gt_shape. pose proof (Hibn d). lia. Qed.

  Lemma keys_dir r r' p dir q : In (p, dir, q) (keys r r') -> In dir dirs27.
  Proof. intros H. apply (in_keys size) in H. tauto. Qed.

  Lemma ent_fits side p dir q : In dir dirs27 -> fits (ent side (p, dir, q)).
  Proof. intros H. split; cbn [ent GhostProofs.ent sr_ilo sr_ihi sr_len]; [apply (box_ok_dir size dm ibn Hibn side dir H)|reflexivity]. Qed.

  Definition info (send : bool) (r r' : Z) : rank_info := mkRI r' (map (ent send) (keys r r')) (map (ent (negb send)) (map flipk (keys r' r))).

  Lemma pattern_val send r : 0 <= r < size -> pattern send dm ibn size r = Some (map (info send r) (zrange 0 size)).
  Proof.
    intros Hr. unfold pattern. apply all_some_fun. intros r' Hr'. apply in_zrange in Hr'.
    rewrite (sr_entries_val c np gdims per pr size dm Hpos Hset Hcnt Hproc ibn send r r' Hr).
    rewrite (recv_list_val c np gdims per pr size dm Hpos Hset Hcnt Hproc ibn (negb send) r r' Hr Hr'). reflexivity.
  Qed.

  Definition oth (r : Z) : list Z := filter (fun r' => negb (r' =? r)) (zrange 0 size).

  Lemma others_val send r : others r (map (info send r) (zrange 0 size)) = map (info send r) (oth r).
  Proof. unfold others, oth. induction (zrange 0 size) as [|a l IH]; [reflexivity|]. cbn [map filter info ri_rank]. fold (info send r a). destruct (a =? r); cbn [negb map]; rewrite IH; reflexivity. Qed.

  Lemma in_oth r r' : In r' (oth r) <-> 0 <= r' < size /\ r' <> r.
  Proof. unfold oth. rewrite filter_In, in_zrange. split; intros [H1 H2]; (split; [exact H1|]); lia. Qed.

  Lemma own_info_val send r : 0 <= r < size -> own_info r (map (info send r) (zrange 0 size)) = Some (info send r r).
  Proof.
    intros Hr. unfold own_info. assert (H : forall l, In r l -> find (fun i => ri_rank i =? r) (map (info send r) l) = Some (info send r r)).
    { induction l as [|a l IH]; [intros []|]. intros H. cbn [map find info ri_rank]. destruct (Z.eqb_spec a r) as [->|N]; [reflexivity|]. apply IH. destruct H; [congruence|assumption]. }
    apply H. apply in_zrange. exact Hr.
  Qed.

  Lemma local_pairs_val send ks : local_pairs (map (ent send) ks) (map (ent (negb send)) (map flipk ks)) =
    Some (map (fun k => (ent send k, ent (negb send) (flipk k))) (filter (fun k => negb (skipped (ent send k))) ks)).
  Proof. induction ks as [|k ks IH]; [reflexivity|]. cbn [map local_pairs filter]. rewrite IH. cbn [option_map]. destruct (skipped (ent send k)); reflexivity. Qed.

  Section Maps.
    Variables (n_comps mb me : Z) (send : bool).
    Hypothesis Hm : 0 <= mb /\ mb <= me /\ me <= n_comps.

    (** where the values of an entry are, and where they go *)
    Definition src (k : Z * V3 Z * Z) : list Z := idx_of dm ibn n_comps mb me (ent send k).
    Definition dst (k : Z * V3 Z * Z) : list Z := idx_of dm ibn n_comps mb me (ent (negb send) (flipk k)).

    Definition the_maps (r : Z) : cmaps :=
      mkMaps (flat_map (fun r' => flat_map src (keys r r')) (oth r)) (flat_map (fun r' => flat_map dst (keys r' r)) (oth r))
             (flat_map src (keys r r)) (flat_map dst (keys r r)) (map (info send r) (zrange 0 size)) mb me.

    Lemma flat_map_map {A B C} (f : B -> list C) (g : A -> B) l : flat_map f (map g l) = flat_map (fun a => f (g a)) l.
    Proof. induction l as [|a l IH]; [reflexivity|]. cbn. now rewrite IH. Qed.

    Lemma flat_map2 {A B C} (f : B -> list C) (g : A -> list B) l : flat_map f (flat_map g l) = flat_map (fun a => flat_map f (g a)) l.
    Proof. induction l as [|a l IH]; [reflexivity|]. cbn [flat_map]. rewrite flat_map_app, IH. reflexivity. Qed.

    Lemma skipped_src k : skipped (ent send k) = true -> src k = [].
    Proof. unfold src, idx_of, skipped. intros H. rewrite (loop4_empty size dm ibn n_comps mb me (fun _ _ _ _ => 0) _ _ H). reflexivity. Qed.

    Lemma dst_len k : In (snd (fst k)) dirs27 -> length (src k) = length (dst k).
    Proof.
      destruct k as [[p dir] q]. cbn [fst snd]. intros Hd. unfold src, dst, idx_of. rewrite !map_length. cbn [flipk ent GhostProofs.ent sr_ilo sr_ihi].
      destruct (box_mate size dm ibn send dir Hd) as [E1 E2]. rewrite E1, E2, loop4_shift, map_length. reflexivity.
    Qed.

    Lemma make_maps_val r : 0 <= r < size -> make_maps (map (info send r) (zrange 0 size)) dm ibn n_comps r mb me = Some (the_maps r).
    Proof.
      intros Hr. unfold make_maps. rewrite own_info_val by exact Hr. cbn [info ri_send ri_recv]. rewrite local_pairs_val.
      set (ks := filter (fun k => negb (skipped (ent send k))) (keys r r)).
      assert (KD : forall k, In k ks -> In (snd (fst k)) dirs27).
      { intros [[p dir] q] Hk. apply filter_In in Hk. destruct Hk as [Hk _]. exact (keys_dir _ _ _ _ _ Hk). }
      rewrite !map_map. cbn [fst].
      assert (FS : forall e, In e (map (fun k => ent send k) ks) -> fits e).
      { intros e He. apply in_map_iff in He. destruct He as [[[p dir] q] [<- Hk]]. apply ent_fits. exact (KD _ Hk). }
      assert (FR : forall e, In e (map (fun k => ent (negb send) (flipk k)) ks) -> fits e).
      { intros e He. apply in_map_iff in He. destruct He as [[[p dir] q] [<- Hk]]. cbn [flipk]. apply ent_fits. apply negdir_in. exact (KD _ Hk). }
      rewrite remote_map_val.
      2:{ lia. } 2:{ intros i e Hi He. apply in_map_iff in Hi. destruct Hi as [r' [<- _]]. cbn [info ri_send] in He. apply in_map_iff in He. destruct He as [[[p dir] q] [<- Hk]]. apply ent_fits. exact (keys_dir _ _ _ _ _ Hk). }
      rewrite remote_map_val.
      2:{ lia. } 2:{ intros i e Hi He. apply in_map_iff in Hi. destruct Hi as [r' [<- _]]. cbn [info ri_recv] in He. rewrite map_map in He. apply in_map_iff in He. destruct He as [[[p dir] q] [<- Hk]].
        cbn [flipk]. apply ent_fits, negdir_in. exact (keys_dir _ _ _ _ _ Hk). }
      rewrite maps_setup_zero by (try exact FS; lia).
      rewrite local_recv_is.
      2:{ intros s v Hsv. apply in_map_iff in Hsv. destruct Hsv as [[[p dir] q] [[= <- <-] Hk]]. cbn [flipk ent GhostProofs.ent sr_len]. apply (vol_mate size). exact (KD _ Hk). }
      rewrite map_map. cbn [snd].
      replace (total_len (map (fun k => ent send k) ks)) with (total_len (map (fun k => ent (negb send) (flipk k)) ks)).
      2:{ rewrite <- map_map. apply (total_mate size). intros p dir q Hk. exact (KD _ Hk). }
      rewrite maps_setup_zero by (try exact FR; lia).
      unfold the_maps. rewrite others_val. f_equal.
      rewrite !flat_map_map. f_equal.
      - rewrite flat_map2. apply flat_map_ext. intros r'. cbn [info ri_send]. rewrite flat_map_map. reflexivity.
      - rewrite flat_map2. apply flat_map_ext. intros r'. cbn [info ri_recv]. rewrite !flat_map_map. reflexivity.
      - unfold ks. change (flat_map src (filter (fun k => negb (skipped (ent send k))) (keys r r)) = flat_map src (keys r r)). apply flat_map_filter_nil. intros k Hk E. apply skipped_src. now destruct (skipped (ent send k)).
      - unfold ks. change (flat_map dst (filter (fun k => negb (skipped (ent send k))) (keys r r)) = flat_map dst (keys r r)). apply flat_map_filter_nil. intros [[p dir] q] Hk E.
        pose proof (dst_len (p, dir, q) (keys_dir _ _ _ _ _ Hk)) as L. rewrite skipped_src in L by (now destruct (skipped (ent send (p, dir, q)))). destruct (dst (p, dir, q)); [reflexivity|discriminate].
    Qed.

    (** ** the exchange *)

    Section Exchange.
      Context {T : Type}.
      Variables (F0 : Z -> flds T) (mem : Z -> list T).
      Hypothesis HF : forall r, 0 <= r < size -> held dm ibn n_comps r (mem r) (F0 r).
      Let ups : flds T -> Z * V3 Z * Z -> list (@update T) := @ups dm ibn T mb me send.

      Definition kv (F : flds T) (k : Z * V3 Z * Z) : list T := map (fun '(m, i) => F (sr_patch (ent send k)) m i) (loop4 mb me (sr_ilo (ent send k)) (sr_ihi (ent send k))).

      Lemma gather_key r r' k : 0 <= r < size -> In k (keys r r') -> gather (mem r) (src k) = Some (kv (F0 r) k).
      Proof.
        intros Hr Hk. destruct k as [[p dir] q]. pose proof Hk as Hk'. apply (in_keys size) in Hk'. destruct Hk' as (Hp & Hd & _). unfold src, idx_of, kv.
        rewrite (gather_val (mem r) _ (fun a : Z * V3 Z => let '(m, i) := a in F0 r (sr_patch (ent send (p, dir, q))) m i)); [reflexivity|]. intros [m i] Hi.
        apply (HF r Hr). cbn [ent GhostProofs.ent sr_patch]. apply (st_box c np gdims per pr size dm Hset Hcnt Hproc ibn Hibn n_comps mb me Hm F0 r p send dir m i (conj Hr Hp) Hd Hi).
      Qed.

      Lemma writes_key F k : In (snd (fst k)) dirs27 -> combine (dst k) (kv F k) = map (fl dm ibn n_comps) (ups F k).
      Proof.
        destruct k as [[p dir] q]. cbn [fst snd]. intros Hd. unfold dst, idx_of, kv, ups, GhostProofs.ups. cbn [flipk ent GhostProofs.ent sr_patch sr_ilo sr_ihi].
        destruct (box_mate size dm ibn send dir Hd) as [E1 E2]. rewrite E1, E2, loop4_shift, !map_map.
        induction (loop4 mb me (GhostProofs.lo dm ibn (negb send) (negdir dir)) (GhostProofs.hi dm ibn (negb send) (negdir dir))) as [|[m i] l IH]; [reflexivity|].
        cbn [map combine]. rewrite IH. reflexivity.
      Qed.

      Lemma kv_len F k : In (snd (fst k)) dirs27 -> length (dst k) = length (kv F k).
      Proof. intros H. rewrite <- dst_len by exact H. unfold src, idx_of, kv. rewrite !map_length. reflexivity. Qed.

      (** messages *)
      Definition cont (r r' : Z) : list T := flat_map (kv (F0 r)) (keys r r').
      Definition has (r r' : Z) : bool := negb (alen (keys r r') =? 0).
      Definition gmsg (r r' : Z) : list (chan * list T) := if has r r' then [((r, r', 0), cont r r')] else [].
      Definition gmsgs (r : Z) : list (chan * list T) := flat_map (gmsg r) (oth r).
      Definition grecvs (r' : Z) : list (Z * Z) := flat_map (fun r => if has r r' then [(r, alen (cont r r'))] else []) (oth r').

      Lemma no_keys r r' : has r r' = false -> keys r r' = [].
      Proof. unfold has. intros H. destruct (keys r r'); [reflexivity|]. unfold alen in H. cbn [length] in H. lia. Qed.

      Lemma cont_len r r' : alen (cont r r') = total_len (map (ent send) (keys r r')) * (me - mb).
      Proof.
        destruct (idx_total dm ibn n_comps mb me ltac:(lia) (map (ent send) (keys r r'))) as [E _].
        { intros e He. apply in_map_iff in He. destruct He as [[[p dir] q] [<- Hk]]. apply ent_fits. exact (keys_dir _ _ _ _ _ Hk). }
        rewrite <- E. unfold alen. f_equal. rewrite flat_map_map. unfold cont. apply length_flat_map_eq. intros k _. unfold kv, idx_of. rewrite !map_length. reflexivity.
      Qed.

      Lemma map_if_flat {A B} (b : A -> bool) (f : A -> B) l : flat_map (fun a => if b a then [f a] else []) l = map f (filter b l).
      Proof. induction l as [|a l IH]; [reflexivity|]. cbn [flat_map filter]. destruct (b a); cbn [app map]; rewrite IH; reflexivity. Qed.

      Lemma counts_val sel hs r (E : forall r', In r' (oth r) -> alen (sel (info send r r')) = alen (hs r')) :
        counts sel r (the_maps r) = map (fun r' => (r', total_len (sel (info send r r')) * (me - mb))) (filter (fun r' => negb (alen (hs r' : list (Z * V3 Z * Z)) =? 0)) (oth r)).
      Proof.
        unfold counts, the_maps. cbn [mp_patt mp_me mp_mb]. rewrite others_val. clear HF. induction (oth r) as [|a l IH]; [reflexivity|].
        cbn [map filter]. rewrite (E a (or_introl eq_refl)). destruct (negb (alen (hs a) =? 0)); cbn [map]; rewrite IH by (intros; apply E; now right); reflexivity.
      Qed.

      Lemma posts_ok r : 0 <= r < size -> cuda_posts (the_maps r) (mem r) r = Some (gmsgs r).
      Proof.
        intros Hr. unfold cuda_posts. rewrite (counts_val ri_send (keys r)) by (intros; cbn [info ri_send]; rewrite alen_map; reflexivity). cbn [the_maps mp_send].
        rewrite (gather_flat (mem r) (fun r' => flat_map src (keys r r')) (cont r)).
        2:{ intros r' _. apply gather_flat. intros k Hk. apply (gather_key r r' k Hr Hk). }
        rewrite <- (flat_map_filter_nil (cont r) (has r)).
        2:{ intros r' _ E. unfold cont. rewrite no_keys by exact E. reflexivity. }
        unfold has. rewrite parts_val.
        - cbn [option_map]. rewrite map_map. unfold gmsgs, gmsg, has. rewrite map_if_flat. reflexivity.
        - intros r' _. cbn [info ri_send]. symmetry. apply cont_len.
      Qed.

      Lemma recv_total r r' : total_len (ri_recv (info send r' r)) * (me - mb) = alen (cont r r').
      Proof.
        rewrite cont_len. cbn [info ri_recv]. f_equal. apply (total_mate size). intros p dir q Hk. exact (keys_dir _ _ _ _ _ Hk).
      Qed.

      Lemma zsum_alen {A B} (f : A -> list B) l : zsum (map (fun a => alen (f a)) l) = alen (flat_map f l).
      Proof. unfold alen. induction l as [|a l IH]; [reflexivity|]. cbn [map zsum flat_map]. rewrite IH, app_length. lia. Qed.

      Lemma recvs_ok r' : 0 <= r' < size -> cuda_recvs (the_maps r') r' = Some (grecvs r').
      Proof.
        intros Hr'. unfold cuda_recvs. rewrite (counts_val ri_recv (fun r => keys r r')) by (intros; cbn [info ri_recv]; rewrite !alen_map; reflexivity).
        assert (E : map (fun r => (r, total_len (ri_recv (info send r' r)) * (me - mb))) (filter (fun r => negb (alen (keys r r') =? 0)) (oth r')) = grecvs r').
        { unfold grecvs. rewrite map_if_flat. unfold has. apply map_ext. intros r. rewrite recv_total. reflexivity. }
        rewrite E. assert (E2 : forallb (fun '(_, n) => 0 <=? n) (grecvs r') = true).
        { apply forallb_forall. intros [r n] H. unfold grecvs in H. rewrite map_if_flat in H. apply in_map_iff in H. destruct H as [r0 [[= <- <-] _]]. unfold alen. lia. }
        rewrite E2. cbn [the_maps mp_recv andb]. unfold grecvs. rewrite map_if_flat, map_map. cbn [snd].
        rewrite zsum_alen. rewrite (flat_map_filter_nil (fun r => cont r r')) by (intros r _ H; unfold cont; rewrite no_keys by exact H; reflexivity).
        replace (alen (flat_map (fun r => cont r r') (oth r'))) with (alen (flat_map (fun r => flat_map dst (keys r r')) (oth r'))).
        - rewrite Z.eqb_refl. reflexivity.
        - unfold alen. f_equal. apply length_flat_map_eq. intros r _. unfold cont. apply length_flat_map_eq. intros [[p dir] q] Hk. apply kv_len. exact (keys_dir _ _ _ _ _ Hk).
      Qed.

      Definition allmsgs : list (chan * list T) := flat_map gmsgs (zrange 0 size).
      Definition allchans : list chan := flat_map (fun r' => map (fun '(r, _) => (r, r', 0)) (grecvs r')) (zrange 0 size).

      Lemma in_gmsgs r ch l : In (ch, l) (gmsgs r) <-> exists r', 0 <= r' < size /\ r' <> r /\ has r r' = true /\ ch = (r, r', 0) /\ l = cont r r'.
      Proof.
        unfold gmsgs. rewrite in_flat_map. split.
        - intros [r' [H1 H2]]. apply in_oth in H1. unfold gmsg in H2. destruct (has r r') eqn:E; [|destruct H2]. destruct H2 as [[= <- <-]|[]]. exists r'. tauto.
        - intros (r' & H1 & H2 & H3 & -> & ->). exists r'. split; [apply in_oth; tauto|]. unfold gmsg. rewrite H3. now left.
      Qed.

      Lemma in_chans ch : In ch allchans <-> exists r r', 0 <= r < size /\ 0 <= r' < size /\ r <> r' /\ has r r' = true /\ ch = (r, r', 0).
      Proof.
        unfold allchans. rewrite in_flat_map. split.
        - intros [r' [H1 H2]]. apply in_zrange in H1. apply in_map_iff in H2. destruct H2 as [[r n] [<- H2]]. unfold grecvs in H2. rewrite map_if_flat in H2.
          apply in_map_iff in H2. destruct H2 as [r0 [[= <- <-] H2]]. apply filter_In in H2. destruct H2 as [H2 H3]. apply in_oth in H2. exists r0, r'. tauto.
        - intros (r & r' & H1 & H2 & H3 & H4 & ->). exists r'. split; [apply in_zrange; exact H2|]. apply in_map_iff. exists (r, alen (cont r r')). split; [reflexivity|].
          unfold grecvs. rewrite map_if_flat. apply in_map_iff. exists r. split; [reflexivity|]. apply filter_In. split; [apply in_oth; tauto|exact H4].
      Qed.

      Lemma gmsgs_balanced : balanced allmsgs allchans.
      Proof.
        apply balanced_intro.
        - unfold allmsgs. rewrite map_flat_map'. apply (NoDup_flat_map _ _ (fun ch : chan => fst (fst ch))); [apply NoDup_zrange|..].
          + intros r ch _ H. apply in_map_iff in H. destruct H as [[ch' l] [<- H]]. apply in_gmsgs in H. destruct H as (r' & _ & _ & _ & -> & _). reflexivity.
          + intros r _. unfold gmsgs, gmsg. rewrite map_flat_map'. apply (NoDup_flat_map _ _ (fun ch : chan => snd (fst ch))); [apply NoDup_filter, NoDup_zrange|..].
            * intros r' ch _ H. destruct (has r r'); [|destruct H]. destruct H as [<-|[]]. reflexivity.
            * intros r' _. destruct (has r r'); cbn [map]; [constructor; [intros []|constructor]|constructor].
        - unfold allchans. apply (NoDup_flat_map _ _ (fun ch : chan => snd (fst ch))); [apply NoDup_zrange|..].
          + intros r' ch _ H. apply in_map_iff in H. destruct H as [[r n] [<- _]]. reflexivity.
          + intros r' _. unfold grecvs. rewrite map_flat_map'. apply (NoDup_flat_map _ _ (fun ch : chan => fst (fst ch))); [apply NoDup_filter, NoDup_zrange|..].
            * intros r ch _ H. destruct (has r r'); [|destruct H]. destruct H as [<-|[]]. reflexivity.
            * intros r _. destruct (has r r'); cbn [map]; [constructor; [intros []|constructor]|constructor].
        - intros ch. rewrite in_chans. unfold allmsgs. split.
          + intros H. apply in_map_iff in H. destruct H as [[ch' l] [<- H]]. apply in_flat_map in H. destruct H as [r [Hr H]]. apply in_zrange in Hr.
            apply in_gmsgs in H. destruct H as (r' & H1 & H2 & H3 & -> & _). exists r, r'. cbn [fst]. intuition.
          + intros (r & r' & H1 & H2 & H3 & H4 & ->). apply in_map_iff. exists ((r, r', 0), cont r r'). split; [reflexivity|]. apply in_flat_map. exists r.
            split; [apply in_zrange; exact H1|]. apply in_gmsgs. exists r'. intuition.
      Qed.

      Lemma receive_ok pool r r' : Permutation pool allmsgs -> 0 <= r < size -> 0 <= r' < size -> r <> r' -> has r r' = true -> receive pool r' r 0 = Some (cont r r').
      Proof.
        intros HP Hr Hr' Hne Hh. apply (receive_unique pool allmsgs); [exact HP|..].
        - unfold allmsgs. apply in_flat_map. exists r. split; [apply in_zrange; exact Hr|]. apply in_gmsgs. exists r'. intuition.
        - intros l H. unfold allmsgs in H. apply in_flat_map in H. destruct H as [r1 [_ H]]. apply in_gmsgs in H. destruct H as (r2 & _ & _ & _ & [= <- <-] & ->). reflexivity.
      Qed.

      Lemma received_ok pool r' : Permutation pool allmsgs -> 0 <= r' < size -> received (grecvs r') pool r' = Some (flat_map (fun r => cont r r') (oth r')).
      Proof.
        intros HP Hr'. unfold received. unfold grecvs. rewrite map_if_flat, map_map. rewrite (all_some_fun _ (fun r => cont r r')).
        - cbn [option_map]. f_equal. rewrite <- flat_map_concat_map. apply flat_map_filter_nil. intros r _ H. unfold cont. rewrite no_keys by exact H. reflexivity.
        - intros r H. apply filter_In in H. destruct H as [H H2]. apply in_oth in H. rewrite (receive_ok pool r r') by intuition. rewrite Z.eqb_refl. reflexivity.
      Qed.

      Lemma ups_stored r r' k p m i v : 0 <= r < size -> 0 <= r' < size -> In k (keys r r') -> In (p, m, i, v) (ups (F0 r) k) -> store_of dm ibn n_comps r' p m i = true.
      Proof.
        intros Hr Hr' Hk Hu. destruct k as [[p0 dir] q]. pose proof Hk as Hk'. apply (in_keys size) in Hk'. destruct Hk' as (Hp & Hd & E).
        destruct (nbd_sym c np gdims per pr size dm Hpos Hset Hcnt Hproc r p0 dir r' q (conj Hr Hp) Hd E) as [Vq E'].
        unfold ups, GhostProofs.ups in Hu. apply in_map_iff in Hu. destruct Hu as [[m' i'] [[= <- <- <- <-] Hi]].
        apply (st_box c np gdims per pr size dm Hset Hcnt Hproc ibn Hibn n_comps mb me Hm F0 r' q (negb send) (negdir dir) m' i' Vq (negdir_in dir Hd) Hi).
      Qed.

      Lemma perm_writes ord (us : list (@update T)) : Permutation (ord (map (fl dm ibn n_comps) us)) (map (fl dm ibn n_comps) us) ->
        exists us', ord (map (fl dm ibn n_comps) us) = map (fl dm ibn n_comps) us' /\ Permutation us' us.
      Proof. intros HP. apply Permutation_map_inv in HP. destruct HP as [us' [E P]]. exists us'. split; [exact E|apply Permutation_sym; exact P]. Qed.

      Lemma finish_ok op ord ord' pool r : orders ord -> orders ord' -> Permutation pool allmsgs -> 0 <= r < size ->
        exists mem' us, cuda_finish op ord ord' (the_maps r) pool (mem r) r = Some mem' /\ Permutation us (U size dm ibn mb me send F0 r) /\ held dm ibn n_comps r mem' (apply_u op (F0 r) us).
      Proof.
        intros HO HO' HP Hr. unfold cuda_finish. rewrite recvs_ok by exact Hr. unfold cuda_local. cbn [the_maps mp_lsend mp_lrecv mp_recv].
        rewrite (gather_flat (mem r) src (kv (F0 r))) by (intros k Hk; apply (gather_key r r k Hr Hk)).
        assert (L1 : length (flat_map dst (keys r r)) = length (flat_map (kv (F0 r)) (keys r r))).
        { apply length_flat_map_eq. intros [[p dir] q] Hk. apply kv_len. exact (keys_dir _ _ _ _ _ Hk). }
        unfold scatter_of at 1. replace (alen (flat_map (kv (F0 r)) (keys r r)) <=? alen (flat_map dst (keys r r))) with true by (unfold alen; rewrite L1; lia).
        rewrite combine_flat_map by (intros [[p dir] q] Hk; apply kv_len; exact (keys_dir _ _ _ _ _ Hk)).
        rewrite (flat_map_ext_in' _ (fun k => map (fl dm ibn n_comps) (ups (F0 r) k))) by (intros [[p dir] q] Hk; apply writes_key; exact (keys_dir _ _ _ _ _ Hk)).
        rewrite <- map_flat_map'. destruct (perm_writes ord (flat_map (ups (F0 r)) (keys r r)) (HO _)) as [us1 [E1 P1]]. rewrite E1.
        destruct (scatter_val dm ibn n_comps r op us1 (mem r) (F0 r) (HF r Hr)) as [mem1 [S1 H1]].
        { intros p m i v Hu. apply (Permutation_in _ P1) in Hu. apply in_flat_map in Hu. destruct Hu as [k [Hk Hu]]. exact (ups_stored r r k p m i v Hr Hr Hk Hu). }
        rewrite S1. rewrite received_ok by assumption.
        assert (L2 : forall r', In r' (oth r) -> length (flat_map dst (keys r' r)) = length (cont r' r)).
        { intros r' _. unfold cont. apply length_flat_map_eq. intros [[p dir] q] Hk. apply kv_len. exact (keys_dir _ _ _ _ _ Hk). }
        unfold scatter_of. replace (alen (flat_map (fun r' => cont r' r) (oth r)) <=? alen (flat_map (fun r' => flat_map dst (keys r' r)) (oth r))) with true.
        2:{ unfold alen. rewrite (length_flat_map_eq _ _ _ L2). lia. }
        rewrite combine_flat_map by exact L2.
        rewrite (flat_map_ext_in' _ (fun r' => map (fl dm ibn n_comps) (flat_map (ups (F0 r')) (keys r' r)))).
        2:{ intros r' _. unfold cont. rewrite combine_flat_map by (intros [[p dir] q] Hk; apply kv_len; exact (keys_dir _ _ _ _ _ Hk)).
            rewrite (flat_map_ext_in' _ (fun k => map (fl dm ibn n_comps) (ups (F0 r') k))) by (intros [[p dir] q] Hk; apply writes_key; exact (keys_dir _ _ _ _ _ Hk)).
            rewrite map_flat_map'. reflexivity. }
        rewrite <- map_flat_map'. destruct (perm_writes ord' (flat_map (fun r' => flat_map (ups (F0 r')) (keys r' r)) (oth r)) (HO' _)) as [us2 [E2 P2]]. rewrite E2.
        destruct (scatter_val dm ibn n_comps r op us2 mem1 (apply_u op (F0 r) us1) H1) as [mem2 [S2 H2]].
        { intros p m i v Hu. apply (Permutation_in _ P2) in Hu. apply in_flat_map in Hu. destruct Hu as [r' [Hr' Hu]]. apply in_oth in Hr'. apply in_flat_map in Hu. destruct Hu as [k [Hk Hu]].
          exact (ups_stored r' r k p m i v (proj1 Hr') Hr Hk Hu). }
        exists mem2, (us1 ++ us2). split; [exact S2|]. split.
        - unfold U. apply Permutation_app; [exact P1|]. rewrite (flat_map_if (fun r' => r' =? r)). exact P2.
        - rewrite apply_u_app. exact H2.
      Qed.
    End Exchange.
  End Maps.
End Domain.

(** ** the order does not matter *)

Lemma vals_perm {T} (us us' : list (@update T)) p m i : Permutation us us' -> Permutation (vals us p m i) (vals us' p m i).
Proof.
  intros H. unfold vals. apply Permutation_map. induction H; cbn [filter].
  - constructor.
  - destruct (at_loc p m i x); [apply perm_skip; assumption|assumption].
  - destruct (at_loc p m i x), (at_loc p m i y); try reflexivity. apply perm_swap.
  - etransitivity; eassumption.
Qed.

Lemma add_order F us us' p m i : Permutation us us' -> apply_u Rplus F us p m i = apply_u Rplus F us' p m i.
Proof. intros H. rewrite !apply_u_get, !fold_plus. f_equal. apply rsum_perm. apply vals_perm. exact H. Qed.

Section Order.
  Variables (c : curve) (np gdims : V3 Z) (per : V3 bool) (pr : option (list Z)) (size : Z) (dm : domain).
  Hypothesis Hpos : all_pos np.
  Hypothesis Hset : domain_setup c np gdims per pr size = Some dm.
  Hypothesis Hcnt : counts_valid pr (volume np) size.
  Hypothesis Hproc : processes pr size.
  Variable ibn : V3 Z.
  Hypothesis Hibn : forall d, 0 <= get3 ibn d <= get3 (grid_ldims dm) d.

  Lemma fill_order {T} n_comps mb me (F0 : Z -> flds T) us r p m x : Permutation us (U size dm ibn mb me true F0 r) -> store_of dm ibn n_comps r p m x = true -> 0 <= r < size ->
    apply_u (fun _ v => v) (F0 r) us p m x = apply_u (fun _ v => v) (F0 r) (U size dm ibn mb me true F0 r) p m x.
  Proof.
    intros HP S Hr. apply store_iff in S. destruct S as (Hp & Hmm & Hx). assert (V : valid size (patches_of dm) r p) by (split; assumption).
    assert (St : stored_pt dm ibn x = true) by (apply stored_iff; exact Hx).
    pose proof (vals_U c np gdims per pr size dm Hpos Hset Hcnt Hproc ibn n_comps mb me true F0 r p m x V) as P.
    rewrite (arrive_fill size dm ibn Hibn mb me F0 r p m x V St) in P.
    pose proof (Permutation_trans (vals_perm us _ p m x HP) P) as P'. rewrite !apply_u_get.
    destruct (nbd dm r p (dir_of dm x)) as [[r' q]|].
    - destruct ((mb <=? m) && (m <? me)).
      + apply Permutation_sym, Permutation_length_1_inv in P, P'. rewrite P, P'. reflexivity.
      + apply Permutation_sym, Permutation_nil in P, P'. rewrite P, P'. reflexivity.
    - apply Permutation_sym, Permutation_nil in P, P'. rewrite P, P'. reflexivity.
  Qed.
End Order.

Lemma held_ext {T} dm ibn n_comps rank (mem : list T) F G : held dm ibn n_comps rank mem F -> (forall p m i, store_of dm ibn n_comps rank p m i = true -> F p m i = G p m i) -> held dm ibn n_comps rank mem G.
Proof. intros [H1 H2] H. split; [exact H1|]. intros p m i S. rewrite <- H by exact S. apply H2. exact S. Qed.

(** ** the maps kept *)

Lemma key_inj n_comps mb me n_comps' mb' me' : 0 <= mb <= 99 -> 0 <= me <= 99 -> 0 <= mb' <= 99 -> 0 <= me' <= 99 ->
  map_key n_comps mb me = map_key n_comps' mb' me' -> n_comps = n_comps' /\ mb = mb' /\ me = me'.
Proof. unfold map_key. intros. assert (n_comps = n_comps') by lia. assert (me = me') by lia. lia. Qed.

Section Cache.
  Variables (ibn : V3 Z) (size rank : Z).
  Hypothesis Hr : 0 <= rank < size.

  Lemma fresh_some send dm n_comps mb me : domain_ok ibn size dm -> 0 <= mb /\ mb <= me /\ me <= n_comps -> exists mp, fresh_maps send dm ibn size rank n_comps mb me = Some mp.
  Proof.
    intros (c & np & gdims & per & pr & H1 & H2 & H3 & H4 & H5) Hm. unfold fresh_maps. rewrite (pattern_val c np gdims per pr size dm H1 H2 H3 H4 ibn send rank Hr).
    eexists. apply make_maps_val; [|exact Hm|exact Hr]. intros d. rewrite (ld_eq c np gdims per pr size dm H2), get3_gen3. apply H5.
  Qed.

  Definition entry_ok send dm (e : Z * cmaps) : Prop := exists n_comps mb me, 0 <= mb /\ mb <= me /\ me <= n_comps /\ n_comps <= 99 /\
    fst e = map_key n_comps mb me /\ fresh_maps send dm ibn size rank n_comps mb me = Some (snd e).
  Definition cb_ok dm (cb : cbnd) : Prop := Forall (entry_ok false dm) (cb_add cb) /\ Forall (entry_ok true dm) (cb_fill cb).

  Lemma find_key_ok send dm l n_comps mb me mp : Forall (entry_ok send dm) l -> 0 <= mb /\ mb <= me /\ me <= n_comps /\ n_comps <= 99 ->
    find_key (map_key n_comps mb me) l = Some mp -> fresh_maps send dm ibn size rank n_comps mb me = Some mp.
  Proof.
    intros HF Hm E. unfold find_key in E. destruct (find _ l) as [[k mp']|] eqn:Ef; [|discriminate]. cbn in E. injection E as <-.
    apply find_some in Ef. destruct Ef as [Hin Hk]. cbn [fst] in Hk. rewrite Forall_forall in HF. destruct (HF _ Hin) as (n' & mb' & me' & A1 & A2 & A3 & A4 & A5 & A6).
    cbn [fst snd] in *. assert (n' = n_comps /\ mb' = mb /\ me' = me) as (-> & -> & ->) by (apply key_inj; lia). exact A6.
  Qed.

  Lemma cb_maps_ok send gen dm n_comps mb me cb : domain_ok ibn size dm -> cb_ok dm cb -> 0 <= mb /\ mb <= me /\ me <= n_comps /\ n_comps <= 99 ->
    exists cb' mp, cb_maps send gen dm ibn size rank n_comps mb me cb = Some (cb', mp) /\ fresh_maps send dm ibn size rank n_comps mb me = Some mp /\ cb_ok dm cb'.
  Proof.
    intros HD HC Hm. unfold cb_maps. cbv zeta.
    assert (HC' : cb_ok dm (cb_refresh gen cb)) by (unfold cb_refresh; destruct (negb _); [split; constructor|exact HC]).
    set (cb1 := cb_refresh gen cb) in *. destruct HC' as [CA CF].
    destruct (find_key _ _) as [mp|] eqn:Ef.
    - exists cb1, mp. split; [reflexivity|]. split; [|split; assumption]. destruct send; eapply find_key_ok; eassumption.
    - destruct (fresh_some send dm n_comps mb me HD ltac:(lia)) as [mp E]. pose proof E as E'. unfold fresh_maps in E'. destruct (pattern send dm ibn size rank) as [ri|]; [|discriminate].
      rewrite E'. eexists _, mp. split; [reflexivity|]. split; [exact E|].
      assert (EO : entry_ok send dm (map_key n_comps mb me, mp)) by (exists n_comps, mb, me; cbn [fst snd]; repeat (split; [lia|]); exact E).
      destruct send; split; cbn [cb_add cb_fill]; try assumption; constructor; assumption.
  Qed.

  Lemma bnd_run_ok es : forall s, domain_ok ibn size (bs_dm s) -> cb_ok (bs_dm s) (bs_cb s) -> Forall (event_ok 99 ibn size) es ->
    bnd_run ibn size rank s es = Some (expected ibn size rank (bs_dm s) es).
  Proof.
    induction es as [|e es IH]; intros s HD HC HE; [reflexivity|]. apply Forall_cons_iff in HE. destruct HE as [He HE]. cbn [bnd_run expected]. destruct e as [send n_comps mb me|dm]; cbn [bnd_step].
    - destruct (cb_maps_ok send (bs_gen s) (bs_dm s) n_comps mb me (bs_cb s) HD HC He) as (cb' & mp & E1 & E2 & E3). rewrite E1, E2.
      rewrite IH; [reflexivity|exact HD|exact E3|exact HE].
    - rewrite IH; [reflexivity|exact He|split; constructor|exact HE].
  Qed.
End Cache.
