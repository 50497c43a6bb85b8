From Verif Require Import Base Arr DomainModel MpiModel BalanceModel BalanceMoveProofs CollisionProofs SortModel SortProofs RestartProofs DdcPrtSpec OutPrtModel OutPrtSpec.
Local Open Scope Z_scope.

(** ** the counting sort, into an array that is longer than needed *)
Lemma aset_app_l {A} (a b : list A) i x : 0 <= i < alen a -> aset (a ++ b) i x = match aset a i x with Some a => Some (a ++ b) | None => None end.
Proof.
  intros Hi. destruct (aset_some a i x Hi) as [a' [E [L G]]]. rewrite E.
  destruct (aset_some (a ++ b) i x) as [c [E' [L' G']]]; [rewrite alen_app; pose proof (alen_nonneg b); lia|]. rewrite E'. f_equal.
  apply alist_ext; [rewrite L', !alen_app; lia|]. intros j Hj. rewrite G', !aget_app, L, G.
  destruct (Z.eqb_spec j i) as [->|]; [|reflexivity]. destruct (Z.ltb_spec i (alen a)); [reflexivity|lia].
Qed.

Lemma move_app_l {P} (cell : P -> option Z) l : forall a b c a' c',
  move cell l (a, c) = Some (a', c') -> move cell l (a ++ b, c) = Some (a' ++ b, c').
Proof.
  induction l as [|x l IH]; intros a b c a' c' H; cbn in *; [injection H as -> ->; reflexivity|].
  destruct (cell x) as [i|]; [|discriminate]. unfold move1 in *. destruct (aget c i) as [pos|]; [|discriminate].
  destruct (aset a pos (Some x)) as [a1|] eqn:E; [|discriminate]. rewrite aset_app_l.
  - rewrite E. destruct (incr c i 1) as [c1|]; [|discriminate]. apply IH, H.
  - destruct (Z_lt_dec pos 0); [rewrite aset_none in E by lia; discriminate|]. destruct (Z_lt_dec pos (alen a)); [lia|]. rewrite aset_none in E by lia. discriminate.
Qed.

Lemma aget_slice {A} (l : list A) b e : 0 <= b <= e -> e <= alen l -> map (aget l) (zrange b e) = map Some (firstn (Z.to_nat (e - b)) (skipn (Z.to_nat b) l)).
Proof.
  intros Hb He. apply alist_ext.
  - rewrite !alen_map, alen_zrange by lia. unfold alen. rewrite firstn_length, skipn_length. unfold alen in He. clear - Hb He. lia.
  - intros i Hi. rewrite alen_map, alen_zrange in Hi by lia. rewrite !aget_map, aget_zrange.
    destruct (Z.leb_spec 0 i), (Z.ltb_spec i (e - b)); try lia. cbn [andb option_map].
    unfold aget. destruct (Z.ltb_spec i 0); [lia|]. destruct (Z.ltb_spec (b + i) 0); [lia|].
    assert (Hx : forall (l : list A) n m, nth_error (skipn n l) m = nth_error l (n + m)%nat).
    { clear. induction l as [|a l IH]; intros n m; [rewrite skipn_nil; destruct (n + m)%nat, m; reflexivity|]. destruct n; [reflexivity|]. cbn. apply IH. }
    assert (Hf : forall (l : list A) n m, (m < n)%nat -> nth_error (firstn n l) m = nth_error l m).
    { clear. induction l as [|a l IH]; intros n m Hm; [rewrite firstn_nil; reflexivity|]. destruct n; [lia|]. destruct m; [reflexivity|]. cbn. apply IH. lia. }
    rewrite Hf by lia. rewrite Hx. replace (Z.to_nat (b + i)) with (Z.to_nat b + Z.to_nat i)%nat by lia.
    destruct (nth_error l _) eqn:E; [reflexivity|]. exfalso. apply nth_error_None in E. unfold alen in He. lia.
Qed.

Lemma filter_map_swap {A B} (f : A -> B) (g : B -> bool) l : filter g (map f l) = map f (filter (fun a => g (f a)) l).
Proof. induction l as [|a l IH]; [reflexivity|]. cbn. rewrite IH. destruct (g (f a)); reflexivity. Qed.

Section Patch.
  Context {P T S : Type}.
  Variables (cellpos : P -> V3 Z) (kindof : P -> Z) (written : patch_info -> P -> T).
  Variables (selector : S -> P -> bool * S) (nr_kinds : Z) (ldims : V3 Z).
  Hypothesis Hld : forall d, 0 < get3 ldims d.
  Hypothesis Hnk : 0 <= nr_kinds.

  (** the cell of the patch a particle is in *)
  Definition lpos (q : P) : V3 Z := gen3 (fun d => Z.min (get3 (cellpos q) d) (get3 ldims d - 1)).
  Definition lcell (j : V3 Z) (k : Z) (q : P) : bool := forallb (fun d => get3 (lpos q) d =? get3 j d) dims3 && (kindof q =? k).
  Definition okp (q : P) : Prop := (forall d, 0 <= get3 (cellpos q) d <= get3 ldims d) /\ 0 <= kindof q < nr_kinds.

  Definition nr_indices := c0 ldims * c1 ldims * c2 ldims * nr_kinds.

  Lemma lpos_box q : okp q -> forall d, 0 <= get3 (lpos q) d < get3 ldims d.
  Proof. intros [H _] d. specialize (H d). specialize (Hld d). unfold lpos. rewrite get3_gen3. lia. Qed.

  Lemma sort_index_range j k : (forall d, 0 <= get3 j d < get3 ldims d) -> 0 <= k < nr_kinds -> 0 <= sort_index nr_kinds ldims j k < nr_indices.
  Proof.
    intros H Hk. pose proof (H D0) as H0. pose proof (H D1) as H1. pose proof (H D2) as H2. cbn [get3] in *. unfold sort_index, nr_indices.
    set (a := c2 j * c1 ldims + c1 j). assert (0 <= a < c1 ldims * c2 ldims) by (subst a; nia).
    set (b := a * c0 ldims + c0 j). assert (0 <= b < c0 ldims * c1 ldims * c2 ldims) by (subst b; nia). nia.
  Qed.

  Lemma mixed a b c d n : 0 <= b < n -> 0 <= d < n -> a * n + b = c * n + d -> a = c /\ b = d.
  Proof. intros. assert (a = c) by nia. subst. lia. Qed.

  Lemma sort_index_inj j k j' k' : (forall d, 0 <= get3 j d < get3 ldims d) -> 0 <= k < nr_kinds -> (forall d, 0 <= get3 j' d < get3 ldims d) -> 0 <= k' < nr_kinds ->
    sort_index nr_kinds ldims j k = sort_index nr_kinds ldims j' k' -> j = j' /\ k = k'.
  Proof.
    intros H Hk H' Hk' E. pose proof (H D0) as A0. pose proof (H D1) as A1. pose proof (H' D0) as B0. pose proof (H' D1) as B1. cbn [get3] in *.
    unfold sort_index in E. apply mixed in E; [|lia..]. destruct E as [E ->]. apply mixed in E; [|lia..]. destruct E as [E E0].
    apply mixed in E; [|lia..]. destruct E as [E2 E1]. split; [|reflexivity]. destruct j, j'; cbn in *; congruence.
  Qed.

  Lemma get_sort_index_ok q : okp q -> get_sort_index cellpos kindof nr_kinds ldims q = Some (sort_index nr_kinds ldims (lpos q) (kindof q)).
  Proof.
    intros Hq. pose proof (lpos_box q Hq) as HB. destruct Hq as [H Hk]. unfold get_sort_index. cbv zeta.
    assert (E : gen3 (fun d => if get3 (cellpos q) d =? get3 ldims d then get3 (cellpos q) d - 1 else get3 (cellpos q) d) = lpos q).
    { apply v3_ext; intros d; unfold lpos; rewrite !get3_gen3; specialize (H d); destruct (Z.eqb_spec (get3 (cellpos q) d) (get3 ldims d)); lia. }
    rewrite E. assert (F : forallb (fun d => (0 <=? get3 (lpos q) d) && (get3 (lpos q) d <? get3 ldims d)) dims3 = true).
    { apply forallb_forall. intros d _. specialize (HB d). lia. }
    rewrite F. destruct (Z.leb_spec 0 (kindof q)), (Z.ltb_spec (kindof q) nr_kinds); try lia. reflexivity.
  Qed.

  Lemma lcell_iff j k q : okp q -> (forall d, 0 <= get3 j d < get3 ldims d) -> 0 <= k < nr_kinds ->
    lcell j k q = (sort_index nr_kinds ldims (lpos q) (kindof q) =? sort_index nr_kinds ldims j k).
  Proof.
    intros Hq Hj Hk. unfold lcell. destruct (Z.eqb_spec (sort_index nr_kinds ldims (lpos q) (kindof q)) (sort_index nr_kinds ldims j k)) as [E|N].
    - apply sort_index_inj in E; [|apply lpos_box; exact Hq|destruct Hq; assumption|assumption..]. destruct E as [-> ->]. rewrite Z.eqb_refl.
      rewrite andb_true_r. apply forallb_forall. intros; apply Z.eqb_refl.
    - apply not_true_iff_false. intros X. apply N. apply andb_prop in X. destruct X as [X Y]. rewrite forallb_forall in X.
      assert (lpos q = j) as ->. { apply v3_ext. intros d. apply Z.eqb_eq, X. destruct d; cbn; auto. } f_equal. lia.
  Qed.

  (** the indices of the selected particles *)
  Lemma indices_ok : forall prts s n, let '(is, s') := particle_indices selector s n prts in
    s' = snd (chosen selector s prts) /\ forall pre, alen pre = n -> map (aget (pre ++ prts)) is = map Some (fst (chosen selector s prts)).
  Proof.
    induction prts as [|q l IH]; intros s n; cbn [particle_indices chosen]; [split; reflexivity|].
    destruct (selector s q) as [b s1]. cbn [fst snd]. specialize (IH s1 (n + 1)). destruct (particle_indices selector s1 (n + 1) l) as [is s2].
    destruct (chosen selector s1 l) as [r s3]. cbn [fst snd] in *. destruct IH as [-> IH]. split; [reflexivity|]. intros pre Hp.
    specialize (IH (pre ++ [q])). rewrite <- app_assoc in IH. cbn [app] in IH. specialize (IH ltac:(rewrite alen_app, alen_cons; unfold alen at 2; cbn; lia)).
    destruct b; [|exact IH]. cbn [map]. rewrite IH. f_equal. rewrite aget_app, Hp, Z.ltb_irrefl, Z.sub_diag. reflexivity.
  Qed.

  Lemma chosen_sub s l q : In q (fst (chosen selector s l)) -> In q l.
  Proof.
    revert s. induction l as [|a l IH]; intros s; cbn [chosen]; [intros []|]. specialize (IH (snd (selector s a))).
    destruct (chosen selector (snd (selector s a)) l) as [r s']. cbn [fst] in *. destruct (fst (selector s a)); [intros [->|H]; [now left|right; auto]|right; auto].
  Qed.

  Lemma indices_len : forall prts s n, alen (fst (particle_indices selector s n prts)) <= alen prts.
  Proof.
    induction prts as [|q l IH]; intros s n; cbn [particle_indices]; [reflexivity|]. destruct (selector s q) as [b s1]. specialize (IH s1 (n + 1)).
    destruct (particle_indices selector s1 (n + 1) l) as [is s2]. cbn [fst] in *. rewrite alen_cons. destruct b; [rewrite alen_cons|]; lia.
  Qed.

  Lemma count_sort_patch_ok prts s : (forall q, In q prts -> okp q) ->
    exists off m, count_sort_patch cellpos kindof selector nr_kinds ldims prts s = Some (off, m, snd (chosen selector s prts)) /\
      forall j k info, (forall d, 0 <= get3 j d < get3 ldims d) -> 0 <= k < nr_kinds ->
        let l := filter (lcell j k) (fst (chosen selector s prts)) in
        n_in_cell nr_kinds ldims off (j, k) = Some (alen l) /\ records written info prts off m (sort_index nr_kinds ldims j k) = Some (map (written info) l).
  Proof.
    intros Hok. unfold count_sort_patch. pose proof (indices_ok prts s 0) as HI. pose proof (indices_len prts s 0) as HL.
    destruct (particle_indices selector s 0 prts) as [is s']. destruct HI as [-> HI]. specialize (HI [] eq_refl). cbn [app fst] in *.
    set (ch := fst (chosen selector s prts)) in *. assert (Hch : forall q, In q ch -> okp q) by (intros q Hq; apply Hok, (chosen_sub s), Hq).
    set (si := fun n => match aget prts n with Some prt => get_sort_index cellpos kindof nr_kinds ldims prt | None => None end).
    set (c := fun n => match aget prts n with Some prt => sort_index nr_kinds ldims (lpos prt) (kindof prt) | None => 0 end).
    assert (His : forall n, In n is -> exists q, aget prts n = Some q /\ In q ch).
    { intros n Hn. assert (X : In (aget prts n) (map (aget prts) is)) by (apply in_map, Hn). rewrite HI in X. apply in_map_iff in X. destruct X as [q [E Hq]]. exists q. split; [symmetry; exact E|exact Hq]. }
    assert (Hsi : forall n, In n is -> si n = Some (c n)).
    { intros n Hn. destruct (His n Hn) as [q [E Hq]]. unfold si, c. rewrite E. apply get_sort_index_ok, Hch, Hq. }
    change (c0 ldims * c1 ldims * c2 ldims * nr_kinds) with nr_indices. set (N := nr_indices + 1).
    assert (HN : 0 <= N). { subst N. unfold nr_indices. pose proof (Hld D0). pose proof (Hld D1). pose proof (Hld D2). cbn [get3] in *. nia. }
    assert (Hg : Forall (fun n => 0 <= c n < N) is).
    { apply Forall_forall. intros n Hn. destruct (His n Hn) as [q [E Hq]]. unfold c. rewrite E. pose proof (sort_index_range (lpos q) (kindof q) (lpos_box q (Hch q Hq)) (proj2 (Hch q Hq))). subst N. lia. }
    rewrite (count_ext si (fun n => Some (c n))) by exact Hsi.
    assert (HL0 : alen (repeat 0 (Z.to_nat N)) = N) by (rewrite alen_repeat; lia).
    destruct (count_ok c N is (repeat 0 (Z.to_nat N)) Hg HL0) as [cnts [E [L G]]]. rewrite E.
    assert (G' : forall i, 0 <= i < alen cnts -> aget cnts i = Some (alen (eqc c i is))).
    { intros i Hi. rewrite (G i 0); [f_equal; lia|]. rewrite aget_repeat.
      destruct (Z.leb_spec 0 i), (Z.ltb_spec i (Z.of_nat (Z.to_nat N))); try lia. reflexivity. }
    assert (Hnn : Forall (fun n => 0 <= c n) is) by (eapply Forall_impl; [|exact Hg]; cbn; lia).
    pose proof (offsets_ok cnts 0) as HO. destruct (offsets cnts 0) as [o cur]. destruct HO as [_ [Lo Go]].
    pose proof (zsum_firstn_counts c is cnts Hnn G') as HZ.
    assert (Goff : forall i, 0 <= i < N -> aget o i = Some (alen (ltc c i is))).
    { intros i Hi. rewrite Go by lia. rewrite HZ by lia. reflexivity. }
    rewrite (move_ext si (fun n => Some (c n))) by exact Hsi.
    replace (repeat (Some 0) (length prts)) with (repeat (Some 0) (length is) ++ repeat (Some 0) (length prts - length is)) by (rewrite <- repeat_app; f_equal; unfold alen in HL; lia).
    destruct (move_ok c N is Hg is [] (repeat (Some 0) (length is), o) eq_refl) as [[p2 cn] [Em Hi]].
    { unfold inv. cbn [fst snd]. split; [rewrite alen_repeat; reflexivity|]. split; [lia|]. split.
      - intros i Hi. rewrite Goff by lia. f_equal. unfold eqc, alen. cbn. lia.
      - intros i j Hi Hj. unfold eqc, alen in Hj. cbn in Hj. lia. }
    rewrite (move_app_l _ _ _ _ _ _ _ Em). destruct Hi as [L1 [_ [_ G2]]]. cbn [fst snd] in *.
    assert (EB : p2 = map Some (blocks c N is)).
    { pose proof (blocks_len c N is HN Hnn) as HB. assert (LT : alen (ltc c N is) = alen is) by (rewrite ltc_all; [reflexivity|eapply Forall_impl; [|exact Hg]; cbn; lia]).
      apply alist_ext; [rewrite alen_map; lia|]. intros q Hq.
      destruct (locate c is N q HN Hnn) as [i [j [Hi [Hj ->]]]]; [lia|].
      rewrite aget_map, blocks_get by (try assumption). rewrite G2 by assumption. destruct (aget_some (eqc c i is) j Hj) as [x Hx]. rewrite Hx. reflexivity. }
    subst p2. set (m := blocks c N is ++ repeat 0 (length prts - length is)).
    assert (Ea : all_some (map Some (blocks c N is) ++ repeat (Some 0) (length prts - length is)) = Some m).
    { replace (repeat (Some 0) (length prts - length is)) with (map Some (repeat 0 (length prts - length is))) by (induction (length prts - length is)%nat as [|n0 IHn]; [reflexivity|cbn; rewrite IHn; reflexivity]). rewrite <- map_app. apply all_some_map. }
    rewrite Ea.
    exists o, m. split; [reflexivity|]. intros j k info Hj Hk. set (l := filter (lcell j k) ch). pose proof (sort_index_range j k Hj Hk) as Hr. set (i := sort_index nr_kinds ldims j k) in *.
    assert (Ho : aget o i = Some (alen (ltc c i is))) by (apply Goff; subst N; lia).
    assert (Ho1 : aget o (i + 1) = Some (alen (ltc c i is) + alen (eqc c i is))) by (rewrite Goff by (subst N; lia); f_equal; apply ltc_succ).
    assert (El : map (aget prts) (eqc c i is) = map Some l).
    { unfold eqc. transitivity (filter (fun o => match o with Some q => lcell j k q | None => false end) (map (aget prts) is)).
      - rewrite filter_map_swap. f_equal. apply filter_ext_in. intros n Hn. destruct (His n Hn) as [q [E1 Hq]]. unfold c. rewrite E1. symmetry. apply lcell_iff; auto.
      - rewrite HI, filter_map_swap. reflexivity. }
    assert (Ell : alen (eqc c i is) = alen l) by (apply (f_equal alen) in El; rewrite !alen_map in El; exact El).
    unfold n_in_cell, records. cbn [fst snd]. fold i. rewrite Ho, Ho1. split; [f_equal; lia|].
    set (b := alen (ltc c i is)) in *. set (e := b + alen (eqc c i is)).
    assert (Em' : map (aget m) (zrange b e) = map Some (eqc c i is)).
    { pose proof (alen_nonneg (eqc c i is)). apply alist_ext; [rewrite !alen_map, alen_zrange by (subst e; lia); subst e; lia|]. intros t Ht. rewrite alen_map, alen_zrange in Ht by (subst e; lia).
      rewrite !aget_map, aget_zrange. destruct (Z.leb_spec 0 t), (Z.ltb_spec t (e - b)); try lia. cbn [andb option_map].
      unfold m. rewrite aget_app. assert (Hlt : b + t < alen (blocks c N is)).
      { rewrite blocks_len by assumption. assert (HM : alen (ltc c (i + 1) is) <= alen (ltc c N is)) by (apply ltc_mono; subst N; lia). rewrite ltc_succ in HM. subst e. fold b in HM. lia. }
      destruct (Z.ltb_spec (b + t) (alen (blocks c N is))); [|lia]. unfold b. rewrite blocks_get by (try assumption; subst N e; lia).
      destruct (aget_some (eqc c i is) t) as [x Hx]; [subst e; lia|]. rewrite Hx. reflexivity. }
    transitivity (sequence (map (fun o => match o with Some n => match aget prts n with Some prt => Some (written info prt) | None => None end | None => None end) (map (aget m) (zrange b e)))).
    { rewrite map_map. reflexivity. }
    rewrite Em', map_map.
    transitivity (sequence (map (fun o => match o with Some prt => Some (written info prt) | None => None end) (map (aget prts) (eqc c i is)))).
    { rewrite map_map. reflexivity. }
    rewrite El, map_map, <- (map_map (written info) Some). apply sequence_some.
  Qed.
End Patch.
