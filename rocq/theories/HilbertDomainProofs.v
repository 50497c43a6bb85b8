From Coq Require Import NArith.
From Verif Require Import Base HilbertModel HilbertProofs DomainModel DomainSpec DomainProofs.
Local Open Scope Z_scope.

(** ** The scan *)

Lemma scan_spec inside : forall hs p, 
  fst (hilbert_scan inside hs p) = filter inside hs /\
  forall j h, nth_error hs j = Some h ->
    nth_error (snd (hilbert_scan inside hs p)) j =
    Some (if inside h then p + Z.of_nat (length (filter inside (firstn j hs))) else -1).
Proof.
  induction hs as [|x hs IH]; intros p; cbn [hilbert_scan].
  - split; [reflexivity|]. intros [|j] h H; discriminate.
  - destruct (inside x) eqn:Ex.
    + destruct (IH (p + 1)) as [IH1 IH2]. destruct (hilbert_scan inside hs (p + 1)) as [a b].
      cbn [fst snd] in *. split; [cbn [filter]; rewrite Ex, IH1; reflexivity|].
      intros [|j] h H; cbn [nth_error firstn] in *.
      * injection H as <-. rewrite Ex. cbn. f_equal. lia.
      * rewrite (IH2 j h H). cbn [filter]. rewrite Ex. cbn [length]. destruct (inside h); f_equal; lia.
    + destruct (IH p) as [IH1 IH2]. destruct (hilbert_scan inside hs p) as [a b].
      cbn [fst snd] in *. split; [cbn [filter]; rewrite Ex, IH1; reflexivity|].
      intros [|j] h H; cbn [nth_error firstn] in *.
      * injection H as <-. rewrite Ex. reflexivity.
      * rewrite (IH2 j h H). cbn [filter]. rewrite Ex. reflexivity.
Qed.

Lemma nth_filter_rank {A} (f : A -> bool) l : forall j x,
  nth_error l j = Some x -> f x = true ->
  nth_error (filter f l) (length (filter f (firstn j l))) = Some x.
Proof.
  induction l as [|y l IH]; intros [|j] x H Hf; cbn [nth_error] in H; try discriminate.
  - injection H as ->. cbn [firstn filter length]. rewrite Hf. reflexivity.
  - cbn [firstn filter]. destruct (f y); cbn [length nth_error]; apply IH; assumption.
Qed.

Lemma nth_filter_inv {A} (f : A -> bool) l : forall i x,
  nth_error (filter f l) i = Some x ->
  exists j, nth_error l j = Some x /\ f x = true /\ length (filter f (firstn j l)) = i.
Proof.
  induction l as [|y l IH]; intros i x H; cbn [filter] in H; [destruct i; discriminate|].
  destruct (f y) eqn:E.
  - destruct i as [|i]; cbn [nth_error] in H.
    + injection H as ->. exists 0%nat. cbn. auto.
    + destruct (IH i x H) as [j [H1 [H2 H3]]]. exists (S j). cbn [nth_error firstn filter].
      rewrite E. cbn [length]. auto.
  - destruct (IH i x H) as [j [H1 [H2 H3]]]. exists (S j). cbn [nth_error firstn filter].
    rewrite E. auto.
Qed.

Lemma nth_zrange0 n j : 0 <= j < n -> nth_error (zrange 0 n) (Z.to_nat j) = Some j.
Proof.
  intros H. unfold zrange. rewrite nth_error_map.
  rewrite (nth_error_nth' _ 0%nat) by (rewrite seq_length; lia).
  cbn. rewrite seq_nth by lia. f_equal. lia.
Qed.

Lemma nth_zrange0_inv n j x : nth_error (zrange 0 n) j = Some x -> x = Z.of_nat j /\ 0 <= x < n.
Proof.
  intros H. assert (Hl : (j < length (zrange 0 n))%nat) by (apply nth_error_Some; congruence).
  rewrite zrange_length in Hl.
  rewrite <- (Nat2Z.id j), nth_zrange0 in H by lia. injection H as <-. lia.
Qed.

(** ** Number of bits *)

Lemma hilbert_nbits_loop_spec fuel : forall np nb k,
  0 <= nb -> (nb = 0 \/ 2 ^ (nb - 1) < np) ->
  hilbert_nbits_loop fuel np nb = Some k ->
  nb <= k /\ np <= 2 ^ k /\ (k = 0 \/ 2 ^ (k - 1) < np).
Proof.
  induction fuel as [|f IH]; intros np nb k Hnb Hmin H; cbn in H; [discriminate|].
  rewrite Z.shiftl_1_l in H. destruct (Z.ltb_spec (2 ^ nb) np) as [Hlt|Hge].
  - apply IH in H; [|lia|right; replace (nb + 1 - 1) with nb by lia; exact Hlt]. lia.
  - injection H as <-. lia.
Qed.

Lemma hilbert_nbits_loop_ok fuel : forall np nb, 0 <= nb ->
  np <= 2 ^ (nb + Z.of_nat fuel - 1) -> (0 < fuel)%nat ->
  exists k, hilbert_nbits_loop fuel np nb = Some k.
Proof.
  induction fuel as [|f IH]; intros np nb Hnb H Hf; [lia|].
  cbn [hilbert_nbits_loop]. rewrite Z.shiftl_1_l.
  destruct (Z.ltb_spec (2 ^ nb) np) as [Hlt|Hge]; [|eauto].
  destruct f as [|f].
  - replace (nb + Z.of_nat 1 - 1) with nb in H by lia. lia.
  - apply IH; [lia| |lia]. replace (nb + 1 + Z.of_nat (S f) - 1) with (nb + Z.of_nat (S (S f)) - 1) by lia.
    exact H.
Qed.

Lemma hilbert_nbits_ok np : 1 <= np ->
  exists k, hilbert_nbits_loop (S (Z.to_nat np)) np 0 = Some k /\ 0 <= k /\ np <= 2 ^ k
            /\ (k = 0 <-> np = 1) /\ forall j, 0 <= j -> np <= 2 ^ j -> k <= j.
Proof.
  intros H. destruct (hilbert_nbits_loop_ok (S (Z.to_nat np)) np 0) as [k Hk]; try lia.
  { assert (np < 2 ^ np) by (apply Z.pow_gt_lin_r; lia).
    replace (0 + Z.of_nat (S (Z.to_nat np)) - 1) with np by lia. lia. }
  exists k. split; [exact Hk|].
  destruct (hilbert_nbits_loop_spec _ np 0 k ltac:(lia) ltac:(auto) Hk) as [H0 [H1 H2]].
  split; [exact H0|]. split; [exact H1|]. split.
  - split; [intros H4; rewrite H4 in H1; change (2 ^ 0) with 1 in H1; lia|]. intros Hnp1.
    destruct H2 as [H2|H2]; [exact H2|].
    destruct (Z.eq_dec k 0); [assumption|]. assert (0 < 2 ^ (k - 1)) by (apply Z.pow_pos_nonneg; lia). lia.
  - intros j Hj Hnp. destruct H2 as [H2|H2]; [lia|].
    destruct (Z.le_gt_cases k j); [assumption|].
    assert (2 ^ j <= 2 ^ (k - 1)) by (apply Z.pow_le_mono_r; lia). lia.
Qed.

(** ** Coordinates *)

Definition to3 (hd : list dim3) (l : list N) : V3 Z :=
  fold_left (fun p '(d, c) => set3 p d (Z.of_N c)) (combine hd l) (v3 0 0 0).

Lemma hd_shapes nb :
  In (hilbert_dims nb) [[]; [D0]; [D1]; [D2]; [D0;D1]; [D0;D2]; [D1;D2]; [D0;D1;D2]].
Proof.
  unfold hilbert_dims, dims3. cbn [filter].
  destruct (get3 nb D0 =? 0), (get3 nb D1 =? 0), (get3 nb D2 =? 0); cbn; tauto.
Qed.

Ltac hd_cases nb :=
  let H := fresh in
  pose proof (hd_shapes nb) as H; cbn [In] in H;
  repeat (destruct H as [H|H]); try (now destruct H); rewrite <- H; clear H.

Lemma to3_coords nb l : length l = length (hilbert_dims nb) ->
  map (fun d => Z.to_N (get3 (to3 (hilbert_dims nb) l) d)) (hilbert_dims nb) = l.
Proof.
  hd_cases nb; destruct l as [|a [|b [|c [|]]]]; intros H; try discriminate H; cbn;
    rewrite ?N2Z.id; reflexivity.
Qed.

Lemma to3_of_coords nb p :
  (forall d, 0 <= get3 p d) -> (forall d, get3 nb d = 0 -> get3 p d = 0) ->
  to3 (hilbert_dims nb) (map (fun d => Z.to_N (get3 p d)) (hilbert_dims nb)) = p.
Proof.
  intros H0 Hz. apply v3_ext. 
  pose proof (H0 D0) as A0. pose proof (H0 D1) as A1. pose proof (H0 D2) as A2.
  pose proof (Hz D0) as B0. pose proof (Hz D1) as B1. pose proof (Hz D2) as B2.
  unfold hilbert_dims, dims3. cbn [filter]. cbn [get3] in *.
  destruct (Z.eqb_spec (c0 nb) 0), (Z.eqb_spec (c1 nb) 0), (Z.eqb_spec (c2 nb) 0); cbn;
    intros []; cbn; rewrite ?Z2N.id by lia; lia.
Qed.

Lemma to3_bound nb l (np : V3 Z) : length l = length (hilbert_dims nb) ->
  all_pos np ->
  forallb (fun '(d, c) => negb (get3 np d <=? Z.of_N c)) (combine (hilbert_dims nb) l) = true ->
  in_box np (to3 (hilbert_dims nb) l).
Proof.
  intros Hl Hpos. pose proof (Hpos D0) as P0. pose proof (Hpos D1) as P1. pose proof (Hpos D2) as P2.
  cbn [get3] in *.
  revert Hl. hd_cases nb; destruct l as [|a [|b [|c [|]]]]; intros H; try discriminate H; cbn;
    intros HF; intros []; cbn; lia.
Qed.

Lemma bound_to3 nb (np p : V3 Z) : in_box np p ->
  forallb (fun '(d, c) => negb (get3 np d <=? Z.of_N c))
    (combine (hilbert_dims nb) (map (fun d => Z.to_N (get3 p d)) (hilbert_dims nb))) = true.
Proof.
  intros Hp. pose proof (Hp D0). pose proof (Hp D1). pose proof (Hp D2).
  hd_cases nb; cbn in *; rewrite ?Z2N.id by lia; lia.
Qed.

(** box as a list *)
Definition box_list (np : V3 Z) : list (V3 Z) :=
  map (fun q => v3 (fst q) (fst (snd q)) (snd (snd q)))
      (list_prod (zrange 0 (c0 np)) (list_prod (zrange 0 (c1 np)) (zrange 0 (c2 np)))).

Lemma in_box_list np p : In p (box_list np) <-> in_box np p.
Proof.
  unfold box_list. rewrite in_map_iff. split.
  - intros [[a [b c]] [<- H]]. apply in_prod_iff in H. destruct H as [Ha H].
    apply in_prod_iff in H. destruct H as [Hb Hc]. apply in_zrange in Ha, Hb, Hc.
    intros []; cbn; lia.
  - intros Hp. destruct p as [a b c]. exists (a, (b, c)). split; [reflexivity|].
    rewrite !in_prod_iff, !in_zrange. pose proof (Hp D0). pose proof (Hp D1). pose proof (Hp D2).
    cbn in *. auto.
Qed.

Lemma NoDup_box_list np : NoDup (box_list np).
Proof.
  apply FinFun.Injective_map_NoDup.
  - intros [a [b c]] [a' [b' c']] H. cbn in H. congruence.
  - apply NoDup_list_prod; [apply NoDup_zrange|].
    apply NoDup_list_prod; apply NoDup_zrange.
Qed.

Lemma box_list_length np : all_pos np -> Z.of_nat (length (box_list np)) = volume np.
Proof.
  intros Hpos. pose proof (Hpos D0). pose proof (Hpos D1). pose proof (Hpos D2). cbn in *.
  unfold box_list, volume. rewrite map_length, !prod_length, !zrange_length, !Nat2Z.inj_mul.
  rewrite !Z2Nat.id by lia. rewrite !Z.sub_0_r. ring.
Qed.

(** ** The Hilbert curve with its two maps *)

Section Curve.
  Variables (np nb : V3 Z) (m : Z).
  Hypothesis Hpos : all_pos np.
  Hypothesis Hnb0 : forall d, 0 <= get3 nb d <= m.
  Hypothesis Hnp : forall d, get3 np d <= 2 ^ get3 nb d.
  Let hd := hilbert_dims nb.
  Let tot := m * Z.of_nat (length hd).
  Hypothesis Htot : tot <= 30.
  Hypothesis Hz : forall d, get3 nb d = 0 -> get3 np d = 1.

  Let conv h := hilbert_i2c (N.of_nat (length hd)) (Z.to_N m) (Z.to_N h).
  Let inside := hilbert_inside np hd m.

  Let m_pos : hd <> [] -> 1 <= m.
  Proof.
    intros H. unfold hd, hilbert_dims in H.
    destruct (filter (fun d => negb (get3 nb d =? 0)) dims3) as [|d r] eqn:E; [congruence|].
    assert (Hin : In d (filter (fun d => negb (get3 nb d =? 0)) dims3)) by (rewrite E; now left).
    apply filter_In in Hin. destruct Hin as [_ Hin]. pose proof (Hnb0 d). lia.
  Qed.

  Let len3 : (length hd <= 3)%nat.
  Proof. unfold hd. hd_cases nb; cbn; lia. Qed.

  Let m_nonneg : 0 <= m.
  Proof. pose proof (Hnb0 D0). lia. Qed.

  Let tot_N : Z.to_N tot = (N.of_nat (length hd) * Z.to_N m)%N.
  Proof. unfold tot. lia. Qed.

  Lemma conv_ok h : hd <> [] -> 0 <= h < 2 ^ tot ->
    length (conv h) = length hd /\
    hilbert_c2i (N.of_nat (length hd)) (Z.to_N m) (conv h) = Some (Z.to_N h).
  Proof.
    intros Hne Hh. pose proof (m_pos Hne) as Hm1. unfold conv.
    assert (Hh' : (Z.to_N h < 2 ^ (N.of_nat (length hd) * Z.to_N m))%N).
    { rewrite <- tot_N. apply N2Z.inj_lt. rewrite N2Z.inj_pow. cbn [Z.of_N].
      rewrite !Z2N.id; [lia| |lia]. unfold tot. lia. }
    destruct (Nat.eq_dec (length hd) 1) as [E1|N1].
    - rewrite E1. split; reflexivity.
    - assert (Hd : N.of_nat (length hd) = 2%N \/ N.of_nat (length hd) = 3%N).
      { assert (length hd <> 0%nat) by (intros E; apply Hne, length_zero_iff_nil, E). clear - len3 H N1. lia. }
      split.
      + destruct (i2c_wf (N.of_nat (length hd)) (Z.to_N m) Hd ltac:(lia)
                    ltac:(unfold tot in Htot; lia) (Z.to_N h)) as [HL _].
        rewrite HL. lia.
      + apply c2i_i2c; try assumption; try lia.
  Qed.

  Lemma conv_onto l : hd <> [] -> length l = length hd -> Forall (fun c => Z.of_N c < 2 ^ m) l ->
    exists h, hilbert_c2i (N.of_nat (length hd)) (Z.to_N m) l = Some (Z.to_N h) /\
              0 <= h < 2 ^ tot /\ conv h = l.
  Proof.
    intros Hne Hl Hc. pose proof (m_pos Hne) as Hm1. unfold conv.
    destruct (Nat.eq_dec (length hd) 1) as [E1|N1].
    - rewrite E1 in *. destruct l as [|a [|]]; try discriminate Hl.
      inversion Hc as [|? ? Ha _]; subst. exists (Z.of_N a). rewrite N2Z.id.
      split; [reflexivity|]. split; [|reflexivity]. unfold tot. rewrite E1.
      rewrite Z.mul_1_r. lia.
    - assert (Hd : N.of_nat (length hd) = 2%N \/ N.of_nat (length hd) = 3%N).
      { assert (length hd <> 0%nat) by (intros E; apply Hne, length_zero_iff_nil, E). clear - len3 H N1. lia. }
      destruct (i2c_c2i (N.of_nat (length hd)) (Z.to_N m) Hd ltac:(lia)
                    ltac:(unfold tot in Htot; lia) l) as [i [E [Hi E']]].
      + lia.
      + eapply Forall_impl; [|exact Hc]. cbn. intros a Ha. apply N2Z.inj_lt.
        rewrite N2Z.inj_pow. rewrite Z2N.id by lia. exact Ha.
      + exists (Z.of_N i). rewrite N2Z.id. split; [exact E|]. split; [|exact E'].
        split; [lia|]. rewrite <- tot_N in Hi. apply N2Z.inj_lt in Hi.
        rewrite N2Z.inj_pow, Z2N.id in Hi; [exact Hi|]. unfold tot. lia.
  Qed.

  Let coords p := map (fun d => Z.to_N (get3 p d)) hd.

  Let to_h (p : V3 Z) : option Z :=
    match hd with
    | [] => Some 0
    | _ => match hilbert_c2i (N.of_nat (length hd)) (Z.to_N m) (coords p) with
           | Some h => Some (Z.of_N h) | None => None end
    end.

  Let tot0 : hd = [] -> 2 ^ tot = 1.
  Proof. intros H. unfold tot. rewrite H. cbn [length Z.of_nat]. rewrite Z.mul_0_r. reflexivity. Qed.

  Let np_m d : get3 np d <= 2 ^ m.
  Proof.
    pose proof (Hnp d). pose proof (Hnb0 d).
    assert (2 ^ get3 nb d <= 2 ^ m) by (apply Z.pow_le_mono_r; lia). lia.
  Qed.

  Lemma F1 h : 0 <= h < 2 ^ tot -> inside h = true ->
    in_box np (to3 hd (conv h)) /\ to_h (to3 hd (conv h)) = Some h.
  Proof.
    intros Hh Hin. unfold to_h.
    destruct (list_eq_dec (fun a b : dim3 => ltac:(decide equality)) hd []) as [E|Hne].
    - rewrite E. rewrite (tot0 E) in Hh. split; [|f_equal; lia].
      unfold to3. cbn. intros d. pose proof (Hpos d). destruct d; cbn in *; lia.
    - destruct (conv_ok h Hne Hh) as [HL HC]. split.
      + apply to3_bound; [exact HL|exact Hpos|exact Hin].
      + unfold coords, hd. rewrite to3_coords by exact HL. fold hd. rewrite HC.
        destruct hd; [congruence|]. rewrite Z2N.id by lia. reflexivity.
  Qed.

  Lemma F2 p : in_box np p ->
    exists h, to_h p = Some h /\ 0 <= h < 2 ^ tot /\ inside h = true /\ to3 hd (conv h) = p.
  Proof.
    intros Hp. unfold to_h.
    assert (Hp0 : forall d, get3 nb d = 0 -> get3 p d = 0).
    { intros d H. pose proof (Hz d H). pose proof (Hp d). lia. }
    destruct (list_eq_dec (fun a b : dim3 => ltac:(decide equality)) hd []) as [E|Hne].
    - exists 0. rewrite (tot0 E). unfold inside, hilbert_inside. rewrite E.
      split; [reflexivity|]. split; [lia|]. split; [reflexivity|].
      pose proof (to3_of_coords nb p (fun d => proj1 (Hp d)) Hp0) as H.
      fold hd in H. rewrite E in H. cbn in H. cbn. exact H.
    - destruct (conv_onto (coords p) Hne) as [h [HC [Hh HE]]].
      + unfold coords. rewrite map_length. reflexivity.
      + unfold coords. apply Forall_forall. intros x Hx. apply in_map_iff in Hx.
        destruct Hx as [d [<- _]]. pose proof (Hp d). rewrite Z2N.id by lia. pose proof (np_m d). lia.
      + exists h. rewrite HC. split; [|split; [exact Hh|split]].
        * destruct hd; [congruence|]. rewrite Z2N.id by lia. reflexivity.
        * unfold inside, hilbert_inside. fold (conv h). rewrite HE. apply bound_to3. exact Hp.
        * rewrite HE. apply to3_of_coords; [intros d; apply Hp|exact Hp0].
  Qed.

  Let hs := zrange 0 (2 ^ tot).
  Let p2h := filter inside hs.

  Lemma p2h_length : Z.of_nat (length p2h) = volume np.
  Proof.
    rewrite <- (box_list_length np Hpos). f_equal.
    rewrite <- (map_length (fun h => to3 hd (conv h)) p2h).
    apply Permutation_length. apply NoDup_Permutation.
    - assert (G : forall l, NoDup l -> (forall h, In h l -> 0 <= h < 2 ^ tot /\ inside h = true) ->
                 NoDup (map (fun h => to3 hd (conv h)) l)).
      { induction 1 as [|a l Hn Hnd IH]; intros HA; cbn [map]; constructor.
        - intros Hin. apply in_map_iff in Hin. destruct Hin as [b [Eb Hb]].
          destruct (HA a (or_introl eq_refl)) as [Ha1 Ha2].
          destruct (HA b (or_intror Hb)) as [Hb1 Hb2].
          pose proof (proj2 (F1 a Ha1 Ha2)) as FA. pose proof (proj2 (F1 b Hb1 Hb2)) as FB.
          rewrite Eb, FA in FB. injection FB as ->. contradiction.
        - apply IH. intros h Hh. apply HA. now right. }
      apply G.
      + apply NoDup_filter, NoDup_zrange.
      + intros h Hh. apply filter_In in Hh. destruct Hh as [H1 H2]. apply in_zrange in H1. auto.
    - apply NoDup_box_list.
    - intros p. rewrite in_box_list, in_map_iff. split.
      + intros [h [<- Hh]]. apply filter_In in Hh. destruct Hh as [H1 H2]. apply in_zrange in H1.
        apply F1; assumption.
      + intros Hp. destruct (F2 p Hp) as [h [_ [Hh [Hi E]]]]. exists h. split; [exact E|].
        apply filter_In. split; [apply in_zrange; exact Hh|exact Hi].
  Qed.

  Let scan := hilbert_scan inside hs 0.

  Lemma rank_of h : 0 <= h < 2 ^ tot -> inside h = true ->
    exists i, zget (snd scan) h = Some i /\ 0 <= i < volume np /\ zget (fst scan) i = Some h.
  Proof.
    intros Hh Hi. destruct (scan_spec inside hs 0) as [S1 S2]. fold scan in S1, S2.
    pose proof (nth_zrange0 _ _ Hh) as Hn. fold hs in Hn.
    pose proof (S2 _ _ Hn) as S3. rewrite Hi in S3.
    pose proof (nth_filter_rank inside hs _ _ Hn Hi) as Hr.
    eexists. split; [unfold zget; destruct (Z.ltb_spec h 0); [lia|exact S3]|].
    assert (HL : (length (filter inside (firstn (Z.to_nat h) hs)) < length p2h)%nat).
    { apply nth_error_Some. unfold p2h. rewrite Hr. discriminate. }
    pose proof p2h_length. split; [lia|]. rewrite S1. unfold zget.
    destruct (Z.ltb_spec (0 + Z.of_nat (length (filter inside (firstn (Z.to_nat h) hs)))) 0); [lia|].
    rewrite Z.add_0_l, Nat2Z.id. exact Hr.
  Qed.

  Lemma at_rank i : 0 <= i < volume np ->
    exists h, zget (fst scan) i = Some h /\ 0 <= h < 2 ^ tot /\ inside h = true /\
              zget (snd scan) h = Some i.
  Proof.
    intros Hi. destruct (scan_spec inside hs 0) as [S1 S2]. fold scan in S1, S2.
    destruct (nth_error (filter inside hs) (Z.to_nat i)) as [h|] eqn:E.
    2:{ apply nth_error_None in E. pose proof p2h_length as HL. unfold p2h in HL. lia. }
    destruct (nth_filter_inv _ _ _ _ E) as [j [Hj [Hin Hr]]].
    pose proof (S2 _ _ Hj) as S3. rewrite Hin in S3.
    destruct (nth_zrange0_inv _ _ _ Hj) as [-> Hh].
    exists (Z.of_nat j). rewrite S1. unfold zget.
    destruct (Z.ltb_spec i 0); [lia|]. destruct (Z.ltb_spec (Z.of_nat j) 0); [lia|].
    rewrite Nat2Z.id. repeat split; try assumption; try lia.
    rewrite S3. f_equal. lia.
  Qed.

  Lemma idx_via_h p h : to_h p = Some h -> 0 <= h < 2 ^ tot -> inside h = true ->
    sfc_hilbert_idx3_to_idx m hd (snd scan) p = zget (snd scan) h.
  Proof.
    intros Ht Hh Hi. unfold to_h in Ht. unfold sfc_hilbert_idx3_to_idx. unfold coords in Ht.
    destruct (list_eq_dec (fun a b : dim3 => ltac:(decide equality)) hd []) as [E|Hne].
    - rewrite E in Ht |- *. injection Ht as <-.
      destruct (rank_of 0 Hh Hi) as [i [E1 [E2 _]]]. rewrite E1. f_equal.
      unfold volume in E2.
      assert (forall d, get3 np d = 1).
      { intros d. apply Hz. 
        assert (Hn : ~ In d hd) by (rewrite E; auto).
        unfold hd, hilbert_dims in Hn. rewrite filter_In in Hn.
        pose proof (in_dims3 d). destruct (Z.eqb_spec (get3 nb d) 0); [assumption|].
        exfalso. apply Hn. auto. }
      pose proof (H D0). pose proof (H D1). pose proof (H D2). cbn in *. nia.
    - clear - Ht Hne. revert Ht. destruct hd as [|x r]; [congruence|].
      destruct (hilbert_c2i _ _ _) as [h'|]; [|discriminate]. intros [= <-]. reflexivity.
  Qed.

  Lemma hilbert_curve_bijective :
    bijective_on np (sfc_idx3_to_idx (SfcHilbert m hd (fst scan) (snd scan)))
                    (sfc_idx_to_idx3 (SfcHilbert m hd (fst scan) (snd scan))).
  Proof.
    split.
    - intros i Hi. destruct (at_rank i Hi) as [h [E1 [Hh [Hin E2]]]].
      destruct (F1 h Hh Hin) as [B1 B2].
      exists (to3 hd (conv h)). cbn [sfc_idx_to_idx3 sfc_idx3_to_idx].
      unfold sfc_hilbert_idx_to_idx3. rewrite E1. split; [reflexivity|]. split; [exact B1|].
      rewrite (idx_via_h _ h B2 Hh Hin). exact E2.
    - intros p Hp. destruct (F2 p Hp) as [h [Ht [Hh [Hin E]]]].
      destruct (rank_of h Hh Hin) as [i [E1 [E2 E3]]].
      exists i. cbn [sfc_idx_to_idx3 sfc_idx3_to_idx].
      rewrite (idx_via_h _ h Ht Hh Hin). split; [exact E1|]. split; [exact E2|].
      unfold sfc_hilbert_idx_to_idx3. rewrite E3. f_equal. exact E.
  Qed.

  Lemma p2h_fits : length (fst scan) = length p2h.
  Proof. destruct (scan_spec inside hs 0) as [S1 _]. fold scan in S1. rewrite S1. reflexivity. Qed.
End Curve.

Lemma n_total_patches_volume np nb :
  (forall d, get3 nb d = 0 -> get3 np d = 1) ->
  fold_left (fun n d => n * get3 np d) (hilbert_dims nb) 1 = volume np.
Proof.
  intros Hz. pose proof (Hz D0) as Z0. pose proof (Hz D1) as Z1. pose proof (Hz D2) as Z2.
  unfold volume, hilbert_dims, dims3. cbn [filter]. cbn [get3] in *.
  destruct (Z.eqb_spec (c0 nb) 0) as [A|A]; destruct (Z.eqb_spec (c1 nb) 0) as [B|B];
  destruct (Z.eqb_spec (c2 nb) 0) as [C|C];
  cbn [negb fold_left get3];
  try rewrite (Z0 A); try rewrite (Z1 B); try rewrite (Z2 C); ring.
Qed.

Lemma hilbert_nbits_all np : all_pos np ->
  exists nb, 
    hilbert_nbits_loop (S (Z.to_nat (c0 np))) (c0 np) 0 = Some (c0 nb) /\
    hilbert_nbits_loop (S (Z.to_nat (c1 np))) (c1 np) 0 = Some (c1 nb) /\
    hilbert_nbits_loop (S (Z.to_nat (c2 np))) (c2 np) 0 = Some (c2 nb) /\
    (forall d, 0 <= get3 nb d /\ get3 np d <= 2 ^ get3 nb d /\ (get3 nb d = 0 <-> get3 np d = 1)
               /\ forall j, 0 <= j -> get3 np d <= 2 ^ j -> get3 nb d <= j).
Proof.
  intros Hpos. pose proof (Hpos D0) as P0. pose proof (Hpos D1) as P1. pose proof (Hpos D2) as P2.
  cbn [get3] in *.
  destruct (hilbert_nbits_ok (c0 np) ltac:(lia)) as [b0 [E0 H0]].
  destruct (hilbert_nbits_ok (c1 np) ltac:(lia)) as [b1 [E1 H1]].
  destruct (hilbert_nbits_ok (c2 np) ltac:(lia)) as [b2 [E2 H2]].
  exists (v3 b0 b1 b2). cbn [c0 c1 c2]. repeat (split; [assumption|]).
  intros []; cbn [get3 c0 c1 c2]; assumption.
Qed.

Lemma hilbert_setup_cases np : all_pos np ->
  exists nb, (forall d, 0 <= get3 nb d /\ get3 np d <= 2 ^ get3 nb d /\ (get3 nb d = 0 <-> get3 np d = 1)
               /\ forall j, 0 <= j -> get3 np d <= 2 ^ j -> get3 nb d <= j) /\
  let m := nbits_maximum nb in
  let hd := hilbert_dims nb in
  let sc := hilbert_scan (hilbert_inside np hd m) (zrange 0 (2 ^ (m * Z.of_nat (length hd)))) 0 in
  (30 < m * Z.of_nat (length hd) -> sfc_hilbert_setup np = None) /\
  (m * Z.of_nat (length hd) <= 30 ->
     sfc_hilbert_setup np = Some (SfcHilbert m hd (fst sc) (snd sc)) /\
     bijective_on np (sfc_idx3_to_idx (SfcHilbert m hd (fst sc) (snd sc)))
                     (sfc_idx_to_idx3 (SfcHilbert m hd (fst sc) (snd sc)))).
Proof.
  intros Hpos. destruct (hilbert_nbits_all np Hpos) as [nb [E0 [E1 [E2 H]]]].
  exists nb. split; [exact H|]. cbv zeta. set (m := nbits_maximum nb). set (hd := hilbert_dims nb).
  assert (Hnb : v3 (c0 nb) (c1 nb) (c2 nb) = nb) by (destruct nb; reflexivity).
  unfold sfc_hilbert_setup. rewrite E0, E1, E2, Hnb. fold m hd. cbv zeta.
  split; intros Ht.
  - destruct (Z.ltb_spec 30 (m * Z.of_nat (length hd))); [reflexivity|lia].
  - destruct (Z.ltb_spec 30 (m * Z.of_nat (length hd))); [lia|].
    rewrite Z.shiftl_1_l.
    assert (Hz : forall d, get3 nb d = 0 -> get3 np d = 1) by (intros d Hd; apply H; exact Hd).
    assert (Hb : forall d, 0 <= get3 nb d <= m).
    { intros d. split; [apply H|apply nbits_maximum_ge]. }
    assert (Hn : forall d, get3 np d <= 2 ^ get3 nb d) by (intros d; apply H).
    pose proof (hilbert_curve_bijective np nb m Hpos Hb Hn Ht Hz) as HB. fold hd in HB.
    pose proof (p2h_length np nb m Hpos Hb Hn Ht Hz) as HL. fold hd in HL.
    pose proof (p2h_fits np nb m) as HF. fold hd in HF.
    unfold hd at 3. rewrite (n_total_patches_volume np nb Hz). fold hd.
    destruct (hilbert_scan _ _ 0) as [a b] eqn:Es. cbn [fst snd] in *.
    destruct (Z.ltb_spec (volume np) (Z.of_nat (length a))); [lia|].
    split; [reflexivity|exact HB].
Qed.

Lemma hilbert_bijective np s : all_pos np -> sfc_setup CURVE_HILBERT np = Some s ->
  bijective_on np (sfc_idx3_to_idx s) (sfc_idx_to_idx3 s).
Proof.
  intros Hpos Hs. cbn [sfc_setup] in Hs.
  destruct (hilbert_setup_cases np Hpos) as [nb [_ [H1 H2]]].
  destruct (Z.le_gt_cases (nbits_maximum nb * Z.of_nat (length (hilbert_dims nb))) 30) as [H|H].
  - destruct (H2 H) as [E B]. rewrite E in Hs. injection Hs as <-. exact B.
  - rewrite H1 in Hs by lia. discriminate.
Qed.

Lemma hilbert_accepts np : (forall d, 1 <= get3 np d <= 1024) ->
  exists s, sfc_setup CURVE_HILBERT np = Some s.
Proof.
  intros H. cbn [sfc_setup].
  assert (Hpos : all_pos np) by (intros d; specialize (H d); lia).
  destruct (hilbert_setup_cases np Hpos) as [nb [Hnb [_ H2]]].
  assert (Hm : nbits_maximum nb <= 10).
  { assert (forall d, get3 nb d <= 10).
    { intros d. apply Hnb; [lia|]. apply H. }
    pose proof (H0 D0). pose proof (H0 D1). pose proof (H0 D2). cbn in *.
    unfold nbits_maximum. destruct (Z.ltb_spec (c0 nb) (c1 nb));
    destruct (Z.ltb_spec (c1 nb) (c2 nb)); destruct (Z.ltb_spec (c0 nb) (c2 nb)); lia. }
  assert (Hl : (length (hilbert_dims nb) <= 3)%nat) by (hd_cases nb; cbn; lia).
  destruct H2 as [E _]; [nia|]. eauto.
Qed.

(** two-dimensional decompositions: up to 2^15 patches per direction *)
Lemma hilbert_accepts_2d np d0 : get3 np d0 = 1 -> (forall d, 1 <= get3 np d <= 32768) ->
  exists s, sfc_setup CURVE_HILBERT np = Some s.
Proof.
  intros H1 H. cbn [sfc_setup].
  assert (Hpos : all_pos np) by (intros d; specialize (H d); lia).
  destruct (hilbert_setup_cases np Hpos) as [nb [Hnb [_ H2]]].
  assert (Hm : nbits_maximum nb <= 15).
  { assert (forall d, get3 nb d <= 15).
    { intros d. apply Hnb; [lia|]. apply H. }
    pose proof (H0 D0). pose proof (H0 D1). pose proof (H0 D2). cbn in *.
    unfold nbits_maximum. destruct (Z.ltb_spec (c0 nb) (c1 nb));
    destruct (Z.ltb_spec (c1 nb) (c2 nb)); destruct (Z.ltb_spec (c0 nb) (c2 nb)); lia. }
  assert (Hl : (length (hilbert_dims nb) <= 2)%nat).
  { destruct (Hnb d0) as [_ [_ [Hz0 _]]]. apply Hz0 in H1.
    unfold hilbert_dims, dims3. cbn [filter].
    destruct d0; rewrite H1; cbn;
      destruct (c0 nb =? 0), (c1 nb =? 0), (c2 nb =? 0); cbn; lia. }
  destruct H2 as [E _]; [nia|]. eauto.
Qed.
