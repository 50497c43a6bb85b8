(** Proofs about folding at reflecting walls. *)
From Coq Require Import Reals Lra.
From Verif Require Import Base RSum BalanceCommProofs FieldModel FieldProofs GhostModel GhostSpec GhostProofs ReflectModel ReflectSpec.
Local Open Scope Z_scope.

Lemma same3_iff x y : same3 x y = true <-> x = y.
Proof.
  unfold same3. destruct x as [a b c], y as [a' b' c']. cbn [c0 c1 c2]. split; [|intros E; injection E as -> -> ->; lia].
  intros H. assert (a = a' /\ b = b' /\ c = c') as [-> [-> ->]] by lia. reflexivity.
Qed.
Lemma same3_refl x : same3 x x = true.
Proof. apply same3_iff. reflexivity. Qed.

  Lemma in_box_iff (a b x : V3 Z) : In x (box a b) <-> in_boxb a b x = true.
  Proof.
    rewrite in_boxb_iff. unfold box. split.
    - intros H. apply in_flat_map in H. destruct H as [k [Hk H]]. apply in_flat_map in H. destruct H as [j [Hj H]]. apply in_map_iff in H. destruct H as [i [<- Hi]].
      apply in_zrange in Hk, Hj, Hi. intros []; cbn; lia.
    - intros H. pose proof (H D0). pose proof (H D1). pose proof (H D2). cbn [get3] in *. apply in_flat_map. exists (c2 x). split; [apply in_zrange; lia|].
      apply in_flat_map. exists (c1 x). split; [apply in_zrange; lia|]. apply in_map_iff. exists (c0 x). split; [destruct x; reflexivity|apply in_zrange; lia].
  Qed.

  Lemma NoDup_box' (a b : V3 Z) : NoDup (box a b).
  Proof.
    unfold box. apply (NoDup_flat_map _ _ c2); [apply NoDup_zrange|..].
    - intros z v _ H. apply in_flat_map in H. destruct H as [y [_ H]]. apply in_map_iff in H. destruct H as [x [<- _]]. reflexivity.
    - intros z _. apply (NoDup_flat_map _ _ c1); [apply NoDup_zrange|..].
      + intros y v _ H. apply in_map_iff in H. destruct H as [x [<- _]]. reflexivity.
      + intros y _. apply NoDup_map_inj_in; [|apply NoDup_zrange]. intros u v _ _ [= ->]. reflexivity.
  Qed.

(** ** The loop *)
Section Loop.
  Variables (ldims ib : V3 Z).
  Let at_ (x : V3 Z) := gen3 (fun d => get3 x d - get3 ib d).
  Lemma at_inj x y : at_ x = at_ y -> x = y.
  Proof. intros E. apply v3_ext. intros d. apply (f_equal (fun v => get3 v d)) in E. unfold at_ in E. rewrite !get3_gen3 in E. lia. Qed.

  Variable refl : V3 Z -> V3 Z.
  Definition seen (u : moments) (m : Z) (x : V3 Z) : R := u m (at_ x).

  Lemma loop_val (l : list (Z * V3 Z)) : NoDup l -> (forall m x, In (m, x) l -> in_storage ldims ib (at_ x) = true /\ in_storage ldims ib (at_ (refl x)) = true /\ ~ In (m, refl x) l) ->
    forall u, exists u', fold_left (fun o '(m, idx) => match o with Some u => add_one ldims ib u m idx (refl idx) | None => None end) l (Some u) = Some u' /\
      (forall m x, In (m, x) l -> seen u' m x = (seen u m x + seen u m (refl x))%R) /\ (forall m x, ~ In (m, x) l -> seen u' m x = seen u m x).
  Proof.
    induction l as [|[m x] l IH] using rev_ind; intros ND H u.
    - exists u. split; [reflexivity|]. split; [intros ? ? []|reflexivity].
    - pose proof (NoDup_remove _ _ _ ND) as [ND1 NI]. rewrite app_nil_r in ND1, NI. destruct (IH ND1) with (u := u) as [u1 [E1 [A1 B1]]].
      { intros m' x' Hx. destruct (H m' x' (in_or_app _ _ _ (or_introl Hx))) as [K1 [K2 K3]]. split; [exact K1|]. split; [exact K2|]. intros K. apply K3, in_or_app. left. exact K. }
      destruct (H m x) as [K1 [K2 K3]]; [apply in_or_app; right; left; reflexivity|].
      rewrite fold_left_app, E1. cbn [fold_left]. unfold add_one. fold (at_ x) (at_ (refl x)). rewrite K1, K2. cbn [andb].
      eexists. split; [reflexivity|]. split.
      + intros m' x' Hx. unfold seen. destruct (Z.eqb_spec m' m) as [->|Nm]; cbn [andb].
        * destruct (v3_eqb (at_ x') (at_ x)) eqn:EX.
          { apply v3_eqb_eq, at_inj in EX. subst x'. f_equal; [apply (B1 m x NI)|]. apply B1. intros K. apply K3, in_or_app. left. exact K. }
          apply in_app_or in Hx. destruct Hx as [Hx|[Hx|[]]]; [apply A1, Hx|]. injection Hx as <-. 
          rewrite (proj2 (v3_eqb_eq _ _) eq_refl) in EX. discriminate.
        * apply in_app_or in Hx. destruct Hx as [Hx|[Hx|[]]]; [apply A1, Hx|]. injection Hx as -> _. contradiction.
      + intros m' x' Hx. unfold seen. destruct (Z.eqb_spec m' m) as [->|Nm]; cbn [andb].
        * destruct (v3_eqb (at_ x') (at_ x)) eqn:EX.
          { apply v3_eqb_eq, at_inj in EX. subst x'. destruct Hx. apply in_or_app. right. left. reflexivity. }
          apply B1. intros K. apply Hx, in_or_app. left. exact K.
        * apply B1. intros K. apply Hx, in_or_app. left. exact K.
  Qed.
End Loop.

Lemma rsum_ind {A} (eqb : A -> A -> bool) (u : A -> R) (a : A) l : (forall x y, eqb x y = true <-> x = y) -> NoDup l ->
  (In a l -> rsum (map (fun y => if eqb y a then u y else 0%R) l) = u a) /\ (~ In a l -> rsum (map (fun y => if eqb y a then u y else 0%R) l) = 0%R).
Proof.
  intros HE ND. split.
  - intros HI. induction l as [|b l IH]; [destruct HI|]. inversion ND as [|? ? N1 N2]; subst. cbn [map]. rewrite rsum_cons. destruct HI as [->|HI].
    + rewrite (proj2 (HE a a) eq_refl). rewrite rsum_zero; [lra|]. intros y Hy. destruct (eqb y a) eqn:E; [|reflexivity]. apply HE in E. subst y. contradiction.
    + destruct (eqb b a) eqn:E; [apply HE in E; subst b; contradiction|]. rewrite IH by assumption. lra.
  - intros HN. apply rsum_zero. intros y Hy. destruct (eqb y a) eqn:E; [|reflexivity]. apply HE in E. subst y. contradiction.
Qed.

(** what is moved to x by the map M *)
Definition pushed (B : list (V3 Z)) (M : V3 Z -> V3 Z) (u : V3 Z -> R) (x : V3 Z) : R := rsum (map u (filter (fun y => same3 (M y) x) B)).

Lemma pushed_id B u x : NoDup B -> In x B -> pushed B (fun y => y) u x = u x.
Proof.
  intros ND HI. unfold pushed. rewrite rsum_filter. apply (rsum_ind same3 u x B same3_iff ND), HI.
Qed.

Lemma pushed_comp B M1 M2 u x : NoDup B -> (forall y, In y B -> In (M1 y) B) -> pushed B M2 (pushed B M1 u) x = pushed B (fun y => M2 (M1 y)) u x.
Proof.
  intros ND HB. unfold pushed. rewrite rsum_filter.
  rewrite (rsum_ext _ (fun y => rsum (map (fun z => if same3 (M2 y) x then (if same3 (M1 z) y then u z else 0) else 0) B)%R)).
  2:{ intros y _. destruct (same3 (M2 y) x); [apply rsum_filter|]. symmetry. apply rsum_zero. reflexivity. }
  rewrite rsum_swap, rsum_filter. apply rsum_ext. intros z Hz.
  rewrite (rsum_ext _ (fun y => if same3 y (M1 z) then (if same3 (M2 y) x then u z else 0%R) else 0%R)).
  - rewrite (proj1 (rsum_ind same3 (fun y => if same3 (M2 y) x then u z else 0%R) (M1 z) B same3_iff ND) (HB z Hz)). reflexivity.
  - intros y _. destruct (same3 y (M1 z)) eqn:E.
    + apply same3_iff in E. subst y. rewrite same3_refl. reflexivity.
    + destruct (same3 (M1 z) y) eqn:E'; [apply same3_iff in E'; subst y; rewrite same3_refl in E; discriminate|]. destruct (same3 (M2 y) x); reflexivity.
Qed.

Lemma pushed_ext B M u u' x : (forall y, In y B -> M y = x -> u y = u' y) -> pushed B M u x = pushed B M u' x.
Proof. intros H. unfold pushed. apply rsum_ext. intros y Hy. apply filter_In in Hy. destruct Hy as [HI E]. apply same3_iff in E. apply H; assumption. Qed.
Lemma pushed_ext_M B M M' u x : (forall y, In y B -> M y = M' y) -> pushed B M u x = pushed B M' u x.
Proof.
  intros H. unfold pushed. rewrite !rsum_filter. apply rsum_ext. intros y Hy. rewrite (H y Hy). reflexivity.
Qed.

Lemma pushed_sum B (K : V3 Z -> bool) M u : NoDup B -> (forall y, In y B -> In (M y) B /\ K (M y) = true) ->
  rsum (map (pushed B M u) (filter K B)) = rsum (map u B).
Proof.
  intros ND HM. unfold pushed. 
  rewrite (rsum_ext _ (fun x => rsum (map (fun y => if same3 (M y) x then u y else 0%R) B))) by (intros x _; apply rsum_filter).
  rewrite rsum_swap. apply rsum_ext. intros y Hy. destruct (HM y Hy) as [H1 H2].
  rewrite (rsum_ext _ (fun x => if same3 x (M y) then u y else 0%R)).
  - apply (rsum_ind same3 (fun _ => u y) (M y) (filter K B) same3_iff); [apply NoDup_filter, ND|]. apply filter_In. split; assumption.
  - intros x _. destruct (same3 x (M y)) eqn:E.
    + apply same3_iff in E. subst x. rewrite same3_refl. reflexivity.
    + destruct (same3 (M y) x) eqn:E'; [apply same3_iff in E'; subst x; rewrite same3_refl in E; discriminate|]. reflexivity.
Qed.

(** ** One side *)
Section Side.
  Variables (nodes : bool) (ldims ib : V3 Z).
  Let g := gen3 (fun d => - get3 ib d).
  Let B := with_ghosts nodes ldims g.
  Hypothesis Hg : forall d, 0 <= get3 g d /\ 0 < get3 ldims d.

  Lemma in_B x : In x B <-> forall d, (get3 ib d + (if nodes then unused_ghost ib d else 0) <= get3 x d < get3 ldims d - get3 ib d).
  Proof.
    unfold B, with_ghosts. rewrite in_box_iff, in_boxb_iff. unfold g, unused_ghost. split; intros H d; specialize (H d); rewrite !get3_gen3 in *;
      destruct nodes; cbn [andb] in *; destruct (Z.eqb_spec (get3 ib d) 0), (Z.eqb_spec (- get3 ib d) 0); cbn [negb] in *; lia.
  Qed.
  Lemma NoDup_B : NoDup B.
  Proof. apply NoDup_box'. Qed.
  Lemma B_storage x : In x B -> in_storage ldims ib (gen3 (fun d => get3 x d - get3 ib d)) = true.
  Proof.
    rewrite in_B. intros H. unfold in_storage. apply forallb_forall. intros d _. specialize (H d). rewrite get3_gen3.
    destruct nodes; unfold unused_ghost in *; destruct (get3 ib d =? 0); lia.
  Qed.

  Variables (d : dim3) (r f : Z -> Z) (wlo whi : Z) (keep : Z -> bool) (mb me : Z).
  Let ulo := get3 ib d + (if nodes then unused_ghost ib d else 0).
  Let uhi := get3 ldims d - get3 ib d.
  Hypothesis Hwr : forall t, wlo <= t < whi -> ulo <= t < uhi /\ ulo <= r t < uhi /\ ~ (wlo <= r t < whi).
  Hypothesis Hf : forall t, ulo <= t < uhi -> ulo <= f t < uhi /\ keep (f t) = true.
  Hypothesis Hpre : forall x y, ulo <= x < uhi -> ulo <= y < uhi -> keep x = true -> (f y = x <-> y = x \/ (wlo <= x < whi /\ y = r x)).
  Hypothesis Hrx : forall x, wlo <= x < whi -> r x <> x.

  Definition along (h : Z -> Z) (x : V3 Z) : V3 Z := set3 x d (h (get3 x d)).

  Lemma along_same h x : get3 (along h x) d = h (get3 x d).
  Proof. unfold along. apply get3_set3_same. Qed.
  Lemma along_other h x e : e <> d -> get3 (along h x) e = get3 x e.
  Proof. intros N. unfold along. apply get3_set3_other. congruence. Qed.
  Lemma along_B h x : In x B -> ulo <= h (get3 x d) < uhi -> In (along h x) B.
  Proof.
    intros H1 H2. apply in_B. rewrite in_B in H1. intros e. destruct (dim3_eqb e d) eqn:E.
    - apply dim3_eqb_eq in E. subst e. rewrite along_same. exact H2.
    - rewrite along_other; [apply H1|]. intros ->. rewrite dim3_eqb_refl in E. discriminate.
  Qed.
  Lemma along_eq h x y : In y B -> (along h y = x <-> h (get3 y d) = get3 x d /\ forall e, e <> d -> get3 y e = get3 x e).
  Proof.
    intros _. split.
    - intros <-. split; [symmetry; apply along_same|]. intros e N. symmetry. apply along_other, N.
    - intros [E1 E2]. apply v3_ext. intros e. destruct (dim3_eqb e d) eqn:E.
      + apply dim3_eqb_eq in E. subst e. rewrite along_same. exact E1.
      + assert (e <> d) by (intros ->; rewrite dim3_eqb_refl in E; discriminate). rewrite along_other by assumption. apply E2. assumption.
  Qed.

  Let ibeg := set3 (gen3 (fun e => get3 ib e + (if nodes then unused_ghost ib e else 0))) d wlo.
  Let iend := set3 (gen3 (fun e => get3 ldims e - get3 ib e)) d whi.

  Lemma in_loop m x : In (m, x) (loop4 mb me ibeg iend) <-> mb <= m < me /\ wlo <= get3 x d < whi /\ In x B.
  Proof.
    rewrite in_loop4, in_boxb_iff, in_B. unfold ibeg, iend. split.
    - intros [Hm H]. split; [exact Hm|]. pose proof (H d) as Hd. rewrite !get3_set3_same in Hd. split; [exact Hd|].
      intros e. destruct (dim3_eqb e d) eqn:E; [apply dim3_eqb_eq in E; subst e; pose proof (Hwr _ Hd); fold ulo uhi; lia|].
      assert (d <> e) by (intros ->; rewrite dim3_eqb_refl in E; discriminate). specialize (H e). rewrite !get3_set3_other in H by congruence. rewrite !get3_gen3 in H. exact H.
    - intros [Hm [Hd H]]. split; [exact Hm|]. intros e. destruct (dim3_eqb e d) eqn:E; [apply dim3_eqb_eq in E; subst e; rewrite !get3_set3_same; exact Hd|].
      assert (d <> e) by (intros ->; rewrite dim3_eqb_refl in E; discriminate). rewrite !get3_set3_other by congruence. rewrite !get3_gen3. apply H.
  Qed.

  Lemma side_val u : exists u', add_reflected ldims ib mb me ibeg iend (along r) u = Some u' /\
    (forall m x, mb <= m < me -> In x B -> keep (get3 x d) = true -> seen ib u' m x = pushed B (along f) (seen ib u m) x) /\
    (forall m x, ~ mb <= m < me -> seen ib u' m x = seen ib u m x).
  Proof.
    destruct (loop_val ldims ib (along r) (loop4 mb me ibeg iend) (NoDup_loop4 _ _ _ _)) with (u := u) as [u' [E [A N]]].
    - intros m x H. apply in_loop in H. destruct H as [Hm [Hd HB]]. destruct (Hwr _ Hd) as [W1 [W2 W3]]. split; [apply B_storage, HB|]. split.
      + apply B_storage. apply along_B; assumption.
      + rewrite in_loop, along_same. tauto.
    - exists u'. split; [exact E|]. split.
      + intros m x Hm HB HK.
        assert (ulo <= get3 x d < uhi) as Hx by (rewrite in_B in HB; apply HB).
        assert (pushed B (along f) (seen ib u m) x = rsum (map (fun y => ((if same3 y x then seen ib u m y else 0) + (if (wlo <=? get3 x d) && (get3 x d <? whi) then (if same3 y (along r x) then seen ib u m y else 0) else 0))%R) B)) as ->.
        { unfold pushed. rewrite rsum_filter. apply rsum_ext. intros y Hy.
          assert (ulo <= get3 y d < uhi) as Hy' by (rewrite in_B in Hy; apply Hy).
          pose proof (Hpre (get3 x d) (get3 y d) Hx Hy' HK) as HP.
          pose proof (along_eq f x y Hy) as AE. 
          destruct (same3 (along f y) x) eqn:E1.
          - apply same3_iff in E1. apply AE in E1. destruct E1 as [E1 E2]. apply HP in E1. destruct E1 as [E1|[E1 E3]].
            + assert (y = x) as -> by (apply v3_ext; intros e; destruct (dim3_eqb e d) eqn:Ed; [apply dim3_eqb_eq in Ed; subst e; exact E1|apply E2; intros ->; rewrite dim3_eqb_refl in Ed; discriminate]).
              rewrite same3_refl. destruct ((wlo <=? get3 x d) && (get3 x d <? whi)) eqn:EW; [|lra].
              destruct (same3 x (along r x)) eqn:E4; [|lra]. apply same3_iff in E4. apply (f_equal (fun v => get3 v d)) in E4. rewrite along_same in E4.
              destruct (Hrx (get3 x d)); [lia|congruence].
            + replace ((wlo <=? get3 x d) && (get3 x d <? whi)) with true by lia.
              assert (y = along r x) as ->.
              { symmetry. apply along_eq; [exact HB|]. split; [congruence|]. intros e N1. symmetry. apply E2, N1. }
              rewrite same3_refl. destruct (same3 (along r x) x) eqn:E4; [|lra]. apply same3_iff in E4. apply (f_equal (fun v => get3 v d)) in E4. rewrite along_same in E4.
              destruct (Hrx (get3 x d)); [lia|congruence].
          - assert (same3 y x = false) as ->.
            { destruct (same3 y x) eqn:E4; [|reflexivity]. apply same3_iff in E4. subst y. assert (along f x = x) as E5 by (apply AE; split; [apply HP; left; reflexivity|reflexivity]).
              rewrite E5, same3_refl in E1. discriminate. }
            destruct ((wlo <=? get3 x d) && (get3 x d <? whi)) eqn:EW; [|lra]. destruct (same3 y (along r x)) eqn:E4; [|lra]. apply same3_iff in E4.
            assert (along f y = x) as E5.
            { apply AE. split; [apply HP; right; split; [lia|]; rewrite E4; apply along_same|]. intros e N1. rewrite E4. apply along_other, N1. }
            rewrite E5, same3_refl in E1. discriminate. }
        rewrite rsum_plus. rewrite (proj1 (rsum_ind same3 (seen ib u m) x B same3_iff NoDup_B) HB).
        destruct ((wlo <=? get3 x d) && (get3 x d <? whi)) eqn:EW.
        * assert (wlo <= get3 x d < whi) as HW by lia. destruct (Hwr _ HW) as [_ [W2 _]].
          rewrite (proj1 (rsum_ind same3 (seen ib u m) (along r x) B same3_iff NoDup_B) (along_B r x HB W2)). apply A. apply in_loop. auto.
        * rewrite rsum_zero by reflexivity. rewrite Rplus_0_r. apply N. rewrite in_loop. lia.
      + intros m x Hm. apply N. rewrite in_loop. tauto.
  Qed.
End Side.

Ltac ifs := repeat match goal with
  | |- context [if ?a <? ?b then _ else _] => destruct (Z.ltb_spec a b)
  | H : context [if ?a <? ?b then _ else _] |- _ => destruct (Z.ltb_spec a b)
  end; lia.

Ltac order := let a := fresh in let b := fresh in let H := fresh in intros a b H ?; cbn [In] in H;
  repeat match type of H with _ \/ _ => destruct H as [H|H] end; try contradiction; injection H; intros; subst; first [discriminate|auto].

(** ** All sides *)
Section Whole.
  Variables (nodes : bool) (ldims ib : V3 Z) (lo hi : dim3 -> bool) (mb me : Z).
  Let g := gen3 (fun d => - get3 ib d).
  Let B := with_ghosts nodes ldims g.
  Hypothesis Hthick : thick nodes lo hi ldims g.

  Definition side (s : bool) (d : dim3) : bool := if s then hi d else lo d.
  Definition fold1 (s : bool) (n t : Z) : Z :=
    if s then (if last_point nodes n <? t then (if nodes then 2 * n - t else 2 * n - 1 - t) else t)
    else (if t <? 0 then (if nodes then - t else - 1 - t) else t).
  Definition keep1 (s : bool) (n t : Z) : bool := if s then t <=? last_point nodes n else 0 <=? t.
  Definition c_of : centering := if nodes then NC else CC.
  Definition run1 (s : bool) (d : dim3) : moments -> option moments :=
    if s then match c_of with CC => add_ghosts_reflecting_hi_cc | NC => add_ghosts_reflecting_hi_nc end ldims ib d mb me
    else match c_of with CC => add_ghosts_reflecting_lo_cc | NC => add_ghosts_reflecting_lo_nc end ldims ib d mb me.

  Lemma Hgg : forall d, 0 <= get3 g d /\ 0 < get3 ldims d.
  Proof. intros d. destruct (Hthick d) as [A [C _]]. split; assumption. Qed.

  Lemma set3_ext (a b : V3 Z) d v v' : (forall e, get3 a e = get3 b e) -> v = v' -> set3 a d v = set3 b d v'.
  Proof. intros H ->. f_equal. apply v3_ext, H. Qed.

  Definition refl1 (s : bool) (n t : Z) : Z :=
    if s then (if nodes then 2 * n - t else 2 * n - t - 1) else (if nodes then - t else - t - 1).
  Definition wlo1 (s : bool) (d : dim3) : Z :=
    if s then get3 ldims d + get3 ib d + (if nodes then unused_ghost ib d else 0) else (if nodes then 1 else 0).
  Definition whi1 (s : bool) (d : dim3) : Z :=
    if s then get3 ldims d else (if nodes then 1 - get3 ib d - unused_ghost ib d else - get3 ib d).
  Lemma run1_eq s d : run1 s d = add_reflected ldims ib mb me (set3 (gen3 (fun e => get3 ib e + (if nodes then unused_ghost ib e else 0))) d (wlo1 s d))
    (set3 (gen3 (fun e => get3 ldims e - get3 ib e)) d (whi1 s d)) (along d (refl1 s (get3 ldims d))).
  Proof.
    unfold run1, c_of, wlo1, whi1, refl1, add_ghosts_reflecting_hi_cc, add_ghosts_reflecting_hi_nc, add_ghosts_reflecting_lo_cc, add_ghosts_reflecting_lo_nc. cbv zeta.
    destruct s, nodes; try reflexivity; f_equal; apply set3_ext; try lia; intros e; rewrite get3_gen3; lia.
  Qed.

  Lemma run1_val s d u : side s d = true -> exists u', run1 s d u = Some u' /\
    (forall m x, mb <= m < me -> In x B -> keep1 s (get3 ldims d) (get3 x d) = true -> seen ib u' m x = pushed B (along d (fold1 s (get3 ldims d))) (seen ib u m) x) /\
    (forall m x, ~ mb <= m < me -> seen ib u' m x = seen ib u m x).
  Proof.
    intros HS. destruct (Hthick d) as [T1 [T2 T3]]. assert (lo d || hi d = true) as HW by (unfold side in HS; destruct s, (lo d), (hi d); auto). specialize (T3 HW).
    assert (get3 g d = - get3 ib d) as EG by (unfold g; rewrite get3_gen3; reflexivity).
    rewrite run1_eq.
    apply (side_val nodes ldims ib Hgg d (refl1 s (get3 ldims d)) (fold1 s (get3 ldims d)) (wlo1 s d) (whi1 s d) (keep1 s (get3 ldims d)) mb me);
      clear HW HS; unfold refl1, wlo1, whi1, fold1, keep1, last_point, unused_ghost in *; destruct s, nodes; intros; destruct (Z.eqb_spec (get3 ib d) 0); ifs.
  Qed.

  Definition f1 (s : bool) (d : dim3) (t : Z) : Z := if side s d then fold1 s (get3 ldims d) t else t.
  Definition ok_pts (done : list (bool * dim3)) (x : V3 Z) : Prop :=
    forall s e, In (s, e) done -> side s e = true -> keep1 s (get3 ldims e) (get3 x e) = true.
  Definition inv (u0 : moments) (done : list (bool * dim3)) (u : moments) (M : V3 Z -> V3 Z) : Prop :=
    (forall y, In y B -> In (M y) B) /\
    (forall m x, mb <= m < me -> In x B -> ok_pts done x -> seen ib u m x = pushed B M (seen ib u0 m) x) /\
    (forall m x, ~ mb <= m < me -> seen ib u m x = seen ib u0 m x).

  Lemma f1_B s d y : In y B -> In (along d (f1 s d) y) B.
  Proof.
    intros Hy. apply (along_B nodes ldims ib Hgg d); [exact Hy|]. pose proof (proj1 (in_B nodes ldims ib Hgg y) Hy d) as Hd. cbv beta.
    destruct (Hthick d) as [T1 [T2 T3]]. assert (get3 g d = - get3 ib d) as EG by (unfold g; rewrite get3_gen3; reflexivity).
    unfold f1. destruct (side s d) eqn:ES; [|exact Hd].
    assert (lo d || hi d = true) as HW by (unfold side in ES; destruct s, (lo d), (hi d); auto). specialize (T3 HW).
    unfold fold1, last_point, unused_ghost in *. destruct s, nodes; destruct (Z.eqb_spec (get3 ib d) 0); ifs.
  Qed.

  Lemma inv_step u0 done u M s d : (forall s' e, In (s', e) done -> e = d -> s' = false /\ s = true) -> inv u0 done u M ->
    exists u', (if side s d then run1 s d u else Some u) = Some u' /\ inv u0 ((s, d) :: done) u' (fun y => along d (f1 s d) (M y)).
  Proof.
    intros HD [HM [HV HO]]. destruct (side s d) eqn:ES.
    - destruct (run1_val s d u ES) as [u' [E [A N]]]. exists u'. split; [exact E|]. split; [intros y Hy; apply f1_B, HM, Hy|]. split.
      + intros m x Hm Hx HK. assert (keep1 s (get3 ldims d) (get3 x d) = true) as K1 by (apply HK; [left; reflexivity|exact ES]).
        rewrite (A m x Hm Hx K1).
        rewrite (pushed_ext B _ _ (pushed B M (seen ib u0 m))).
        * rewrite pushed_comp; [|apply NoDup_B|exact HM]. apply pushed_ext_M. intros y _. unfold f1. rewrite ES. reflexivity.
        * intros y Hy EY. apply HV; [exact Hm|exact Hy|]. intros s' e Hin HS'.
          apply (along_eq nodes ldims ib d) in EY; [|exact Hy]. destruct EY as [E1 E2].
          destruct (dim3_eqb e d) eqn:Ed.
          -- apply dim3_eqb_eq in Ed. subst e. destruct (HD s' d Hin eq_refl) as [-> ->].
             assert (keep1 false (get3 ldims d) (get3 x d) = true) as K2 by (apply HK; [right; exact Hin|exact HS']).
             destruct (Hthick d) as [T1 [T2 _]]. unfold keep1, fold1, last_point in *. destruct nodes; ifs.
          -- assert (e <> d) as N1 by (intros ->; rewrite dim3_eqb_refl in Ed; discriminate). rewrite (E2 e N1). apply HK; [right; exact Hin|exact HS'].
      + intros m x Hm. rewrite (N m x Hm). apply HO, Hm.
    - exists u. split; [reflexivity|]. split; [intros y Hy; apply f1_B, HM, Hy|]. split; [|exact HO].
      intros m x Hm Hx HK. rewrite (HV m x Hm Hx) by (intros s' e Hin; apply HK; right; exact Hin).
      apply pushed_ext_M. intros y Hy. apply v3_ext. intros e. unfold along. destruct (dim3_eqb d e) eqn:Ed.
      + apply dim3_eqb_eq in Ed. subst e. rewrite get3_set3_same. unfold f1. rewrite ES. reflexivity.
      + rewrite get3_set3_other; [reflexivity|]. intros ->. rewrite dim3_eqb_refl in Ed. discriminate.
  Qed.

  Lemma image_f1 d t : get3 ib d + (if nodes then unused_ghost ib d else 0) <= t < get3 ldims d - get3 ib d ->
    f1 true d (f1 false d t) = image nodes (lo d) (hi d) (get3 ldims d) t.
  Proof.
    intros Ht. destruct (Hthick d) as [T1 [T2 T3]]. assert (get3 g d = - get3 ib d) as EG by (unfold g; rewrite get3_gen3; reflexivity).
    unfold f1, side, image, fold1, last_point, unused_ghost in *. destruct (lo d), (hi d), nodes; cbn [andb orb] in *; try specialize (T3 eq_refl);
      destruct (Z.eqb_spec (get3 ib d) 0); ifs.
  Qed.

  Lemma all_sides u0 off gdims refl_lo refl_hi :
    (forall d, lo d = atBoundaryLo off d && get3 refl_lo d) -> (forall d, hi d = atBoundaryHi off ldims gdims d && get3 refl_hi d) ->
    exists u, maybe_add_ghosts_boundary off ldims gdims refl_lo refl_hi ib mb me c_of u0 = Some u /\
      (forall m x, mb <= m < me -> In x B -> kept nodes lo hi ldims x = true -> seen ib u m x = collected nodes lo hi ldims g (seen ib u0 m) x) /\
      (forall m x, ~ mb <= m < me -> seen ib u m x = seen ib u0 m x).
  Proof.
    intros HL HH. unfold maybe_add_ghosts_boundary. cbv zeta.
    assert (inv u0 [] u0 (fun y => y)) as I0.
    { split; [auto|]. split; [|reflexivity]. intros m x Hm Hx _. symmetry. apply pushed_id; [apply NoDup_B|exact Hx]. }
    pose proof (fun H => inv_step u0 _ _ _ false D0 H I0) as KI0; destruct (KI0 ltac:(order)) as [u1 [E1 I1]].
    pose proof (fun H => inv_step u0 _ _ _ false D1 H I1) as KI1; destruct (KI1 ltac:(order)) as [u2 [E2 I2]].
    pose proof (fun H => inv_step u0 _ _ _ false D2 H I2) as KI2; destruct (KI2 ltac:(order)) as [u3 [E3 I3]].
    pose proof (fun H => inv_step u0 _ _ _ true D0 H I3) as KI3; destruct (KI3 ltac:(order)) as [u4 [E4 I4]].
    pose proof (fun H => inv_step u0 _ _ _ true D1 H I4) as KI4; destruct (KI4 ltac:(order)) as [u5 [E5 I5]].
    pose proof (fun H => inv_step u0 _ _ _ true D2 H I5) as KI5; destruct (KI5 ltac:(order)) as [u6 [E6 I6]].
    exists u6. split; [|split].
    - unfold dims3. cbn [fold_left]. unfold side in *. rewrite <- !HL, <- !HH. unfold run1 in *.
      rewrite E1, E2, E3, E4, E5. exact E6.
    - intros m x Hm Hx HK. destruct I6 as [_ [V _]]. rewrite (V m x Hm Hx).
      + unfold collected. change (pushed B (fun y => along D2 (f1 true D2) (along D1 (f1 true D1) (along D0 (f1 true D0) (along D2 (f1 false D2) (along D1 (f1 false D1) (along D0 (f1 false D0) y)))))) (seen ib u0 m) x
          = pushed B (image3 nodes lo hi ldims) (seen ib u0 m) x).
        apply pushed_ext_M. intros y Hy. pose proof (proj1 (in_B nodes ldims ib Hgg y) Hy) as HY.
        apply v3_ext. intros d. unfold image3. rewrite get3_gen3, <- (image_f1 d (get3 y d) (HY d)).
        destruct y as [a b c]. destruct d; reflexivity.
      + intros s e _ HS. unfold kept in HK. rewrite forallb_forall in HK. specialize (HK e (in_dims3 e)). unfold side in HS. unfold keep1. destruct s; rewrite HS in HK; lia.
    - apply I6.
  Qed.

  Lemma all_sides_sum (u : moments) (u0 : V3 Z -> R) (m : Z) : (forall x, In x B -> kept nodes lo hi ldims x = true -> seen ib u m x = collected nodes lo hi ldims g u0 x) ->
    rsum (map (seen ib u m) (filter (kept nodes lo hi ldims) B)) = rsum (map u0 B).
  Proof.
    intros H. rewrite <- (pushed_sum B (kept nodes lo hi ldims) (image3 nodes lo hi ldims) u0); [|apply NoDup_B|].
    - apply rsum_ext. intros x Hx. apply filter_In in Hx. apply H; apply Hx.
    - intros y Hy. pose proof (proj1 (in_B nodes ldims ib Hgg y) Hy) as HY. split.
      + apply (in_B nodes ldims ib Hgg). intros d. unfold image3. rewrite get3_gen3, <- image_f1 by apply HY. 
        pose proof (f1_B true d _ (f1_B false d y Hy)) as HB. pose proof (proj1 (in_B nodes ldims ib Hgg _) HB d) as HB'. rewrite along_same, along_same in HB'. exact HB'.
      + unfold kept. apply forallb_forall. intros d _. unfold image3. rewrite get3_gen3. specialize (HY d).
        destruct (Hthick d) as [T1 [T2 T3]]. assert (get3 g d = - get3 ib d) as EG by (unfold g; rewrite get3_gen3; reflexivity).
        unfold image, last_point, unused_ghost in *. destruct (lo d), (hi d), nodes; cbn [andb orb negb] in *; try specialize (T3 eq_refl);
          destruct (Z.eqb_spec (get3 ib d) 0); ifs.
  Qed.
End Whole.
