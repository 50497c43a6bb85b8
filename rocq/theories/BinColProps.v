(** C22: a binary collision conserves momentum and energy. *)
From Coq Require Import Reals Lra Psatz.
From Verif Require Import Base Arr RSum DomainSpec CollisionModel CollisionSpec CollisionProofs BinColModel BinColProofs.
Local Open Scope R_scope.

(** momentum m u and energy sqrt(m^2 + |m u|^2) (velocity of light 1); u is the momentum per mass *)
Definition momentum (m : R) (u : V3 R) (d : dim3) : R := m * get3 u d.
Definition rel_energy (m : R) (u : V3 R) : R := sqrt (m * m + (m * c0 u) * (m * c0 u) + (m * c1 u) * (m * c1 u) + (m * c2 u) * (m * c2 u)).

Lemma collide_any m1 m2 q1 q2 u1 u2 nudt1 ran1 ran2 : 0 < m1 -> 0 < m2 -> 0 < nudt1 -> 0 < ran2 <= 1 ->
  exists u1' u2' nudt, collide m1 m2 q1 q2 u1 u2 nudt1 ran1 ran2 = Some (u1', u2', nudt) /\
    (forall d, momentum m1 u1' d + momentum m2 u2' d = momentum m1 u1 d + momentum m2 u2 d) /\
    rel_energy m1 u1' + rel_energy m2 u2' = rel_energy m1 u1 + rel_energy m2 u2 /\ 0 <= nudt.
Proof.
  intros H1 H2 HN HR. destruct (Req_EM_T (q1 * q2) 0) as [E|E].
  - exists u1, u2, 0. unfold collide. destruct (Req_EM_T (q1 * q2) 0); [|contradiction]. repeat split; lra.
  - destruct (collide_ok m1 m2 q1 q2 u1 u2 nudt1 ran1 ran2 H1 H2 E HN HR) as [u1' [u2' [nudt [HC [HP [HM HE]]]]]].
    exists u1', u2', nudt. split; [exact HC|]. split; [exact HM|]. split; [exact HE|lra].
Qed.

(** For all masses, charges, momenta, and random numbers in ]0,1] (RngC): no division by zero and no root of a
    negative number occurs, and total momentum and energy are unchanged. *)
Theorem C22_conserved : forall m1 m2 q1 q2 u1 u2 nudt1 ran1 ran2, 0 < m1 -> 0 < m2 -> 0 < nudt1 -> 0 < ran2 <= 1 ->
  exists u1' u2' nudt, collide m1 m2 q1 q2 u1 u2 nudt1 ran1 ran2 = Some (u1', u2', nudt) /\
    (forall d, momentum m1 u1' d + momentum m2 u2' d = momentum m1 u1 d + momentum m2 u2 d) /\
    rel_energy m1 u1' + rel_energy m2 u2' = rel_energy m1 u1 + rel_energy m2 u2 /\ 0 <= nudt.
Proof. exact collide_any. Qed.
Print Assumptions C22_conserved.

(** particles without charge do not collide *)
Theorem C22_neutral : forall m1 m2 q1 q2 u1 u2 nudt1 ran1 ran2, q1 = 0 \/ q2 = 0 -> collide m1 m2 q1 q2 u1 u2 nudt1 ran1 ran2 = Some (u1, u2, 0).
Proof. intros. unfold collide. destruct (Req_EM_T (q1 * q2) 0) as [E|E]; [reflexivity|]. exfalso. apply E. destruct H as [-> | ->]; ring. Qed.
Print Assumptions C22_neutral.

(** ** all collisions in a patch *)
Definition total (f : cprt -> R) (prts : list cprt) : R := rsum (map f prts).

Lemma total_nset f : forall n l x y l', nth_error l n = Some y -> nset l n x = Some l' -> total f l' = total f l - f y + f x.
Proof.
  induction n as [|n IH]; intros [|z l] x y l' E1 E2; cbn in E1, E2; try discriminate.
  - injection E1 as <-. injection E2 as <-. unfold total. cbn [map]. rewrite !rsum_cons. ring.
  - destruct (nset l n x) as [l2|] eqn:E; [|discriminate]. injection E2 as <-. pose proof (IH l x y l2 E1 E) as H. unfold total in *. cbn [map]. rewrite !rsum_cons, H. ring.
Qed.

Lemma total_set f l i x y l' : aget l i = Some y -> aset l i x = Some l' -> total f l' = total f l - f y + f x.
Proof. unfold aget, aset. destruct (i <? 0)%Z; [discriminate|]. apply total_nset. Qed.

(** masses and charges are those of before *)
Definition same_kinds (l l' : list cprt) : Prop := map (fun p => (cp_m p, cp_q p)) l = map (fun p => (cp_m p, cp_q p)) l'.

Lemma alist_kinds l l' : alen l = alen l' -> (forall i a b, aget l i = Some a -> aget l' i = Some b -> cp_m a = cp_m b /\ cp_q a = cp_q b) -> same_kinds l l'.
Proof.
  intros HL H. unfold same_kinds. revert l' HL H. induction l as [|a l IH]; intros [|b l'] HL H; [reflexivity|unfold alen in HL; cbn in HL; lia..|].
  cbn [map]. destruct (H 0%Z a b eq_refl eq_refl) as [E1 E2]. rewrite E1, E2. f_equal. apply IH; [rewrite !alen_cons in HL; lia|].
  intros i x y Hx Hy. pose proof (aget_bounds _ _ _ Hx). apply (H (i + 1)%Z); rewrite aget_cons; destruct (Z.eqb_spec (i + 1) 0); try lia; replace (i + 1 - 1)%Z with i by lia; assumption.
Qed.

Definition p_mom (d : dim3) (p : cprt) : R := momentum (cp_m p) (cp_u p) d.
Definition p_energy (p : cprt) : R := rel_energy (cp_m p) (cp_u p).

Lemma collide_at_ok prts n1 n2 nudt1 ran1 ran2 a b : aget prts n1 = Some a -> aget prts n2 = Some b -> n1 <> n2 -> Forall (fun p => 0 < cp_m p) prts ->
  0 < nudt1 -> 0 < ran2 <= 1 ->
  exists prts', collide_at prts n1 n2 nudt1 ran1 ran2 = Some prts' /\ same_kinds prts prts' /\
    (forall d, total (p_mom d) prts' = total (p_mom d) prts) /\ total p_energy prts' = total p_energy prts.
Proof.
  intros Ea Eb HN HM Hnu Hr. unfold collide_at. rewrite Ea, Eb.
  assert (Ma : 0 < cp_m a) by (eapply Forall_forall in HM; [exact HM|]; eapply aget_In; exact Ea).
  assert (Mb : 0 < cp_m b) by (eapply Forall_forall in HM; [exact HM|]; eapply aget_In; exact Eb).
  destruct (collide_any (cp_m a) (cp_m b) (cp_q a) (cp_q b) (cp_u a) (cp_u b) nudt1 ran1 ran2 Ma Mb Hnu Hr) as [u1 [u2 [nudt [EC [CM [CE _]]]]]].
  rewrite EC. cbn [bind].
  destruct (aset_some prts n1 (mkC (cp_m a) (cp_q a) u1) (aget_bounds _ _ _ Ea)) as [l1 [E1 [L1 G1]]]. rewrite E1. cbn [bind].
  assert (Eb' : aget l1 n2 = Some b) by (rewrite G1; destruct (Z.eqb_spec n2 n1); [congruence|exact Eb]).
  destruct (aset_some l1 n2 (mkC (cp_m b) (cp_q b) u2) (aget_bounds _ _ _ Eb')) as [l2 [E2 [L2 G2]]].
  exists l2. split; [exact E2|]. split.
  { apply alist_kinds; [lia|]. intros i x y Hx Hy. rewrite G2 in Hy. destruct (Z.eqb_spec i n2) as [->|]; [injection Hy as <-; replace x with b by congruence; auto|].
    rewrite G1 in Hy. destruct (Z.eqb_spec i n1) as [->|]; [injection Hy as <-; replace x with a by congruence; auto|]. replace y with x by congruence. auto. }
  assert (T : forall f, total f l2 = total f prts - f a - f b + f (mkC (cp_m a) (cp_q a) u1) + f (mkC (cp_m b) (cp_q b) u2)).
  { intros f. rewrite (total_set f l1 n2 _ _ l2 Eb' E2), (total_set f prts n1 _ _ l1 Ea E1). ring. }
  split.
  - intros d. rewrite T. specialize (CM d). unfold p_mom. cbn [cp_m cp_u]. lra.
  - rewrite T. unfold p_energy. cbn [cp_m cp_u]. lra.
Qed.

Lemma same_kinds_len l l' : same_kinds l l' -> alen l = alen l'.
Proof. intros H. apply (f_equal (@length _)) in H. rewrite !map_length in H. unfold alen. lia. Qed.

Lemma same_kinds_mass l l' : same_kinds l l' -> Forall (fun p => 0 < cp_m p) l -> Forall (fun p => 0 < cp_m p) l'.
Proof.
  unfold same_kinds. revert l'. induction l as [|a l IH]; intros [|b l'] E H; cbn [map] in E; try discriminate; [constructor|].
  injection E as E1 _ E2. inversion H; subst. constructor; [rewrite <- E1; assumption|]. apply IH; assumption.
Qed.

(** the numbers drawn and the collision parameter are in their ranges *)
Definition draws (rnd : nat -> R * R * R) : Prop := forall k, let '(nudt1, ran1, ran2) := rnd k in 0 < nudt1 /\ 0 < ran2 <= 1.

Lemma run_ok rnd : draws rnd -> forall evs k prts, Forall (fun p => 0 < cp_m p) prts ->
  (forall a b h, In (a, b, h) evs -> a <> b /\ (0 <= a < alen prts)%Z /\ (0 <= b < alen prts)%Z /\ (0 < h)%Z) ->
  exists prts', run_events evs rnd k prts = Some prts' /\ same_kinds prts prts' /\
    (forall d, total (p_mom d) prts' = total (p_mom d) prts) /\ total p_energy prts' = total p_energy prts.
Proof.
  intros HD. induction evs as [|[[a b] h] evs IH]; intros k prts HM HE.
  - exists prts. repeat split; reflexivity.
  - cbn [run_events]. specialize (HD k) as Hk. destruct (rnd k) as [[nudt1 ran1] ran2]. destruct (HE a b h (or_introl eq_refl)) as [Hab [Ha [Hb Hh]]].
    destruct (aget_some prts a Ha) as [pa Ea]. destruct (aget_some prts b Hb) as [pb Eb].
    assert (0 < IZR h) by (apply IZR_lt; lia).
    destruct (collide_at_ok prts a b (IZR h * / 2 * nudt1) ran1 ran2 pa pb Ea Eb Hab HM) as [l1 [E1 [K1 [M1 N1]]]]; [destruct Hk; nra|apply Hk|].
    rewrite E1. cbn [bind]. destruct (IH (S k) l1) as [l2 [E2 [K2 [M2 N2]]]].
    + apply (same_kinds_mass prts); assumption.
    + intros a' b' h' Hin. rewrite <- (same_kinds_len prts l1 K1). apply HE. now right.
    + exists l2. split; [exact E2|]. split; [unfold same_kinds in *; congruence|]. split; [intros d; rewrite M2; apply M1|rewrite N2; exact N1].
Qed.

Lemma pairs2_h l a b h : In (a, b, h) (pairs2 l) -> h = 2%Z.
Proof.
  assert (G : forall n l, (length l <= n)%nat -> In (a, b, h) (pairs2 l) -> h = 2%Z); [|eauto].
  induction n as [|n IH]; intros [|x [|y r]] HL H; cbn in HL; try lia; try (destruct H; fail); destruct H as [H|H].
  - injection H; intros; subst. reflexivity.
  - apply (IH r); [lia|exact H].
Qed.

Lemma pairing_h l a b h : In (a, b, h) (pairing l) -> (0 < h)%Z.
Proof.
  unfold pairing. destruct (alen l <? 2)%Z; [intros []|]. destruct (Z.even (alen l)); [intros H; apply pairs2_h in H; lia|].
  destruct l as [|x [|y [|z r]]]; try (intros []; fail). cbn [In]. intros [H|[H|[H|H]]]; [injection H; lia..|]. apply pairs2_h in H. lia.
Qed.

Lemma all_some_in {A} : forall (l : list (option A)) r x, all_some l = Some r -> In x r -> In (Some x) l.
Proof.
  induction l as [|[a|] l IH]; intros r x E H; cbn in E; try discriminate.
  - injection E as <-. destruct H.
  - destruct (all_some l) as [r'|] eqn:E'; [|discriminate]. injection E as <-. destruct H as [<-|H]; [now left|right]. eapply IH; [reflexivity|exact H].
Qed.

Lemma collide_patch_h {P} (cell : P -> option Z) shuffle ldims prts evs a b h : collide_patch cell shuffle ldims prts = Some evs -> In (a, b, h) evs -> (0 < h)%Z.
Proof.
  unfold collide_patch. destruct (find_cell_offsets _ _ _ _) as [offs|]; [|discriminate]. destruct (all_some _) as [r|] eqn:E; [|discriminate].
  cbn [option_map]. intros [= <-] H. apply in_concat in H. destruct H as [l [Hl H]]. pose proof (all_some_in _ _ _ E Hl) as K.
  apply in_map_iff in K. destruct K as [i [K _]]. unfold collide_cell in K. repeat match type of K with match ?t with _ => _ end = _ => destruct t; [|discriminate K] end.
  rewrite collide_in_cell_ok in K. injection K as <-. eapply pairing_h. exact H.
Qed.

(** All collisions of a patch with sorted particles, whatever the shuffles and random numbers: every collision is carried
    out, kinds stay what they are, total momentum and energy are unchanged. *)
Theorem C22_patch : forall P (cell : P -> option Z) (c : P -> Z) (phys : P -> cprt) ldims prts shuffle rnd,
  (forall d, 0 <= get3 ldims d)%Z ->
  (forall x, In x prts -> cell x = Some (c x) /\ 0 <= c x < volume ldims)%Z ->
  (forall i j a b, 0 <= i <= j -> aget prts i = Some a -> aget prts j = Some b -> c a <= c b)%Z ->
  (forall k l, Permutation l (shuffle k l)) ->
  Forall (fun x => 0 < cp_m (phys x)) prts -> draws rnd ->
  exists evs res, collide_patch cell shuffle ldims prts = Some evs /\
    run_events evs rnd 0 (map phys prts) = Some res /\ same_kinds (map phys prts) res /\
    (forall d, total (p_mom d) res = total (p_mom d) (map phys prts)) /\ total p_energy res = total p_energy (map phys prts).
Proof.
  intros P cell c phys ldims prts shuffle rnd H1 H2 H3 H4 HM HD.
  destruct (collide_top cell c ldims prts H1 H2 H3 shuffle H4) as [evs [E HP]]. exists evs.
  destruct (run_ok rnd HD evs 0 (map phys prts)) as [res [E2 R]].
  - apply Forall_forall. intros p Hp. apply in_map_iff in Hp. destruct Hp as [x [<- Hx]]. rewrite Forall_forall in HM. apply HM. exact Hx.
  - intros a b h Hin. destruct HP as [HP _]. destruct (HP a b h Hin) as [Hab [pa [pb [Ea [Eb _]]]]].
    assert (L : alen (map phys prts) = alen prts) by (unfold alen; rewrite map_length; reflexivity). rewrite L.
    split; [exact Hab|]. split; [exact (aget_bounds _ _ _ Ea)|]. split; [exact (aget_bounds _ _ _ Eb)|]. eapply collide_patch_h; eassumption.
  - exists res. split; [exact E|]. split; [exact E2|]. exact R.
Qed.
Print Assumptions C22_patch.

(** ** examples *)

(** an electron and an ion; after the collision neither has the momentum it had *)
Example ex_C22 : exists u1' u2' nudt, collide 1 100 (-1) 1 (v3 (1 / 10) 0 0) (v3 0 0 0) (1 / 1000) (1 / 3) (1 / 2) = Some (u1', u2', nudt) /\
  rel_energy 1 u1' + rel_energy 100 u2' = rel_energy 1 (v3 (1 / 10) 0 0) + rel_energy 100 (v3 0 0 0).
Proof.
  destruct (C22_conserved 1 100 (-1) 1 (v3 (1 / 10) 0 0) (v3 0 0 0) (1 / 1000) (1 / 3) (1 / 2)) as [u1' [u2' [nudt [E [_ [HE _]]]]]]; [lra..|].
  exists u1', u2', nudt. split; [exact E|exact HE].
Qed.

Definition ex_prts : list (Z * cprt) := [(0%Z, mkC 1 (-1) (v3 (/ 10) 0 0)); (0%Z, mkC 100 1 (v3 0 0 0)); (0%Z, mkC 1 (-1) (v3 0 (/ 5) 0)); (2%Z, mkC 1 (-1) (v3 0 0 0))].
Example ex_C22_patch : (forall x, In x ex_prts -> Some (fst x) = Some (fst x) /\ 0 <= fst x < volume (v3 3 1 1)%Z)%Z /\
  Forall (fun x => 0 < cp_m (snd x)) ex_prts /\ draws (fun _ => (/ 1000, / 3, / 2)) /\
  collide_patch (fun x => Some (fst x)) (fun _ l => rev l) (v3 3 1 1)%Z ex_prts = Some [(2, 1, 1); (2, 0, 1); (1, 0, 1)]%Z.
Proof.
  split; [|split; [|split]].
  - intros x Hx. split; [reflexivity|]. cbn in Hx. unfold volume. cbn. repeat (destruct Hx as [<-|Hx]; [cbn; lia|]). destruct Hx.
  - repeat constructor; cbn; lra.
  - intros k. lra.
  - reflexivity.
Qed.
