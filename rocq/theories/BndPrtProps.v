(** C13, C14, C15: processing of the particles of a patch before the exchange. *)
From Coq Require Import Reals Lra Psatz.
From Flocq Require Import Core.
From Verif Require Import Base Arr IndexerModel BndPrtModel BndPrtSpec BndPrtProofs BndPrtExact BndPrtFloat.
Local Open Scope R_scope.

(** ** C13 *)

(** every particle ends in exactly one place, whatever the arithmetic; entry 13 of the outgoing
    buffers is the one of direction (0, 0, 0) *)
Theorem C13_conserved : forall T a g (buf kept : list (particle T)) sends, process_patch a g buf = Some (kept, sends) ->
  exists removed,
    Permutation (map p_t buf) (map p_t kept ++ flat_map (fun i => map p_t (sends i)) (zrange 0 27) ++ map p_t removed) /\
    sublist removed buf /\
    sublist (map p_t kept) (map p_t buf) /\
    (forall i, sublist (map p_t (sends i)) (map p_t buf)) /\
    (wf_geom g -> Forall (fun p => beyond_open a g (p_x p)) removed) /\
    (forall i, ~ (0 <= i < 27)%Z \/ i = 13%Z -> sends i = []).
Proof.
  intros T a g buf k sends H. destruct (process_patch_some a g buf k sends H) as [fs [HF [-> HS]]].
  exists (dropped buf fs). split.
  { rewrite (fates_conserve a g buf fs HF). apply Permutation_app_head, Permutation_app_tail.
    match goal with |- Permutation ?u ?v => replace u with v; [apply Permutation_refl|] end. apply flat_map_ext. intros i. rewrite HS. reflexivity. }
  split. { apply dropped_sublist. clear - HF. induction HF; [reflexivity|]. cbn. congruence. }
  split. { apply (fates_sublist a g buf fs _ HF). intros []; cbn; auto. }
  split. { intros i. rewrite HS. apply (fates_sublist a g buf fs _ HF). intros [q|dir q|]; cbn; auto. destruct (_ =? _)%Z; eauto. }
  split.
  { intros WF. clear H HS. unfold dropped. induction HF as [|p f buf fs H HF IH]; [constructor|]. cbn [combine flat_map]. apply Forall_app. split; [|exact IH].
    destruct f; cbn; constructor; [|constructor]. exact (proj1 (dropped_iff a g WF p Drop H) eq_refl). }
  { intros i Hi. rewrite HS. clear H HS. unfold sent. induction HF as [|p f buf fs H HF IH]; [reflexivity|]. cbn [flat_map]. rewrite IH, app_nil_r.
    destruct f as [q|dir q|]; try reflexivity. destruct (outcome_send_dir a g p dir q (process_one_outcome a g p _ H)) as [HR [d Hd]].
    pose proof (dir2idx_range dir HR). destruct (Z.eqb_spec (dir2idx dir) i) as [E|E]; [exfalso|cbn; try rewrite (proj2 (Z.eqb_neq _ _)) by congruence; reflexivity].
    destruct Hi as [Hi|Hi]; [lia|]. apply Hd. apply (dir2idx_zero dir HR). lia. }
Qed.
Print Assumptions C13_conserved.

(** a single particle is removed if and only if it is beyond an open or absorbing side *)
Theorem C13_removed : forall T a g (prt : particle T) f, wf_geom g -> process_one a g prt = Some f -> (f = Drop <-> beyond_open a g (p_x prt)).
Proof. intros T a g prt f WF. exact (dropped_iff a g WF prt f). Qed.
Print Assumptions C13_removed.

(** ** C15 *)

(** in any arithmetic the momentum components keep their magnitude *)
Theorem C15_speed : forall T a g (prt q : particle T), (process_one a g prt = Some (Keep q) \/ exists dir, process_one a g prt = Some (Send dir q)) ->
  (forall d, get3 (p_u q) d = get3 (p_u prt) d \/ get3 (p_u q) d = - get3 (p_u prt) d) /\
  c0 (p_u q) * c0 (p_u q) + c1 (p_u q) * c1 (p_u q) + c2 (p_u q) * c2 (p_u q)
  = c0 (p_u prt) * c0 (p_u prt) + c1 (p_u prt) * c1 (p_u prt) + c2 (p_u prt) * c2 (p_u prt).
Proof.
  intros T a g prt q H.
  assert (E : forall d, get3 (p_u q) d = get3 (p_u prt) d \/ get3 (p_u q) d = - get3 (p_u prt) d).
  { destruct H as [H|[dir H]]; apply process_one_outcome in H; inversion H; subst; intros d; [now left|..];
      match goal with HD : forall d, exists y, dir_of _ _ _ _ _ d = _ /\ _ |- _ => destruct (HD d) as [y [E _]] end; unfold dir_of in E; apply bnd_dir_range in E; apply E. }
  split; [exact E|]. pose proof (E D0) as E0. pose proof (E D1) as E1. pose proof (E D2) as E2. cbn [get3] in *.
  destruct E0 as [-> | ->], E1 as [-> | ->], E2 as [-> | ->]; ring.
Qed.
Print Assumptions C15_speed.

(** in exact arithmetic: what happens in each direction.  [exact_move] has the mirror position
    and the negated momentum for reflecting sides. *)
Theorem C15_exact : forall T g (prt : particle T), wf_geom g -> exact_geom g -> small_geom g -> near g (p_x prt) ->
  exists f, process_one exact g prt = Some f /\ (f = Drop <-> beyond_open exact g (p_x prt)) /\
  match f with
  | Keep q => p_t q = p_t prt /\ inside g (p_x q) /\ forall d, exact_move g d (get3 (p_x prt) d) (get3 (p_u prt) d) (get3 (p_x q) d) (get3 (p_u q) d) 0
  | Send dir q => p_t q = p_t prt /\ inside g (p_x q) /\ (exists d, get3 dir d <> 0%Z) /\ (forall d, -1 <= get3 dir d <= 1)%Z /\
      forall d, exact_move g d (get3 (p_x prt) d) (get3 (p_u prt) d) (get3 (p_x q) d) (get3 (p_u q) d) (get3 dir d)
  | Drop => True
  end.
Proof. intros T g prt WF EX SM. exact (process_one_exact g WF EX SM prt). Qed.
Print Assumptions C15_exact.

(** in particular, beyond a reflecting side: mirrored, normal momentum negated, not sent in this direction *)
Theorem C15_reflecting : forall T g (prt : particle T) d, wf_geom g -> exact_geom g -> small_geom g -> near g (p_x prt) -> ~ beyond_open exact g (p_x prt) ->
  let x := get3 (p_x prt) d in let ps := get3 (pg_ps g) d in
  (x < 0 /\ reflects_lo g d) \/ (ps < x /\ reflects_hi g d) ->
  exists q dir, (process_one exact g prt = Some (Keep q) \/ process_one exact g prt = Some (Send dir q)) /\
    (process_one exact g prt = Some (Send dir q) -> get3 dir d = 0%Z) /\
    get3 (p_u q) d = - get3 (p_u prt) d /\
    (x < 0 -> get3 (p_x q) d = - x) /\ (ps < x -> get3 (p_x q) d = 2 * ps - x) /\
    (forall e, 0 <= get3 (p_x prt) e < get3 (pg_ps g) e -> get3 (p_u q) e = get3 (p_u prt) e /\ get3 (p_x q) e = get3 (p_x prt) e).
Proof.
  intros T g prt d WF EX SM NE NB x ps HR. destruct (process_one_exact g WF EX SM prt NE) as [f [Ef [HD Hf]]].
  assert (PS : forall e, 0 < get3 (pg_ps g) e) by (intros e; specialize (NE e); lra).
  assert (RP : forall e, reflects_lo g e -> ~ passes_lo g e) by (intros e [A B] [C|C]; congruence).
  assert (RQ : forall e, reflects_hi g e -> ~ passes_hi g e) by (intros e [A B] [C|C]; congruence).
  assert (K : forall y w k, exact_move g d x (get3 (p_u prt) d) y w k -> k = 0%Z /\ w = - get3 (p_u prt) d /\ (x < 0 -> y = - x) /\ (ps < x -> y = 2 * ps - x)).
  { intros y w k M. subst x ps. specialize (PS d). inversion M; subst.
    - exfalso. destruct HR as [[H1 H2]|[H1 H2]]; lra.
    - exfalso. destruct HR as [[H1 H2]|[H1 H2]]; [apply (RP d H2); assumption|lra].
    - exfalso. destruct HR as [[H1 H2]|[H1 H2]]; [lra|apply (RQ d H2); assumption].
    - repeat split; intros; lra.
    - repeat split; intros; lra.
    - exfalso. destruct HR as [[H1 H2]|[H1 H2]]; lra. }
  assert (K2 : forall e y w k, 0 <= get3 (p_x prt) e < get3 (pg_ps g) e -> exact_move g e (get3 (p_x prt) e) (get3 (p_u prt) e) y w k -> w = get3 (p_u prt) e /\ y = get3 (p_x prt) e).
  { intros e y w k I M. inversion M; subst; try (exfalso; lra). auto. }
  destruct f as [q|dir q|].
  - destruct Hf as [_ [_ M]]. exists q, (v3 0 0 0)%Z. destruct (K _ _ _ (M d)) as [_ [K1 [K3 K4]]]. split; [now left|]. split; [rewrite Ef; discriminate|].
    split; [exact K1|]. split; [exact K3|]. split; [exact K4|]. intros e I. exact (K2 e _ _ _ I (M e)).
  - destruct Hf as [_ [_ [_ [_ M]]]]. exists q, dir. destruct (K _ _ _ (M d)) as [K0 [K1 [K3 K4]]]. split; [now right|]. split; [intros _; exact K0|].
    split; [exact K1|]. split; [exact K3|]. split; [exact K4|]. intros e I. exact (K2 e _ _ _ I (M e)).
  - exfalso. apply NB. apply HD. reflexivity.
Qed.
Print Assumptions C15_reflecting.

(** ** C14 *)

(** Partial: proved for the patches whose size, inverse spacing and number of cells fit together
    ([float_geom]), for particles up to 15/16 of the patch size outside of the patch, and
    without overflow.  In full the claim is false, see [C14_refuted]. *)
Theorem C14_partial : forall T prec emin precd emind choice choiced s t g (prt : particle T),
  (24 <= prec)%Z -> (emin <= -149)%Z -> (24 <= precd)%Z -> (emind <= emin)%Z -> 0 <= s <= 1 - / 1048576 -> / 16777216 <= t ->
  wf_geom g -> float_geom prec emin choice g ->
  (forall d, representable prec emin (get3 (p_x prt) d)) -> near_float g (p_x prt) ->
  let a := {| rnd := nearest prec emin choice; rndd := nearest precd emind choiced; shrink := s; tiny := t |} in
  exists f, process_one a g prt = Some f /\ match f with Keep q | Send _ q => in_cells a g (p_x q) | Drop => True end.
Proof. intros T prec emin precd emind choice choiced s t g prt H1 H2 H3 H4 H5 H6 WF FG FX HN. apply process_one_float; assumption. Qed.
Print Assumptions C14_partial.

(** a sufficient condition for the last part of [float_geom] *)
Theorem C14_consistent : forall prec emin choice ps dxi ld, (24 <= prec)%Z -> (emin <= -149)%Z ->
  (0 < ld <= 2 ^ 24)%Z -> 0 < dxi -> IZR ld <= ps * dxi ->
  forall x, representable prec emin x -> ps < x -> (ld <= Zfloor (nearest prec emin choice (x * dxi)))%Z.
Proof. intros prec emin choice ps dxi ld H1 H2. apply consistent_if; assumption. Qed.
Print Assumptions C14_consistent.

(** the patch of the counterexample is one the grid sets up in double precision *)
Lemma bad_is_grid ch : patch_geom (double ch) (v3 10 4 1)%Z (v3 2 4 1)%Z (v3 8 0 0)%Z (v3 1 1 1) (v3 0 0 0)
  (v3 PRT_PERIODIC PRT_PERIODIC PRT_PERIODIC) (v3 PRT_PERIODIC PRT_PERIODIC PRT_PERIODIC) = bad_geom.
Proof.
  destruct (bad_grid ch) as [G1 [G2 [G3 [G4 G5]]]].
  assert (ID : forall n e v, v = IZR n * bpow radix2 e -> (Z.abs n < 2 ^ 53)%Z -> (-1074 <= e)%Z -> nearest 53 (-1074) ch v = v) by (intros n e v; apply double_id).
  assert (N1 : nearest 53 (-1074) ch 1 = 1) by (apply (ID 1%Z 0%Z); [cbn; lra|lia|lia]).
  assert (N0 : nearest 53 (-1074) ch 0 = 0) by (apply (ID 0%Z 0%Z); [cbn; lra|lia|lia]).
  assert (N4 : nearest 53 (-1074) ch 4 = 4) by (apply (ID 4%Z 0%Z); [cbn; lra|lia|lia]).
  assert (NQ : nearest 53 (-1074) ch (1 / 4) = 1 / 4) by (apply (ID 1%Z (-2)%Z); [cbn; lra|lia|lia]).
  assert (N10 : nearest 53 (-1074) ch 10 = 10) by (apply (ID 10%Z 0%Z); [cbn; lra|lia|lia]).
  assert (NB : nearest 53 (-1074) ch bad_ps = bad_ps) by (apply (ID 900719925474099%Z (-52)%Z); [unfold bad_ps; cbn; lra|lia|lia]).
  unfold patch_geom, bad_geom. f_equal; unfold gen3; cbn [double rnd rndd get3 c0 c1 c2].
  - replace (10 / 1) with 10 by lra. replace (4 / 1) with 4 by lra. replace (1 / 1) with 1 by lra. rewrite !N10, !N4, !N1. reflexivity.
  - rewrite G1, NQ. replace (1 / 1) with 1 by lra. rewrite !N1. rewrite !plus_IZR. rewrite G2.
    replace ((8 + 2) * tenth) with (10 * tenth) by ring. rewrite G3. replace (8 * tenth + 0) with (8 * tenth) by ring. rewrite G2.
    replace ((0 + 4) * (1 / 4)) with 1 by lra. replace (0 * (1 / 4)) with 0 by lra. replace ((0 + 1) * 1) with 1 by lra. replace (0 * 1) with 0 by lra.
    replace (1 + 0) with 1 by lra. rewrite !N1, !N0. replace (0 + 0) with 0 by lra. rewrite !N0, G4, NB.
    replace (1 + 0) with 1 by lra. rewrite !N1. replace (1 - 0) with 1 by lra. rewrite !N1. reflexivity.
Qed.

(** a domain of length 1 with 10 x 4 x 1 cells, in double precision: a representable position
    less than one patch width outside of the patch makes the run-time assertion fail, however ties
    are rounded *)
Theorem C14_refuted : exists g (prt : particle unit), wf_geom g /\
  (forall ch, patch_geom (double ch) (v3 10 4 1)%Z (v3 2 4 1)%Z (v3 8 0 0)%Z (v3 1 1 1) (v3 0 0 0)
    (v3 PRT_PERIODIC PRT_PERIODIC PRT_PERIODIC) (v3 PRT_PERIODIC PRT_PERIODIC PRT_PERIODIC) = g) /\
  (forall d, representable 53 (-1074) (get3 (p_x prt) d)) /\ near_float g (p_x prt) /\
  forall ch, process_one (double ch) g prt = None.
Proof.
  exists bad_geom, bad_prt. split; [exact bad_wf|]. split; [exact bad_is_grid|]. split; [exact bad_representable|]. split; [exact bad_near|exact bad_fails].
Qed.
Print Assumptions C14_refuted.

(** ** examples *)

(** a patch of 4 x 4 x 1 cells of size 1/4: reflecting below and open above in x, periodic
    otherwise *)
Definition ex_geom : pgeom := {| pg_ld := (v3 4 4 1)%Z; pg_dxi := v3 4 4 1; pg_ps := v3 1 1 1;
  pg_at_lo := v3 true true true; pg_at_hi := v3 true true true;
  pg_lo := v3 PRT_REFLECTING PRT_PERIODIC PRT_PERIODIC; pg_hi := v3 PRT_OPEN PRT_PERIODIC PRT_PERIODIC |}.

Example ex_wf : wf_geom ex_geom /\ exact_geom ex_geom /\ small_geom ex_geom.
Proof.
  split; [|split].
  - split; [intros []; cbn; lia|cbn; lia].
  - intros []; cbn; lra.
  - intros []; cbn; lia.
Qed.

(** a particle beyond the reflecting side in x and the periodic side in y *)
Definition ex_prt : particle nat := mkP (v3 (-1 / 8) (9 / 8) 0) (v3 (-2) 1 3) 7%nat.

Example ex_near : near ex_geom (p_x ex_prt) /\ ~ beyond_open exact ex_geom (p_x ex_prt) /\ reflects_lo ex_geom D0.
Proof.
  split; [intros []; cbn; lra|]. split; [|split; reflexivity].
  intros [d [[_ [_ H]]|[H1 [_ H]]]]; destruct d; cbn in H; destruct H as [H|H]; try discriminate H.
  revert H1. unfold cell_of. cbn. rewrite (Zfloor_val (-1 / 8 * 4) (-1)); [|lra]. lia.
Qed.

Example ex_reflected : exists q, process_one exact ex_geom ex_prt = Some (Send (v3 0 1 0)%Z q) /\ p_x q = v3 (1 / 8) (1 / 8) 0 /\ p_u q = v3 2 1 3 /\ p_t q = 7%nat.
Proof.
  destruct ex_wf as [W1 [W2 W3]]. destruct ex_near as [NE [NB RL]].
  destruct (C15_exact nat ex_geom ex_prt W1 W2 W3 NE) as [f [Ef [HD Hf]]].
  assert (X0 : forall y w k, exact_move ex_geom D0 (-1 / 8) (-2) y w k -> y = 1 / 8 /\ w = 2 /\ k = 0%Z).
  { intros y w k M. inversion M as [I|I P|I P|I P|I P|I P]; subst; cbn in I; try (exfalso; lra); [|repeat split; lra]. exfalso. destruct P as [P|P]; discriminate P. }
  assert (X1 : forall y w k, exact_move ex_geom D1 (9 / 8) 1 y w k -> y = 1 / 8 /\ w = 1 /\ k = 1%Z).
  { intros y w k M. inversion M as [I|I P|I P|I P|I P|I P]; subst; cbn in I; try (exfalso; lra); [cbn; repeat split; lra|]. exfalso. destruct P as [_ P]. discriminate P. }
  assert (X2 : forall y w k, exact_move ex_geom D2 0 3 y w k -> y = 0 /\ w = 3 /\ k = 0%Z).
  { intros y w k M. inversion M as [I|I P|I P|I P|I P|I P]; subst; cbn in I; try (exfalso; lra). repeat split; lra. }
  destruct f as [q|dir q|].
  - exfalso. destruct Hf as [_ [_ M]]. destruct (X1 _ _ _ (M D1)) as [_ [_ E]]. discriminate E.
  - destruct Hf as [Ht [_ [_ [_ M]]]]. exists q. destruct (X0 _ _ _ (M D0)) as [A1 [A2 A3]]. destruct (X1 _ _ _ (M D1)) as [B1 [B2 B3]]. destruct (X2 _ _ _ (M D2)) as [C1 [C2 C3]].
    destruct q as [[x0 x1 x2] [u0 u1 u2] t], dir as [k0 k1 k2]. cbn [get3 p_x p_u p_t c0 c1 c2] in *. subst. rewrite Ef. auto.
  - exfalso. apply NB. apply HD. reflexivity.
Qed.

(** the whole patch: the second particle leaves through the open side *)
Example ex_patch : exists kept sends, process_patch exact ex_geom [ex_prt; mkP (v3 (9 / 8) 0 0) (v3 1 0 0) 8%nat; mkP (v3 0 0 0) (v3 1 0 0) 9%nat] = Some (kept, sends)
  /\ map p_t kept = [9%nat] /\ map p_t (sends 16%Z) = [7%nat].
Proof.
  destruct ex_reflected as [q [E [_ [_ Et]]]].
  assert (ED : process_one exact ex_geom (mkP (v3 (9 / 8) 0 0) (v3 1 0 0) 8%nat) = Some Drop).
  { destruct ex_wf as [W1 [W2 W3]]. destruct (C15_exact nat ex_geom (mkP (v3 (9 / 8) 0 0) (v3 1 0 0) 8%nat) W1 W2 W3) as [f [Ef [HD _]]]; [intros []; cbn; lra|].
    rewrite Ef. f_equal. apply HD. exists D0. right. split; [|split; [reflexivity|left; reflexivity]]. unfold cell_of. cbn. rewrite (Zfloor_val (9 / 8 * 4) 4); [lia|lra]. }
  assert (EK : process_one exact ex_geom (mkP (v3 0 0 0) (v3 1 0 0) 9%nat) = Some (Keep (mkP (v3 0 0 0) (v3 1 0 0) 9%nat))).
  { unfold process_one, cell_position3, cell_position. cbn [p_x ex_geom pg_dxi c0 c1 c2 exact rnd]. replace (0 * 4) with 0 by lra. replace (0 * 1) with 0 by lra. rewrite (Zfloor_val 0 0) by lra. reflexivity. }
  destruct (process_patch_fates exact ex_geom [ex_prt; mkP (v3 (9 / 8) 0 0) (v3 1 0 0) 8%nat; mkP (v3 0 0 0) (v3 1 0 0) 9%nat]) as [[fs [sends [HF [HS HP]]]]|[N _]].
  - inversion HF as [|? f1 ? ? O1 HF1]; subst. inversion HF1 as [|? f2 ? ? O2 HF2]; subst. inversion HF2 as [|? f3 ? ? O3 HF3]; subst. inversion HF3; subst.
    unfold one in O1, O2, O3. rewrite E in O1. rewrite ED in O2. rewrite EK in O3. injection O1 as <-. injection O2 as <-. injection O3 as <-.
    eexists _, sends. split; [exact HP|]. split; [reflexivity|]. rewrite HS. cbn. rewrite Et. reflexivity.
  - exfalso. apply N. exists [Send (v3 0 1 0)%Z q; Drop; Keep (mkP (v3 0 0 0) (v3 1 0 0) 9%nat)]. repeat constructor; assumption.
Qed.

(** double precision, the same patch; the particle is beyond two sides *)
Example ex_float ch : float_geom 53 (-1074) ch ex_geom /\ (forall d, representable 53 (-1074) (get3 (p_x ex_prt) d)) /\ near_float ex_geom (p_x ex_prt).
Proof.
  assert (B : forall v : R, 1 <= v <= 4 -> bpow radix2 (-1074 + 30) <= v <= bpow radix2 (- (-1074) - 30)).
  { intros v H. split; [apply Rle_trans with (bpow radix2 0); [apply bpow_le; lia|cbn; lra]|apply Rle_trans with (bpow radix2 2); [cbn; lra|apply bpow_le; lia]]. }
  split; [|split].
  - intros d. cbv zeta. split; [destruct d; cbn; lia|]. split; [destruct d; cbn [ex_geom pg_ps get3 c0 c1 c2]; apply (rep_int 53 (-1074) ch); lia|].
    split; [destruct d; cbn [ex_geom pg_dxi get3 c0 c1 c2]; apply B; lra|]. split; [destruct d; cbn; lra|].
    apply C14_consistent; try lia; destruct d; cbn; try lia; lra.
  - intros []; cbn [ex_prt p_x get3 c0 c1 c2].
    + replace (-1 / 8) with (IZR (-1) * bpow radix2 (-3)) by (cbn; lra). apply rep_F2R; lia.
    + replace (9 / 8) with (IZR 9 * bpow radix2 (-3)) by (cbn; lra). apply rep_F2R; lia.
    + apply rep_0.
  - intros []; cbn; lra.
Qed.
