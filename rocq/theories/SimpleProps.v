(** C77: domains with one patch per process. *)
From Verif Require Import Base SimpleModel SimpleSpec SimpleProofs.
Local Open Scope Z_scope.

(** in every order of steps, a process that knows its offset knows the right one: the cells of the processes before it on its line *)
Theorem C77_offsets : forall np lm n s p d, (forall d, 0 < get3 np d) -> reach np lm (c0 np * c1 np * c2 np) n s -> inside np p -> knows d (pc s (number np p)) ->
  off s (number np p) d = before np lm p d.
Proof. intros np lm n s p d P H Hp K. apply (i_off np lm s (inv_reach np lm n s P H) p d Hp). destruct d; cbn in *; lia. Qed.
Print Assumptions C77_offsets.

Lemma dim_at_next k : 0 <= k < 6 -> Z.even k = true -> dim_at (k + 1) = dim_at k /\ k + 1 < 6.
Proof. intros H E. assert (k = 0 \/ k = 1 \/ k = 2 \/ k = 3 \/ k = 4 \/ k = 5) as [-> | [-> | [-> | [-> | [-> | ->]]]]] by lia; try discriminate; split; reflexivity || lia. Qed.

Lemma list_least (f : Z -> Z) : forall l x, In x l -> exists y, In y l /\ forall z, In z l -> f y <= f z.
Proof.
  induction l as [|a l IH]; intros x Hx; [destruct Hx|]. destruct l as [|b l]; [exists a; split; [left; reflexivity|intros z [<- | []]; lia]|].
  destruct (IH b (or_introl eq_refl)) as (y & Hy & M). destruct (Z_le_gt_dec (f a) (f y)) as [C|C]; [exists a; split; [left; reflexivity|]|exists y; split; [right; exact Hy|]]; intros z [<- | Hz]; try lia; specialize (M z Hz); lia.
Qed.

Lemma least_pc np s p : (forall d, 0 < get3 np d) -> inside np p -> exists q, inside np q /\ forall q', inside np q' -> pc s (number np q) <= pc s (number np q').
Proof.
  intros P Hp. destruct (list_least (pc s) (zrange 0 (c0 np * c1 np * c2 np)) (number np p) (proj2 (in_zrange _ _ _) (number_range np p Hp))) as (y & Hy & M). apply in_zrange in Hy. destruct (rank2proc_inside np y P Hy) as [A B].
  exists (rank2proc np y). split; [exact A|]. rewrite B. intros q' Hq'. apply M, in_zrange, number_range, Hq'.
Qed.

(** there is no deadlock, even if no message is buffered: while a process has not finished, one can go on, and does not send to one that is not receiving *)
Theorem C77_progress : forall np lm n s, (forall d, 0 < get3 np d) -> reach np lm (c0 np * c1 np * c2 np) n s -> (exists r, 0 <= r < c0 np * c1 np * c2 np /\ pc s r <> 6) ->
  exists r s', 0 <= r < c0 np * c1 np * c2 np /\ next np lm s r = Some s' /\ ~ sends_to_busy np s r.
Proof.
  intros np lm n s P H (r & Hr & NE). destruct (inv_reach np lm n s P H) as [I1 I2 I3 I4 I5]. destruct (rank2proc_inside np r P Hr) as [Hp0 E0]. rewrite <- E0 in NE. set (p0 := rank2proc np r) in *. clearbody p0.
  destruct (least_pc np s p0 P Hp0) as (p1 & Hp1 & MIN). assert (L1 := MIN p0 Hp0). assert (B1 := I1 p1 Hp1). assert (B0 := I1 p0 Hp0). remember (pc s (number np p1)) as m eqn:Em. assert (Hm : 0 <= m < 6) by lia.
  destruct (dim_at_spec m Hm) as [[KD KE]|[KD KE]]; set (d := dim_at m) in *.
  - assert (GO : forall i p, inside np p -> pc s (number np p) = m -> get3 p d = Z.of_nat i -> exists r s', 0 <= r < c0 np * c1 np * c2 np /\ next np lm s r = Some s' /\ ~ sends_to_busy np s r).
    { induction i as [|i IH]; intros p Hp Ep Ei.
      - exists (number np p). eexists. split; [apply number_range, Hp|]. unfold next, sends_to_busy. rewrite Ep, (rank2proc_number np p Hp). fold d. destruct (Z.ltb_spec m 0); [lia|]. destruct (Z.leb_spec 6 m); [lia|]. cbn [orb]. rewrite KE, Ei. cbn. split; [reflexivity|]. intros [Q _]. discriminate.
      - assert (Hl : inside np (beside p d (-1))) by (apply inside_set; [exact Hp|]; specialize (Hp d); lia). assert (BB : beside (beside p d (-1)) d 1 = p) by (apply (beside_back p d (-1))).
        assert (GL : get3 (beside p d (-1)) d + 1 < get3 np d) by (unfold beside; rewrite get3_set3_same; specialize (Hp d); lia). assert (ML := MIN _ Hl).
        destruct (Z.eq_dec (pc s (number np (beside p d (-1)))) m) as [C|C]; [apply (IH _ Hl C); unfold beside; rewrite get3_set3_same; lia|].
        destruct (Z.eq_dec (pc s (number np (beside p d (-1)))) (m + 1)) as [C'|C'].
        + exists (number np (beside p d (-1))). eexists. split; [apply number_range, Hl|]. unfold next, sends_to_busy. rewrite C', (rank2proc_number np _ Hl). destruct (dim_at_next m Hm KE) as [DD M5]. fold d in DD.
          rewrite DD. destruct (Z.ltb_spec (m + 1) 0); [lia|]. destruct (Z.leb_spec 6 (m + 1)); [lia|]. cbn [orb]. rewrite Z.even_add, KE. cbn [Z.even Bool.eqb].
          destruct (Z.ltb_spec (get3 (beside p d (-1)) d) (get3 np d - 1)); [|lia]. split; [reflexivity|]. intros (_ & _ & Q). rewrite (neighbor_inside np _ d 1 Hl), BB in Q by (specialize (Hl d); lia). lia.
        + specialize (I4 _ d Hl GL ltac:(lia)). rewrite BB in I4. destruct (msg s (number np (beside p d (-1))) (number np p) d) as [v|] eqn:EM; [|contradiction].
          exists (number np p). eexists. split; [apply number_range, Hp|]. unfold next, sends_to_busy. rewrite Ep, (rank2proc_number np p Hp). fold d. destruct (Z.ltb_spec m 0); [lia|]. destruct (Z.leb_spec 6 m); [lia|]. cbn [orb]. rewrite KE.
          destruct (Z.ltb_spec 0 (get3 p d)); [|lia]. rewrite (neighbor_inside np p d (-1) Hp), EM by (specialize (Hp d); lia). split; [reflexivity|]. intros [Q _]. discriminate. }
    apply (GO (Z.to_nat (get3 p1 d)) p1 Hp1 (eq_sym Em)). specialize (Hp1 d). lia.
  - exists (number np p1). eexists. split; [apply number_range, Hp1|]. assert (LAST : get3 p1 d + 1 = get3 np d).
    { destruct (Z.eq_dec (get3 p1 d + 1) (get3 np d)) as [C|C]; [exact C|exfalso]. assert (G : get3 p1 d + 1 < get3 np d) by (specialize (Hp1 d); lia). pose proof (beside_inside np lm p1 d Hp1 G) as HB. specialize (MIN _ HB). specialize (I5 p1 d Hp1 G ltac:(lia)). lia. }
    unfold next, sends_to_busy. rewrite <- Em, (rank2proc_number np p1 Hp1). fold d. destruct (Z.ltb_spec m 0); [lia|]. destruct (Z.leb_spec 6 m); [lia|]. cbn [orb]. rewrite KE. destruct (Z.ltb_spec (get3 p1 d) (get3 np d - 1)); [lia|]. split; [reflexivity|]. intros (_ & Q & _). lia.
Qed.
Print Assumptions C77_progress.

Lemma zsum_upd f r v : forall n, 0 <= n -> zsum (map (upd f r v) (zrange 0 n)) = zsum (map f (zrange 0 n)) + (if (0 <=? r) && (r <? n) then v - f r else 0).
Proof.
  intros n Hn. pattern n. apply natlike_ind; [|clear n Hn; intros n Hn IH|exact Hn]; [cbn [map zrange]; rewrite zrange_empty by lia; cbn; destruct (Z.leb_spec 0 r), (Z.ltb_spec r 0); cbn; lia|].
  unfold Z.succ. rewrite zrange_snoc by exact Hn. rewrite !map_app, !zsum_app, IH. cbn [map zsum]. unfold upd at 1. destruct (Z.eqb_spec n r) as [-> | C]; destruct (Z.leb_spec 0 r); destruct (Z.ltb_spec r n) || destruct (Z.ltb_spec r r); try lia; repeat match goal with |- context [?a <? ?b] => destruct (Z.ltb_spec a b) end; cbn [andb]; lia.
Qed.

Lemma next_pc np lm s r s' : next np lm s r = Some s' -> pc s' = upd (pc s) r (pc s r + 1).
Proof.
  unfold next. destruct (_ || _); [discriminate|]. destruct (Z.even _); [destruct (0 <? _); [destruct (msg _ _ _ _); [|discriminate]|]|destruct (_ <? _)]; intros E; injection E as <-; reflexivity.
Qed.

Lemma reach_steps np lm size n s : 0 <= size -> reach np lm size n s -> zsum (map (pc s) (zrange 0 size)) = n.
Proof.
  intros H0 H. induction H as [|n s r s' _ IH Hr E].
  - cbn [init pc]. generalize (zrange 0 size). induction l as [|x l IH]; cbn [map zsum]; lia.
  - rewrite (next_pc np lm s r s' E), zsum_upd, IH by lia. destruct (Z.leb_spec 0 r); [|lia]. destruct (Z.ltb_spec r size); [|lia]. cbn [andb]. lia.
Qed.

Lemma zsum_bound (f : Z -> Z) m : forall l : list Z, (forall x, In x l -> f x <= m) -> zsum (map f l) <= m * Z.of_nat (List.length l) /\ (zsum (map f l) = m * Z.of_nat (List.length l) -> forall x, In x l -> f x = m).
Proof.
  induction l as [|y l IH]; intros H; [cbn; split; [lia|intros _ x []]|]. destruct (IH (fun x Hx => H x (or_intror Hx))) as [A B]. assert (C := H y (or_introl eq_refl)). cbn [map zsum List.length]. rewrite Nat2Z.inj_succ. unfold Z.succ. split; [lia|].
  intros E x [<- | Hx]; [lia|apply B; [lia|exact Hx]].
Qed.

(** the set-up ends, after six steps of each process, in whatever order *)
Theorem C77_ends : forall np lm n s, (forall d, 0 < get3 np d) -> reach np lm (c0 np * c1 np * c2 np) n s ->
  n <= 6 * (c0 np * c1 np * c2 np) /\ (n = 6 * (c0 np * c1 np * c2 np) <-> forall r, 0 <= r < c0 np * c1 np * c2 np -> pc s r = 6).
Proof.
  intros np lm n s P H. assert (S0 : 0 <= c0 np * c1 np * c2 np) by (pose proof (P D0); pose proof (P D1); pose proof (P D2); cbn [get3] in *; repeat apply Z.mul_nonneg_nonneg; lia).
  assert (E := reach_steps np lm _ n s S0 H). set (size := c0 np * c1 np * c2 np) in *. assert (L : Z.of_nat (List.length (zrange 0 size)) = size) by (rewrite zrange_length; lia).
  assert (B : forall x, In x (zrange 0 size) -> pc s x <= 6). { intros x Hx. apply in_zrange in Hx. destruct (rank2proc_inside np x P Hx) as [A <-]. apply (i_pc np lm s (inv_reach np lm n s P H) _ A). }
  destruct (zsum_bound (pc s) 6 _ B) as [U V]. rewrite L, E in *. split; [exact U|]. split; [intros Q r Hr; apply V; [exact Q|apply in_zrange, Hr]|].
  intros A. rewrite <- E. rewrite (map_ext_in (pc s) (fun _ => 6)) by (intros a Ha; apply in_zrange in Ha; apply A, Ha). rewrite <- L at 2. generalize (zrange 0 size). induction l as [|x l IH]; cbn [map zsum List.length]; [reflexivity|]. rewrite Nat2Z.inj_succ. lia.
Qed.
Print Assumptions C77_ends.

(** whatever has happened so far, the set-up can be brought to its end *)
Theorem C77_completes : forall np lm n s, (forall d, 0 < get3 np d) -> reach np lm (c0 np * c1 np * c2 np) n s -> exists s', reach np lm (c0 np * c1 np * c2 np) (6 * (c0 np * c1 np * c2 np)) s'.
Proof.
  intros np lm n s P H. remember (Z.to_nat (6 * (c0 np * c1 np * c2 np) - n)) as k eqn:Ek. revert n s H Ek. induction k as [|k IH]; intros n s H Ek; destruct (C77_ends np lm n s P H) as [L E].
  - exists s. replace (6 * (c0 np * c1 np * c2 np)) with n by lia. exact H.
  - assert (NE : exists r, 0 <= r < c0 np * c1 np * c2 np /\ pc s r <> 6).
    { destruct (existsb (fun r => negb (pc s r =? 6)) (zrange 0 (c0 np * c1 np * c2 np))) eqn:X; [apply existsb_exists in X; destruct X as (r & A & B); apply in_zrange in A; exists r; split; [exact A|]; intros Q; rewrite Q in B; discriminate|].
      exfalso. enough (n = 6 * (c0 np * c1 np * c2 np)) by lia. apply E. intros r Hr. destruct (Z.eqb_spec (pc s r) 6) as [C|C]; [exact C|exfalso]. assert (T : existsb (fun r => negb (pc s r =? 6)) (zrange 0 (c0 np * c1 np * c2 np)) = true) by (apply existsb_exists; exists r; split; [apply in_zrange, Hr|apply Z.eqb_neq in C; rewrite C; reflexivity]). congruence. }
    destruct (C77_progress np lm n s P H NE) as (r & s' & Hr & E' & _). apply (IH (n + 1) s'); [apply (reach_next np lm _ n s r s' H Hr E')|lia].
Qed.
Print Assumptions C77_completes.

Lemma upto_next f n : 0 <= n -> upto f (n + 1) = upto f n + f n.
Proof. intros H. unfold upto. rewrite zrange_snoc by exact H. rewrite map_app, zsum_app. cbn [map zsum]. lia. Qed.

Lemma upto_mono f n : (forall i, 0 <= i < n -> 0 <= f i) -> forall j, j <= n -> forall i, 0 <= i <= j -> upto f i <= upto f j.
Proof.
  intros F j Hj i Hi. replace j with (i + (j - i)) in * by lia. revert Hj. pattern (j - i). apply natlike_ind; [rewrite Z.add_0_r; lia| |lia]. intros k Hk IH Hj. unfold Z.succ in *. rewrite Z.add_assoc, upto_next by lia. specialize (IH ltac:(lia)). specialize (F (i + k) ltac:(lia)). lia.
Qed.

Lemma upto_find f n x : 0 <= n -> (forall i, 0 <= i < n -> 0 <= f i) -> 0 <= x < upto f n -> exists i, 0 <= i < n /\ upto f i <= x < upto f i + f i /\ forall j, 0 <= j < n -> upto f j <= x < upto f j + f j -> j = i.
Proof.
  intros Hn F Hx. assert (EX : exists i, 0 <= i < n /\ upto f i <= x < upto f i + f i).
  { revert F Hx. pattern n. apply natlike_ind; [cbn; lia| |exact Hn]. clear n Hn. intros n Hn IH F Hx. unfold Z.succ in *. rewrite upto_next in Hx by exact Hn. destruct (Z_lt_le_dec x (upto f n)) as [C|C]; [destruct (IH ltac:(intros; apply F; lia) ltac:(lia)) as (i & A & B); exists i; split; [lia|exact B]|]. exists n. split; lia. }
  destruct EX as (i & Hi & Bi). exists i. split; [exact Hi|]. split; [exact Bi|]. intros j Hj Bj. destruct (Z.lt_trichotomy i j) as [C|[C|C]]; [|symmetry; exact C|]; exfalso.
  - assert (M := upto_mono f n F j ltac:(lia) (i + 1) ltac:(lia)). rewrite upto_next in M by lia. lia.
  - assert (M := upto_mono f n F i ltac:(lia) (j + 1) ltac:(lia)). rewrite upto_next in M by lia. lia.
Qed.

Lemma upto_ext f g n : (forall i, 0 <= i < n -> f i = g i) -> upto f n = upto g n.
Proof. intros H. unfold upto. f_equal. apply map_ext_in. intros i Hi. apply H, in_zrange, Hi. Qed.

Lemma done_off np lm s l : (forall d, 0 < get3 np d) -> reach np lm (c0 np * c1 np * c2 np) (6 * (c0 np * c1 np * c2 np)) s -> fits np lm l ->
  forall p d, inside np p -> off s (number np p) d = upto (l d) (get3 p d) /\ get3 (lm (number np p)) d = l d (get3 p d).
Proof.
  intros P H F p d Hp. destruct (C77_ends np lm _ s P H) as [_ [A _]]. specialize (A eq_refl). rewrite (C77_offsets np lm _ s p d P H Hp) by (rewrite (A _ (number_range np p Hp)); destruct d; cbn; lia). split; [|apply F, Hp].
  apply upto_ext. intros i Hi. assert (Hs : inside np (set3 p d i)) by (apply inside_set; [exact Hp|]; specialize (Hp d); lia). rewrite (proj1 (F _ d Hs)), get3_set3_same. reflexivity.
Qed.

(** if the numbers of cells fit together, the patches tile the domain: every cell is in exactly one *)
Theorem C77_tiles : forall np lm s l, (forall d, 0 < get3 np d) -> reach np lm (c0 np * c1 np * c2 np) (6 * (c0 np * c1 np * c2 np)) s -> fits np lm l ->
  (forall d, get3 (last_gdims np lm s) d = upto (l d) (get3 np d)) /\
  forall x : V3 Z, (forall d, 0 <= get3 x d < get3 (last_gdims np lm s) d) -> exists p, inside np p /\ (forall d, off s (number np p) d <= get3 x d < off s (number np p) d + get3 (lm (number np p)) d) /\
    forall q, inside np q -> (forall d, off s (number np q) d <= get3 x d < off s (number np q) d + get3 (lm (number np q)) d) -> q = p.
Proof.
  intros np lm s l P H F. assert (D := done_off np lm s l P H F).
  assert (HL : inside np (gen3 (fun d => get3 np d - 1))) by (intros d; rewrite get3_gen3; specialize (P d); lia).
  assert (G : forall d, get3 (last_gdims np lm s) d = upto (l d) (get3 np d)).
  { intros d. unfold last_gdims. rewrite get3_gen3, (proc2rank_number np _ HL). destruct (D _ d HL) as [-> ->]. rewrite get3_gen3. replace (get3 np d) with (get3 np d - 1 + 1) at 3 by lia. rewrite upto_next by (specialize (P d); lia). reflexivity. }
  split; [exact G|]. intros x Hx. assert (NN : forall d i, 0 <= i < get3 np d -> 0 <= l d i).
  { intros d i Hi. assert (Hs : inside np (set3 (gen3 (fun d => get3 np d - 1)) d i)) by (apply inside_set; assumption). destruct (F _ d Hs) as [_ Q]. rewrite get3_set3_same in Q. exact Q. }
  assert (FD : forall d, exists i, 0 <= i < get3 np d /\ upto (l d) i <= get3 x d < upto (l d) i + l d i /\ forall j, 0 <= j < get3 np d -> upto (l d) j <= get3 x d < upto (l d) j + l d j -> j = i).
  { intros d. apply upto_find; [specialize (P d); lia|apply NN|]. rewrite <- G. apply Hx. }
  destruct (FD D0) as (i0 & A0 & B0 & U0). destruct (FD D1) as (i1 & A1 & B1 & U1). destruct (FD D2) as (i2 & A2 & B2 & U2). exists (v3 i0 i1 i2). assert (HI : inside np (v3 i0 i1 i2)) by (intros [| |]; cbn [get3 SimpleModel.pc]; assumption).
  split; [exact HI|]. split; [intros d; destruct (D _ d HI) as [-> ->]; destruct d; assumption|].
  intros q Hq HB. apply v3_ext. intros d. specialize (HB d). destruct (D q d Hq) as [E1 E2]. rewrite E1, E2 in HB. specialize (Hq d). destruct d; cbn [get3] in *; [apply U0|apply U1|apply U2]; assumption.
Qed.
Print Assumptions C77_tiles.

Lemma upto_const a n : 0 <= n -> upto (fun _ => a) n = n * a.
Proof. intros H. pattern n. apply natlike_ind; [reflexivity| |exact H]. intros k Hk IH. unfold Z.succ. rewrite upto_next, IH by exact Hk. ring. Qed.

(** The full statement: get_global_patch_info tells size and offset of the patch of each process.  False if processes are given different numbers of cells (below).
    Proved: if none is given, every process has gdims / np cells, the offsets and the global numbers are those, and the information agrees. *)
Theorem C77_info_partial : forall size gdims np0 np ld s, (forall d, 0 < get3 np0 d) -> (forall d, 0 <= get3 gdims d) -> setup_dims size gdims np0 (v3 0 0 0) = Some (np, ld) ->
  reach np (fun _ => ld) size (6 * size) s -> last_gdims np (fun _ => ld) s = gdims /\
  forall p, inside np p -> global_patch_info np gdims (number np p) = Some (p, ld, gen3 (off s (number np p))) /\ 0 <= number np p < size.
Proof.
  intros size gdims np0 np ld s P0 G0 HS HR. unfold setup_dims in HS. cbv zeta in HS. set (one := (size =? 1) && (1 <? c0 np0 * c1 np0 * c2 np0)) in HS. replace (if one then v3 0 0 0 else v3 0 0 0) with (v3 0 0 0) in HS by (destruct one; reflexivity).
  set (np1 := if one then v3 1 1 1 else np0) in HS. assert (P : forall d, 0 < get3 np1 d) by (unfold np1; destruct one; [intros [| |]; cbn; lia|exact P0]). clearbody np1. clear one. destruct (forallb _ dims3) eqn:OK; [|discriminate]. cbn [andb] in HS.
  destruct (Z.eqb_spec (c0 np1 * c1 np1 * c2 np1) size) as [ES|]; [|discriminate]. subst size. injection HS as E1 E2. rewrite <- E1 in *. clear E1 np.
  assert (DIV : forall d, Z.rem (get3 gdims d) (get3 np1 d) = 0). { intros d. rewrite forallb_forall in OK. specialize (OK d (in_dims3 d)). replace (get3 (v3 0 0 0) d) with 0 in OK by (destruct d; reflexivity). cbn in OK. apply andb_true_iff in OK. apply Z.eqb_eq. apply OK. }
  assert (LD : forall d, get3 ld d = Z.quot (get3 gdims d) (get3 np1 d)) by (intros d; rewrite <- E2, get3_gen3; destruct d; reflexivity). assert (LE : gen3 (fun d => Z.quot (get3 gdims d) (get3 np1 d)) = ld) by (apply v3_ext; intros d; rewrite get3_gen3, LD; reflexivity).
  assert (F : fits np1 (fun _ => ld) (fun d _ => get3 ld d)) by (intros p d _; split; [reflexivity|]; rewrite LD; specialize (P d); specialize (G0 d); apply Z.quot_pos; lia).
  destruct (C77_tiles np1 _ s _ P HR F) as [G _]. split.
  - apply v3_ext. intros d. rewrite G, upto_const by (specialize (P d); lia). rewrite LD. pose proof (Z.quot_rem' (get3 gdims d) (get3 np1 d)) as Q. rewrite (DIV d) in Q. lia.
  - intros p Hp. split; [|apply number_range, Hp]. unfold global_patch_info. rewrite (rank2proc_number np1 p Hp), LE. replace (forallb _ dims3) with true by (symmetry; apply forallb_forall; intros d _; rewrite (DIV d); reflexivity).
    do 2 f_equal. apply v3_ext. intros d. rewrite !get3_gen3. rewrite (proj1 (done_off np1 _ s _ P HR F p d Hp)), upto_const by (specialize (Hp d); lia). reflexivity.
Qed.
Print Assumptions C77_info_partial.

(** which numbers are accepted: one process takes the whole domain, whatever it is told; else there has to be a process for every patch; numbers of cells that are given
    are taken, and for those that are not (0) the number of processes has to divide the number of cells *)
Theorem C77_accepts : forall size gdims np lm, (forall d, 0 < get3 np d) ->
  (size = 1 -> 1 < c0 np * c1 np * c2 np -> setup_dims size gdims np lm = Some (v3 1 1 1, gdims)) /\
  (size = c0 np * c1 np * c2 np -> (forall d, get3 lm d = 0 -> Z.divide (get3 np d) (get3 gdims d)) ->
     exists ld, setup_dims size gdims np lm = Some (np, ld) /\ forall d, (get3 lm d <> 0 -> get3 ld d = get3 lm d) /\ (get3 lm d = 0 -> get3 ld d * get3 np d = get3 gdims d)) /\
  (size <> 1 -> size <> c0 np * c1 np * c2 np \/ (exists d, get3 lm d = 0 /\ ~ Z.divide (get3 np d) (get3 gdims d)) -> setup_dims size gdims np lm = None).
Proof.
  intros size gdims np lm P. unfold setup_dims. cbv zeta. split; [|split].
  - intros -> H. destruct (Z.ltb_spec 1 (c0 np * c1 np * c2 np)); [|lia]. cbn [Z.eqb Pos.eqb andb get3 c0 c1 c2 forallb dims3 negb orb]. rewrite !Z.rem_1_r. cbn. unfold gen3. cbn [get3 c0 c1 c2]. cbn [Z.eqb]. rewrite !Z.quot_1_r. destruct gdims; reflexivity.
  - intros E H. assert (O : (size =? 1) && (1 <? c0 np * c1 np * c2 np) = false) by (destruct (Z.eqb_spec size 1); [|reflexivity]; destruct (Z.ltb_spec 1 (c0 np * c1 np * c2 np)); [lia|reflexivity]). rewrite O.
    assert (OK : forallb (fun d => negb (get3 lm d =? 0) || (negb (get3 np d =? 0) && (Z.rem (get3 gdims d) (get3 np d) =? 0))) dims3 = true).
    { apply forallb_forall. intros d _. destruct (Z.eqb_spec (get3 lm d) 0) as [C|C]; [|reflexivity]. specialize (P d). destruct (Z.eqb_spec (get3 np d) 0); [lia|]. destruct (H d C) as (m & Em). rewrite Em, Z.rem_mul by lia. reflexivity. }
    rewrite OK, <- E, Z.eqb_refl. eexists. split; [reflexivity|]. intros d. rewrite get3_gen3. destruct (Z.eqb_spec (get3 lm d) 0) as [C|C]; [|split; [reflexivity|contradiction]]. split; [contradiction|]. intros _. destruct (H d C) as (m & Em). rewrite Em. specialize (P d). rewrite Z.quot_mul by lia. reflexivity.
  - intros N1 H. destruct (Z.eqb_spec size 1); [contradiction|]. cbn [andb]. destruct H as [H|(d & C & H)].
    + destruct (Z.eqb_spec (c0 np * c1 np * c2 np) size); [congruence|]. rewrite andb_false_r. reflexivity.
    + destruct (forallb _ dims3) eqn:F; [|reflexivity]. exfalso. rewrite forallb_forall in F. specialize (F d (in_dims3 d)). rewrite C in F. cbn in F. apply andb_true_iff in F. destruct F as [_ F]. apply Z.eqb_eq in F. apply H. apply Z.rem_divide; [specialize (P d); lia|exact F].
Qed.
Print Assumptions C77_accepts.

(** two processes with 3 and 5 cells: the second patch starts at 3 and has 5 cells; the information says 4 and 4 *)
Definition uneven (r : Z) : V3 Z := v3 (if r =? 0 then 3 else 5) 1 1.
Definition take (s : option st) (r : Z) : option st := match s with Some s => next (v3 2 1 1) uneven s r | None => None end.

Theorem C77_info_refuted : exists np lm s, reach np lm (c0 np * c1 np * c2 np) (6 * (c0 np * c1 np * c2 np)) s /\ (exists l, fits np lm l) /\ last_gdims np lm s = v3 8 1 1 /\
  inside np (v3 1 0 0) /\ number np (v3 1 0 0) = 1 /\ off s 1 D0 = 3 /\ c0 (lm 1) = 5 /\ global_patch_info np (v3 8 1 1) 1 = Some (v3 1 0 0, v3 4 1 1, v3 4 0 0).
Proof.
  exists (v3 2 1 1), uneven. set (sch := [0; 0; 1; 1; 0; 1; 0; 0; 0; 1; 1; 1]).
  assert (K : forall l n s, (forall r, In r l -> 0 <= r < 2) -> reach (v3 2 1 1) uneven 2 n s -> forall s', fold_left take l (Some s) = Some s' -> reach (v3 2 1 1) uneven 2 (n + Z.of_nat (List.length l)) s').
  { induction l as [|r l IH]; intros n s HR R s' E; [cbn in E; injection E as <-; rewrite Z.add_0_r; exact R|]. cbn [fold_left take] in E. destruct (next (v3 2 1 1) uneven s r) as [s1|] eqn:E1; [|exfalso; clear - E; induction l; [discriminate|auto]].
    cbn [List.length]. rewrite Nat2Z.inj_succ. replace (n + Z.succ (Z.of_nat (List.length l))) with (n + 1 + Z.of_nat (List.length l)) by lia. apply (IH (n + 1) s1); [intros x Hx; apply HR; right; exact Hx| |exact E]. apply (reach_next _ _ _ n s r s1 R); [apply HR; left; reflexivity|exact E1]. }
  destruct (fold_left take sch (Some init)) as [s|] eqn:E; [|vm_compute in E; discriminate]. exists s. split; [apply (K sch 0 init); [intros r Hr; cbn in Hr; lia|constructor|exact E]|].
  split; [exists (fun d i => match d with D0 => if i =? 0 then 3 else 5 | _ => 1 end); intros p d Hp; pose proof (Hp D0) as A; pose proof (Hp D1) as B; pose proof (Hp D2) as C; destruct p as [x y z]; unfold number, uneven; cbn [get3 c0 c1 c2] in *;
    assert (y = 0) by lia; assert (z = 0) by lia; subst y z; assert (x = 0 \/ x = 1) as [-> | ->] by lia; destruct d; cbn; lia|].
  vm_compute in E. injection E as <-. split; [reflexivity|]. split; [intros [| |]; cbn; lia|]. repeat split.
Qed.
Print Assumptions C77_info_refuted.

(** neighbours, periodic or not *)
Theorem C77_neighbors : forall np (periodic : V3 bool) p dir, inside np p -> (forall d, -1 <= get3 dir d <= 1) ->
  (exists q, inside np q /\ (forall d, if get3 periodic d then exists m, get3 q d = get3 p d + get3 dir d + m * get3 np d else get3 q d = get3 p d + get3 dir d) /\
     get_neighbor_rank_patch np periodic (number np p) dir = (number np q, 0)) \/
  (exists d, get3 periodic d = false /\ ~ 0 <= get3 p d + get3 dir d < get3 np d) /\ get_neighbor_rank_patch np periodic (number np p) dir = (-1, -1).
Proof.
  intros np periodic p dir Hp Hd. unfold get_neighbor_rank_patch. rewrite (rank2proc_number np p Hp).
  assert (K : forall d, (exists j, nei1 (get3 periodic d) (get3 np d) (get3 p d) (get3 dir d) = Some j /\ 0 <= j < get3 np d /\ (if get3 periodic d then exists m, j = get3 p d + get3 dir d + m * get3 np d else j = get3 p d + get3 dir d)) \/
    (nei1 (get3 periodic d) (get3 np d) (get3 p d) (get3 dir d) = None /\ get3 periodic d = false /\ ~ 0 <= get3 p d + get3 dir d < get3 np d)).
  { intros d. specialize (Hp d). specialize (Hd d). unfold nei1. set (i := get3 p d) in *. set (n := get3 np d) in *. set (e := get3 dir d) in *. destruct (get3 periodic d).
    - left. destruct (Z.ltb_spec (i + e) 0).
      + destruct (Z.leb_spec n (i + e + n)); [lia|]. destruct (Z.ltb_spec (i + e + n) 0); [lia|]. destruct (Z.leb_spec n (i + e + n)); [lia|]. eexists. split; [reflexivity|]. split; [lia|exists 1; lia].
      + destruct (Z.leb_spec n (i + e)).
        * destruct (Z.ltb_spec (i + e - n) 0); [lia|]. destruct (Z.leb_spec n (i + e - n)); [lia|]. eexists. split; [reflexivity|]. split; [lia|exists (-1); lia].
        * destruct (Z.ltb_spec (i + e) 0); [lia|]. destruct (Z.leb_spec n (i + e)); [lia|]. eexists. split; [reflexivity|]. split; [lia|exists 0; lia].
    - destruct (Z.ltb_spec (i + e) 0); [right; split; [reflexivity|split; [reflexivity|lia]]|]. destruct (Z.leb_spec n (i + e)); [right; split; [reflexivity|split; [reflexivity|lia]]|]. left. eexists. split; [reflexivity|]. split; [lia|reflexivity]. }
  destruct (K D0) as [(a & -> & A1 & A2)|(-> & A1 & A2)]; [|right; split; [exists D0; split; assumption|reflexivity]].
  destruct (K D1) as [(b & -> & B1 & B2)|(-> & B1 & B2)]; [|right; split; [exists D1; split; assumption|reflexivity]].
  destruct (K D2) as [(c & -> & C1 & C2)|(-> & C1 & C2)]; [|right; split; [exists D2; split; assumption|reflexivity]].
  left. exists (v3 a b c). assert (HI : inside np (v3 a b c)) by (intros [| |]; assumption). split; [exact HI|]. split; [intros [| |]; assumption|]. rewrite (proc2rank_number np _ HI). reflexivity.
Qed.
Print Assumptions C77_neighbors.

(** * Examples *)

(** 12 processes; rank 7 is at (1, 0, 1) *)
Example ex_C77 : inside (v3 3 2 2) (v3 1 0 1) /\ number (v3 3 2 2) (v3 1 0 1) = 7 /\ setup_dims 12 (v3 30 20 8) (v3 3 2 2) (v3 0 0 0) = Some (v3 3 2 2, v3 10 10 4) /\
  get_neighbor_rank_patch (v3 3 2 2) (v3 true true false) 7 (v3 1 (-1) 0) = (number (v3 3 2 2) (v3 2 1 1), 0) /\ get_neighbor_rank_patch (v3 3 2 2) (v3 true true false) 7 (v3 0 0 1) = (-1, -1) /\
  before (v3 3 2 2) (fun r => v3 (r + 1) 1 1) (v3 2 0 1) D0 = 7 + 8.
Proof. split; [intros [| |]; cbn; lia|]. vm_compute. auto 10. Qed.


(** a set-up that has come to its end *)
Example ex_C77_run : exists s, reach (v3 3 2 2) (fun _ => v3 10 10 4) 12 (6 * 12) s /\ fits (v3 3 2 2) (fun _ => v3 10 10 4) (fun d _ => get3 (v3 10 10 4) d).
Proof.
  destruct (C77_completes (v3 3 2 2) (fun _ => v3 10 10 4) 0 init ltac:(intros [| |]; cbn; lia) (reach_init _ _ _)) as (s & H). exists s. split; [exact H|]. intros p d _. split; [reflexivity|destruct d; cbn; lia].
Qed.
