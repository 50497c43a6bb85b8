(** Proofs about the collisions on the GPU: the pairs, and the kernel that collides them. *)
From Coq Require Import Reals Lra Permutation Sorted.
From Verif Require Import Base Arr RSum FieldModel BinColModel BinColProps CudaPrtModel CudaPrtSpec CudaPrtProofs CudaLaunchModel CudaLaunchSpec CudaLaunchProofs CudaPushProofs CudaSharedProofs CudaCollModel CudaCollSpec CudaCollProofs BalanceCommProofs UidProofs SetupProofs GhostProofs.
Local Open Scope Z_scope.

(** ** The pairs *)

Lemma nudt_strength nudt0 k : 0 <= k -> nudt_of nudt0 k = strength nudt0 k.
Proof.
  intros H. unfold nudt_of, strength. do 2 f_equal. change (Z.ldiff k 1) with (Z.ldiff k (Z.ones 1)). rewrite Z.ldiff_ones_r by lia.
  rewrite Z.shiftl_mul_pow2, Z.shiftr_div_pow2 by lia. change (2 ^ 1) with 2. apply Z.mul_comm.
Qed.

Lemma concat_flat_map {A B} (f : A -> list (list B)) l : concat (flat_map f l) = flat_map (fun a => concat (f a)) l.
Proof. induction l as [|a l IH]; [reflexivity|]. cbn [flat_map]. rewrite concat_app, IH. reflexivity. Qed.

Section Tasks.
Context (g : geom) (nudt0 : R) (Q : list (Z * Z)).
Let ncl := n_cells g.
Hypothesis Hncl : 0 <= ncl.

(** the [n]-th of the sorted slots *)
Definition idf (n : Z) : Z := match aget Q n with Some w => snd w | None => 0 end.

Definition starts_of (tid q : Z) : list (Z * Z) := map (pair q) (strided (cnt Q q + 2 * tid) (cnt Q (q + 1) - 1) (2 * coll_tpb)).

Definition all_starts : list (Z * Z) :=
  flat_map (fun b => flat_map (fun tid => flat_map (starts_of tid) (strided b ncl (coll_grid g))) (zrange 0 coll_tpb)) (zrange 0 (coll_grid g)).

Definition task_of (qn : Z * Z) : ctask :=
  mkct (idf (snd qn)) (idf (snd qn + 1)) (fst qn / n_cells_per_patch g) (nudt_of nudt0 (cnt Q (fst qn + 1) - cnt Q (fst qn))).

Lemma in_starts_of tid q qn : In qn (starts_of tid q) <-> fst qn = q /\ cnt Q q + 2 * tid <= snd qn < cnt Q (q + 1) - 1 /\ (2 * coll_tpb | snd qn - (cnt Q q + 2 * tid)).
Proof.
  unfold starts_of. rewrite in_map_iff. split.
  - intros (n & <- & H). apply in_strided in H; [|reflexivity]. cbn [fst snd]. auto.
  - destruct qn as [q' n]. cbn [fst snd]. intros (-> & H). exists n. split; [reflexivity|]. apply in_strided; [reflexivity|exact H].
Qed.

Lemma coll_grid_pos : 0 < ncl -> 0 < coll_grid g.
Proof. unfold coll_grid. fold ncl. destruct (ncl >? 1024); lia. Qed.

Lemma in_all_starts q n : In (q, n) all_starts <-> 0 <= q < ncl /\ cnt Q q <= n /\ n + 1 < cnt Q (q + 1) /\ (2 | n - cnt Q q).
Proof.
  unfold all_starts. rewrite in_flat_map. split.
  - intros (b & Hb & H). apply in_zrange in Hb. apply in_flat_map in H. destruct H as (tid & Ht & H). apply in_zrange in Ht. apply in_flat_map in H.
    destruct H as (q' & Hq & H). apply in_strided in Hq; [|lia]. apply in_starts_of in H. cbn [fst snd] in H. destruct H as (<- & H & [z Hz]).
    split; [lia|]. split; [lia|]. split; [lia|]. exists (z * coll_tpb + tid). lia.
  - intros (Hq & H1 & H2 & [z Hz]). assert (G : 0 < coll_grid g) by (apply coll_grid_pos; lia).
    pose proof (Z.mod_pos_bound q (coll_grid g) G) as Mq. pose proof (Z.div_mod q (coll_grid g) ltac:(lia)) as Dq.
    exists (q mod coll_grid g). split; [apply in_zrange; lia|]. apply in_flat_map.
    exists (z mod coll_tpb). pose proof (Z.mod_pos_bound z coll_tpb eq_refl) as Mz. split; [apply in_zrange; lia|]. apply in_flat_map.
    pose proof (Z.div_mod z coll_tpb ltac:(discriminate)) as Dz.
    exists q. split.
    + apply in_strided; [exact G|]. split; [|exists (q / coll_grid g); lia]. split; [|lia]. pose proof (Z.div_pos q (coll_grid g) ltac:(lia) G). nia.
    + apply in_starts_of. cbn [fst snd]. split; [reflexivity|]. assert (0 <= z / coll_tpb) by (apply Z.div_pos; [lia|reflexivity]). unfold coll_tpb in *.
      split; [lia|]. exists (z / 128). lia.
Qed.

Lemma NoDup_all_starts : NoDup all_starts.
Proof.
  unfold all_starts. apply NoDup_flat_map with (k := fun qn => fst qn mod coll_grid g); [apply NoDup_zrange| |].
  - intros b qn Hb H. apply in_zrange in Hb. apply in_flat_map in H. destruct H as (tid & _ & H). apply in_flat_map in H. destruct H as (q & Hq & H).
    apply in_starts_of in H. destruct H as (-> & _). apply in_strided in Hq; [|lia]. destruct Hq as [_ [z Hz]]. symmetry. apply (Z.mod_unique_pos _ _ z); lia.
  - intros b Hb. apply in_zrange in Hb. apply NoDup_flat_map with (k := fun qn => ((snd qn - cnt Q (fst qn)) / 2) mod coll_tpb); [apply NoDup_zrange| |].
    + intros tid qn Ht H. apply in_zrange in Ht. apply in_flat_map in H. destruct H as (q & _ & H). apply in_starts_of in H. destruct H as (-> & _ & [z Hz]).
      replace (snd qn - cnt Q q) with ((z * coll_tpb + tid) * 2) by lia. rewrite Z.div_mul by lia. symmetry. apply (Z.mod_unique_pos _ _ z); lia.
    + intros tid Ht. apply NoDup_flat_map with (k := fst); [apply NoDup_strided; lia| |].
      * intros q qn _ H. apply in_starts_of in H. apply H.
      * intros q _. unfold starts_of. apply NoDup_map_in; [intros x y _ _ E; injection E; auto|]. apply NoDup_strided. reflexivity.
Qed.

Lemma coll_tasks_ok : coll_tasks g nudt0 (map (cnt Q) (zrange 0 (ncl + 1))) (map snd Q) = Some (map task_of all_starts).
Proof.
  unfold coll_tasks. fold ncl.
  assert (CT : forall tid q, 0 <= tid -> 0 <= q < ncl -> cell_tasks g nudt0 (map (cnt Q) (zrange 0 (ncl + 1))) (map snd Q) tid q = Some (map task_of (starts_of tid q))).
  { intros tid q Ht Hq. unfold cell_tasks. rewrite !aget_map, !aget_zrange.
    replace ((0 <=? q) && (q <? ncl + 1 - 0)) with true by (symmetry; lia). replace ((0 <=? q + 1) && (q + 1 <? ncl + 1 - 0)) with true by (symmetry; lia). cbn [option_map].
    replace (0 + q) with q by lia. replace (0 + (q + 1)) with (q + 1) by lia. unfold starts_of. rewrite map_map. apply all_some_ext. intros n Hn. apply in_strided in Hn; [|reflexivity].
    pose proof (cnt_bounds Q q). pose proof (cnt_bounds Q (q + 1)). rewrite !aget_map. destruct (aget_some Q n ltac:(lia)) as [w Ew]. destruct (aget_some Q (n + 1) ltac:(lia)) as [w' Ew'].
    unfold task_of, idf. cbn [fst snd]. rewrite Ew, Ew'. reflexivity. }
  assert (E : flat_map (fun b => flat_map (fun tid => map (cell_tasks g nudt0 (map (cnt Q) (zrange 0 (ncl + 1))) (map snd Q) tid) (strided b ncl (coll_grid g))) (zrange 0 coll_tpb)) (zrange 0 (coll_grid g))
    = map Some (flat_map (fun b => flat_map (fun tid => map (fun q => map task_of (starts_of tid q)) (strided b ncl (coll_grid g))) (zrange 0 coll_tpb)) (zrange 0 (coll_grid g)))).
  { rewrite map_flat_map. apply flat_map_ext_in'. intros b Hb. apply in_zrange in Hb. rewrite map_flat_map. apply flat_map_ext_in'. intros tid Ht. apply in_zrange in Ht.
    rewrite map_map. apply map_ext_in. intros q Hq. apply in_strided in Hq; [|lia]. apply CT; lia. }
  rewrite E, all_some_map. cbn [option_map]. f_equal.
  unfold all_starts. rewrite concat_flat_map, map_flat_map. apply flat_map_ext_in'. intros b _. rewrite concat_flat_map, map_flat_map. apply flat_map_ext_in'. intros tid _.
  rewrite concat_map_flat, map_flat_map. reflexivity.
Qed.
End Tasks.

(** ** The kernel *)

Lemma NoDup_aget {A} (l : list A) i j x : NoDup l -> aget l i = Some x -> aget l j = Some x -> i = j.
Proof.
  intros ND E1 E2. pose proof (aget_bounds _ _ _ E1) as B1. pose proof (aget_bounds _ _ _ E2) as B2. unfold aget in *.
  destruct (i <? 0) eqn:Li; [lia|]. destruct (j <? 0) eqn:Lj; [lia|]. rewrite NoDup_nth_error in ND.
  assert (Z.to_nat i = Z.to_nat j); [|lia]. apply ND; [unfold alen in *; lia|congruence].
Qed.

Lemma NoDup_app_split {A} (l1 l2 : list A) : NoDup (l1 ++ l2) -> NoDup l2 /\ forall x, In x l1 -> In x l2 -> False.
Proof.
  induction l1 as [|a l1 IH]; cbn [app]; intros H; [split; [exact H|intros x []]|]. inversion H as [|b_ l_ Na ND]; subst b_ l_. destruct (IH ND) as [I1 I2].
  split; [exact I1|]. intros x [->|Hx] Hx2; [apply Na, in_or_app; right; exact Hx2|]. exact (I2 x Hx Hx2).
Qed.

Definition slots_of (t : ctask) : list Z := [t_a t; t_b t].

Lemma slots_inj ts k k' t t' n : NoDup (flat_map slots_of ts) -> nth_error ts k = Some t -> nth_error ts k' = Some t' -> In n (slots_of t) -> In n (slots_of t') -> k = k'.
Proof.
  revert k k'. induction ts as [|s ts IH]; intros k k' ND E E' H H'; [destruct k; discriminate|].
  cbn [flat_map] in ND. destruct (NoDup_app_split _ _ ND) as [ND2 DJ]. destruct k as [|k], k' as [|k']; cbn [nth_error] in E, E'.
  - reflexivity.
  - exfalso. injection E as ->. apply nth_error_In in E'. apply (DJ n H). apply in_flat_map. exists t'. auto.
  - exfalso. injection E' as ->. apply nth_error_In in E. apply (DJ n H'). apply in_flat_map. exists t. auto.
  - f_equal. eapply IH; eassumption.
Qed.

Section Race.
Context (g : geom) (rnd : nat -> R * R) (ts : list ctask) (st0 : list cuprt) (l : list event).
Hypothesis Hnd : NoDup (flat_map slots_of ts).
Hypothesis Hts : forall t, In t ts -> t_a t <> t_b t /\ exists x y i, aget st0 (t_a t) = Some x /\ aget st0 (t_b t) = Some y /\
  valid_cell_index g (cu_pos x) (t_p t) = Some i /\ valid_cell_index g (cu_pos y) (t_p t) = Some i /\
  (0 < cp_m (cu_c x) /\ 0 < cp_m (cu_c y) /\ 0 < t_nu t)%R.
Hypothesis Hrnd : forall k, (0 < fst (rnd k) <= 1 /\ 0 < snd (rnd k) <= 1)%R.
Hypothesis Hl : schedule (length ts) l.

(** what the [k]-th pair is to leave *)
Definition left_by (k : nat) (st : list cuprt) : Prop := forall t x y, nth_error ts k = Some t -> aget st0 (t_a t) = Some x -> aget st0 (t_b t) = Some y ->
  exists u v w, collide (cp_m (cu_c x)) (cp_m (cu_c y)) (cp_q (cu_c x)) (cp_q (cu_c y)) (cp_u (cu_c x)) (cp_u (cu_c y)) (t_nu t) (fst (rnd k)) (snd (rnd k)) = Some (u, v, w) /\
    aget st (t_a t) = Some (set_u x u) /\ aget st (t_b t) = Some (set_u y v).

Definition rinv (pre : list event) (s : list cuprt * (nat -> option (cuprt * cuprt))) : Prop :=
  alen (fst s) = alen st0 /\ (forall k, In (Wr k) pre -> left_by k (fst s)) /\
  (forall n, (forall k t, In (Wr k) pre -> nth_error ts k = Some t -> ~ In n (slots_of t)) -> aget (fst s) n = aget st0 n) /\
  (forall k t, In (Rd k) pre -> nth_error ts k = Some t -> exists x y, snd s k = Some (x, y) /\ aget st0 (t_a t) = Some x /\ aget st0 (t_b t) = Some y).

Lemma csched_lt e : In e l -> (match e with Rd k | Wr k => k end < length ts)%nat.
Proof.
  intros H. apply (Permutation_in _ (proj1 Hl)) in H. apply in_app_or in H. destruct H as [H|H]; apply in_map_iff in H; destruct H as (k & <- & H); apply in_seq in H; lia.
Qed.

Lemma csched_nodup : NoDup l.
Proof.
  apply (Permutation_NoDup (Permutation_sym (proj1 Hl))). apply DomainProofs.NoDup_app_intro.
  - apply NoDup_map_in; [intros x y _ _ E; injection E; auto|apply seq_NoDup].
  - apply NoDup_map_in; [intros x y _ _ E; injection E; auto|apply seq_NoDup].
  - intros e H1 H2. apply in_map_iff in H1. apply in_map_iff in H2. destruct H1 as (i & <- & _), H2 as (j & E & _). discriminate.
Qed.

Lemma coll_inv l2 : forall l1 s, l = l1 ++ l2 -> rinv l1 s -> exists s', coll_evs g rnd ts s l2 = Some s' /\ rinv l s'.
Proof.
  induction l2 as [|e l2 IH]; intros l1 [st reg] E I.
  - rewrite app_nil_r in E. subst l1. exists (st, reg). split; [reflexivity|exact I].
  - assert (Hlt := csched_lt e). rewrite E in Hlt at 1. specialize (Hlt ltac:(apply in_or_app; right; left; reflexivity)).
    assert (ND := csched_nodup). rewrite E in ND. assert (Ne : ~ In e l1) by (apply NoDup_remove_2 in ND; intros X; apply ND, in_or_app; left; exact X).
    assert (E' : l = (l1 ++ [e]) ++ l2) by (rewrite <- app_assoc; exact E).
    cbn [coll_evs]. destruct I as (I1 & I2 & I3 & I4). cbn [fst snd] in I1, I2, I3, I4. destruct e as [k|k].
    + destruct (nth_error ts k) as [t|] eqn:Ek; [|apply nth_error_None in Ek; lia].
      destruct (Hts t (nth_error_In _ _ Ek)) as (_ & x & y & i & Ex & Ey & Vx & Vy & _).
      assert (Nw : ~ In (Wr k) l1).
      { intros X. apply in_split in X. destruct X as (la & lb & ->). apply Ne. apply in_or_app. left.
        apply (proj2 Hl k la (lb ++ Rd k :: l2)). rewrite E, <- app_assoc. reflexivity. }
      assert (SAME : forall n, In n (slots_of t) -> aget st n = aget st0 n).
      { intros n Hn. apply I3. intros j t' Hj Ej Hn'. assert (j = k) by (eapply slots_inj; eassumption). subst j. contradiction. }
      unfold coll_ev. rewrite Ek. cbn [bind]. rewrite (SAME (t_a t)) by (left; reflexivity). rewrite (SAME (t_b t)) by (right; left; reflexivity).
      rewrite Ex, Ey. cbn [bind]. rewrite Vx, Vy. cbn [bind]. rewrite Z.eqb_refl. cbn [bind]. apply (IH (l1 ++ [Rd k])); [exact E'|].
      assert (W : forall j, In (Wr j) (l1 ++ [Rd k]) -> In (Wr j) l1) by (intros j X; apply in_app_or in X; destruct X as [X|[X|[]]]; [exact X|discriminate]).
      split; [exact I1|]. split; [intros j Hj; apply I2, W, Hj|]. split; cbn [fst snd].
      * intros n Hn. apply I3. intros j t' Hj. apply Hn. apply in_or_app. left. exact Hj.
      * intros j t' Hj Ej. destruct (Nat.eqb j k) eqn:Q.
        -- apply Nat.eqb_eq in Q. subst j. rewrite Ek in Ej. injection Ej as <-. exists x, y. auto.
        -- apply I4; [|exact Ej]. apply in_app_or in Hj. destruct Hj as [Hj|[Hj|[]]]; [exact Hj|]. injection Hj as ->. rewrite Nat.eqb_refl in Q. discriminate.
    + destruct (nth_error ts k) as [t|] eqn:Ek; [|apply nth_error_None in Ek; lia].
      destruct (Hts t (nth_error_In _ _ Ek)) as (Nab & x & y & i & Ex & Ey & _ & _ & Mx & My & Nu).
      assert (Hr : In (Rd k) l1) by (apply (proj2 Hl k l1 l2 E)).
      destruct (I4 k t Hr Ek) as (x' & y' & Rk & Ex' & Ey'). rewrite Ex in Ex'. injection Ex' as <-. rewrite Ey in Ey'. injection Ey' as <-.
      destruct (collide_any (cp_m (cu_c x)) (cp_m (cu_c y)) (cp_q (cu_c x)) (cp_q (cu_c y)) (cp_u (cu_c x)) (cp_u (cu_c y)) (t_nu t) (fst (rnd k)) (snd (rnd k)) Mx My Nu (proj2 (Hrnd k)))
        as (u & v & w & Ec & _).
      pose proof (aget_bounds _ _ _ Ex) as Bx. pose proof (aget_bounds _ _ _ Ey) as By. rewrite <- I1 in Bx, By.
      destruct (aset_some st (t_a t) (set_u x u) Bx) as (st1 & S1 & G1 & A1).
      assert (By1 : 0 <= t_b t < alen st1) by lia.
      destruct (aset_some st1 (t_b t) (set_u y v) By1) as (st2 & S2 & G2 & A2).
      unfold coll_ev. rewrite Ek. cbn [bind]. rewrite Rk. cbn [bind]. rewrite Ec. cbn [bind]. rewrite S1. cbn [bind]. rewrite S2. cbn [bind].
      apply (IH (l1 ++ [Wr k])); [exact E'|].
      assert (GET : forall n, aget st2 n = if n =? t_b t then Some (set_u y v) else if n =? t_a t then Some (set_u x u) else aget st n).
      { intros n. rewrite A2. destruct (Z.eqb_spec n (t_b t)); [reflexivity|]. apply A1. }
      split; [cbn [fst]; lia|]. split; [|split]; cbn [fst snd].
      * intros j Hj. destruct (Nat.eq_dec j k) as [->|Nj].
        -- intros t' x' y' Et Ex' Ey'. rewrite Ek in Et. injection Et as <-. rewrite Ex in Ex'. injection Ex' as <-. rewrite Ey in Ey'. injection Ey' as <-.
           exists u, v, w. split; [exact Ec|]. rewrite !GET, !Z.eqb_refl. split; [|reflexivity]. destruct (Z.eqb_spec (t_a t) (t_b t)); [contradiction|reflexivity].
        -- assert (Hj' : In (Wr j) l1) by (apply in_app_or in Hj; destruct Hj as [Hj|[Hj|[]]]; [exact Hj|injection Hj as ->; contradiction]).
           intros t' x' y' Et Ex' Ey'. destruct (I2 j Hj' t' x' y' Et Ex' Ey') as (u' & v' & w' & Ec' & Ga & Gb). exists u', v', w'. split; [exact Ec'|].
           assert (NS : forall n, In n (slots_of t') -> ~ In n (slots_of t)) by (intros n Hn Hn'; apply Nj; eapply slots_inj; eassumption).
           rewrite !GET. pose proof (NS (t_a t') (or_introl eq_refl)) as N1. pose proof (NS (t_b t') (or_intror (or_introl eq_refl))) as N2.
           split.
           ++ destruct (Z.eqb_spec (t_a t') (t_b t)) as [Q|_]; [exfalso; apply N1; right; left; auto|]. destruct (Z.eqb_spec (t_a t') (t_a t)) as [Q|_]; [exfalso; apply N1; left; auto|]. exact Ga.
           ++ destruct (Z.eqb_spec (t_b t') (t_b t)) as [Q|_]; [exfalso; apply N2; right; left; auto|]. destruct (Z.eqb_spec (t_b t') (t_a t)) as [Q|_]; [exfalso; apply N2; left; auto|]. exact Gb.
      * intros n Hn. assert (Nn : ~ In n (slots_of t)) by (apply (Hn k t); [apply in_or_app; right; left; reflexivity|exact Ek]). rewrite GET.
        destruct (Z.eqb_spec n (t_b t)) as [Q|_]; [exfalso; apply Nn; right; left; auto|]. destruct (Z.eqb_spec n (t_a t)) as [Q|_]; [exfalso; apply Nn; left; auto|].
        apply I3. intros j t' Hj. apply Hn. apply in_or_app. left. exact Hj.
      * intros j t' Hj Ej. apply I4; [|exact Ej]. apply in_app_or in Hj. destruct Hj as [Hj|[Hj|[]]]; [exact Hj|discriminate].
Qed.

Lemma coll_race reg : exists st reg', coll_evs g rnd ts (st0, reg) l = Some (st, reg') /\ alen st = alen st0 /\
  (forall k, (k < length ts)%nat -> left_by k st) /\ (forall n, ~ In n (flat_map slots_of ts) -> aget st n = aget st0 n).
Proof.
  destruct (coll_inv l [] (st0, reg) eq_refl) as ([st reg'] & E & I1 & I2 & I3 & _).
  - split; [reflexivity|]. split; [intros k []|]. split; [reflexivity|intros k t []].
  - exists st, reg'. split; [exact E|]. split; [exact I1|]. split.
    + intros k Hk. apply I2. apply (Permutation_in _ (Permutation_sym (proj1 Hl))). apply in_or_app. right. apply in_map. apply in_seq. lia.
    + intros n Hn. apply I3. intros k t _ Et Hs. apply Hn. apply in_flat_map. exists t. split; [apply nth_error_In in Et; exact Et|exact Hs].
Qed.
End Race.

(** ** All together *)

Section Round.
Context (g : geom) (ok : geom_ok g) (c : cm cuprt) (h : Z -> Z) (L : list (Z * cuprt)) (nudt0 : R).
Hypothesis D : laid cu_pos g h (aget (c_st c)) c L.
Hypothesis Hnu : (0 < nudt0)%R.
Hypothesis Hm : forall w, In w L -> (0 < cp_m (cu_c (snd w)))%R.
Context (Q : list (Z * Z)).
Hypothesis HQ : sorted_by_cell g c L Q.

Lemma Q_len : alen Q = c_n c.
Proof.
  destruct HQ as [_ P]. apply Permutation_length in P. rewrite map_length in P. unfold alen. rewrite <- P.
  change (alen (zrange 0 (c_n c)) = c_n c). rewrite alen_zrange; [lia|]. rewrite (ld_n _ _ _ _ _ _ D). apply alen_nonneg.
Qed.

Lemma Q_at n w : aget Q n = Some w -> 0 <= snd w < c_n c /\ fst w = cidx g L (snd w) /\ idf Q n = snd w.
Proof.
  intros E. destruct HQ as [_ P]. pose proof (aget_In _ _ _ E) as I. apply (Permutation_in _ (Permutation_sym P)) in I. apply in_map_iff in I.
  destruct I as (m & <- & Hm'). apply in_zrange in Hm'. cbn [fst snd]. split; [exact Hm'|]. split; [reflexivity|]. unfold idf. rewrite E. reflexivity.
Qed.

Lemma Q_snd : Permutation (map snd Q) (zrange 0 (c_n c)).
Proof. destruct HQ as [_ P]. apply (Permutation_map snd) in P. rewrite map_map in P. cbn [snd] in P. rewrite map_id in P. symmetry. exact P. Qed.

Lemma Q_nodup : NoDup (map snd Q).
Proof. apply (Permutation_NoDup (Permutation_sym Q_snd)). apply NoDup_zrange. Qed.

Lemma idf_inj i j : 0 <= i < c_n c -> 0 <= j < c_n c -> idf Q i = idf Q j -> i = j.
Proof.
  intros Hi Hj E. rewrite <- Q_len in Hi, Hj. destruct (aget_some Q i Hi) as [v Ev]. destruct (aget_some Q j Hj) as [w Ew].
  unfold idf in E. rewrite Ev, Ew in E. apply (NoDup_aget (map snd Q) i j (snd v) Q_nodup); rewrite aget_map, ?Ev, ?Ew; cbn [option_map]; congruence.
Qed.

(** the two positions of a start *)
Lemma start_pos q n : In (q, n) (all_starts g Q) -> exists v w, aget Q n = Some v /\ aget Q (n + 1) = Some w /\ fst v = q /\ fst w = q /\ 0 <= n /\ n + 1 < c_n c.
Proof.
  intros H. apply in_all_starts in H; [|apply n_cells_nonneg; exact ok]. destruct H as (Hq & H1 & H2 & _).
  pose proof (cnt_bounds Q q). pose proof (cnt_bounds Q (q + 1)). rewrite Q_len in *. destruct HQ as [S _].
  destruct (aget_some Q n) as [v Ev]; [rewrite Q_len; lia|]. destruct (aget_some Q (n + 1)) as [w Ew]; [rewrite Q_len; lia|].
  exists v, w. split; [exact Ev|]. split; [exact Ew|]. split; [apply (cnt_key Q q n v S Ev); lia|]. split; [apply (cnt_key Q q (n + 1) w S Ew); lia|]. lia.
Qed.

Definition prs : list (Z * Z) := map (fun qn => (idf Q (snd qn), idf Q (snd qn + 1))) (all_starts g Q).

Lemma prs_slots : flat_map (fun ab => [fst ab; snd ab]) prs = map (idf Q) (flat_map (fun qn => [snd qn; snd qn + 1]) (all_starts g Q)).
Proof. unfold prs. rewrite map_flat_map. induction (all_starts g Q) as [|qn r IH]; [reflexivity|]. cbn [map flat_map app fst snd]. rewrite IH. reflexivity. Qed.

Lemma ts_slots : flat_map slots_of (map (task_of g nudt0 Q) (all_starts g Q)) = flat_map (fun ab => [fst ab; snd ab]) prs.
Proof. unfold prs. induction (all_starts g Q) as [|qn r IH]; [reflexivity|]. cbn [map flat_map app fst snd slots_of task_of t_a t_b]. rewrite IH. reflexivity. Qed.

Lemma prs_nodup : NoDup (flat_map (fun ab => [fst ab; snd ab]) prs).
Proof.
  rewrite prs_slots. apply NoDup_map_in.
  - intros i j Hi Hj. apply in_flat_map in Hi. apply in_flat_map in Hj. destruct Hi as ([q n] & Hq & Hi), Hj as ([q' n'] & Hq' & Hj).
    destruct (start_pos q n Hq) as (_ & _ & _ & _ & _ & _ & B1 & B2). destruct (start_pos q' n' Hq') as (_ & _ & _ & _ & _ & _ & B3 & B4).
    cbn [snd] in Hi, Hj. apply idf_inj; [destruct Hi as [<-|[<-|[]]]; lia|destruct Hj as [<-|[<-|[]]]; lia].
  - apply NoDup_flat_map with (k := fun m => let q := match aget Q m with Some v => fst v | None => 0 end in (q, m - (m - cnt Q q) mod 2)).
    + apply NoDup_all_starts.
    + intros [q n] m Hq Hm'. destruct (start_pos q n Hq) as (v & w & Ev & Ew & Fv & Fw & _ & _). apply in_all_starts in Hq; [|apply n_cells_nonneg; exact ok].
      destruct Hq as (_ & _ & _ & [z Hz]). cbn [snd] in Hm'. destruct Hm' as [<-|[<-|[]]].
      * cbv zeta. rewrite Ev, Fv. f_equal. replace ((n - cnt Q q) mod 2) with 0; [lia|]. rewrite Hz. symmetry. apply Z.mod_mul. lia.
      * cbv zeta. rewrite Ew, Fw. f_equal. replace ((n + 1 - cnt Q q) mod 2) with 1; [lia|]. apply (Z.mod_unique_pos _ _ z); lia.
    + intros [q n] _. cbn [snd]. constructor; [intros [H|[]]; lia|]. constructor; [intros []|constructor].
Qed.

Lemma L_at n : 0 <= n < c_n c -> exists w, aget L n = Some w /\ aget (c_st c) n = Some (snd w) /\ 0 <= fst w < g_np g /\ cell_in g (cu_pos (snd w)) /\ cidx g L n = cellno g (fst w) (cu_pos (snd w)).
Proof.
  intros Hn. destruct (aget_some L n) as [w Ew]; [rewrite <- (ld_n _ _ _ _ _ _ D); exact Hn|]. exists w. split; [exact Ew|]. split; [apply (ld_rd _ _ _ _ _ _ D); exact Ew|].
  destruct (laid_good _ _ ok _ _ _ _ D w (aget_In _ _ _ Ew)) as [A1 A2]. split; [exact A1|]. split; [exact A2|]. unfold cidx. rewrite Ew. reflexivity.
Qed.

Lemma in_cellb_spec p q w : in_cellb p q w = true <-> fst w = p /\ cu_pos (snd w) = q.
Proof. unfold in_cellb. rewrite Bool.andb_true_iff, Z.eqb_eq, v3_eqb_eq. reflexivity. Qed.

Lemma count_cnt p q : 0 <= p < g_np g -> cell_in g q -> count_in L p q = cnt Q (cellno g p q + 1) - cnt Q (cellno g p q).
Proof.
  intros Hp Hq. rewrite cnt_succ. unfold count_in. destruct HQ as [_ P].
  assert (PL : forall (f : Z * Z -> bool) l l', Permutation l l' -> alen (filter f l) = alen (filter f l')).
  { intros f l l' Pl. unfold alen. f_equal. induction Pl; cbn [filter]; [reflexivity| | |congruence].
    - destruct (f x); cbn [length]; congruence.
    - destruct (f x), (f y); cbn [length]; congruence. }
  rewrite <- (PL _ _ _ P). match goal with |- _ = ?a + ?b - ?a => replace (a + b - a) with b by lia end.
  assert (F : forall m, (forall n, In n m -> 0 <= n < c_n c) -> forall dd, alen (filter (in_cellb p q) (map (fun n => match aget L n with Some w => w | None => dd end) m)) = alen (filter (fun w => fst w =? cellno g p q) (map (fun n => (cidx g L n, n)) m))).
  { intros m Hm' dd. induction m as [|n m IH]; [reflexivity|]. cbn [map filter fst]. specialize (IH ltac:(intros; apply Hm'; right; assumption)).
    destruct (L_at n (Hm' n (or_introl eq_refl))) as (w & Ew & _ & A1 & A2 & A3). rewrite Ew, A3.
    assert (B : in_cellb p q w = (cellno g (fst w) (cu_pos (snd w)) =? cellno g p q)).
    { apply Bool.eq_iff_eq_true. rewrite in_cellb_spec, Z.eqb_eq. split; [intros [-> ->]; reflexivity|]. intros E. apply (cellno_inj g) in E; assumption. }
    rewrite B. destruct (cellno g (fst w) (cu_pos (snd w)) =? cellno g p q); [rewrite !alen_cons; lia|exact IH]. }
  destruct L as [|w0 L0] eqn:EL.
  - pose proof (ld_n _ _ _ _ _ _ D) as N. change (alen []) with 0 in N. rewrite N. reflexivity.
  - rewrite <- EL in *. rewrite (all_by_index L w0) at 1. rewrite <- (ld_n _ _ _ _ _ _ D). apply F. intros n Hn. apply in_zrange in Hn. exact Hn.
Qed.

(** a pair: its particles *)
Lemma pair_at q n : In (q, n) (all_starts g Q) -> exists w1 w2, let t := task_of g nudt0 Q (q, n) in
  aget L (t_a t) = Some w1 /\ aget L (t_b t) = Some w2 /\ aget (c_st c) (t_a t) = Some (snd w1) /\ aget (c_st c) (t_b t) = Some (snd w2) /\
  fst w1 = fst w2 /\ cu_pos (snd w1) = cu_pos (snd w2) /\ t_p t = fst w1 /\ cell_in g (cu_pos (snd w1)) /\
  t_nu t = strength nudt0 (count_in L (fst w1) (cu_pos (snd w1))) /\ 2 <= count_in L (fst w1) (cu_pos (snd w1)) /\ t_a t <> t_b t.
Proof.
  intros H. destruct (start_pos q n H) as (v & w & Ev & Ew & Fv & Fw & B1 & B2). destruct (Q_at n v Ev) as (V1 & V2 & V3). destruct (Q_at (n + 1) w Ew) as (W1 & W2 & W3).
  destruct (L_at (snd v) V1) as (w1 & E1 & S1 & P1 & C1 & I1). destruct (L_at (snd w) W1) as (w2 & E2 & S2 & P2 & C2 & I2).
  exists w1, w2. cbv zeta. unfold task_of. cbn [t_a t_b t_p t_nu fst snd]. rewrite V3, W3.
  assert (EQ1 : cellno g (fst w1) (cu_pos (snd w1)) = q) by congruence. assert (EQ2 : cellno g (fst w2) (cu_pos (snd w2)) = q) by congruence.
  destruct (cellno_inj g (fst w1) (cu_pos (snd w1)) (fst w2) (cu_pos (snd w2)) C1 C2) as [X1 X2]; [congruence|].
  split; [exact E1|]. split; [exact E2|]. split; [exact S1|]. split; [exact S2|]. split; [exact X1|]. split; [exact X2|].
  split; [rewrite <- EQ1; apply cellno_patch; [lia|exact C1]|]. split; [exact C1|].
  pose proof (count_cnt (fst w1) (cu_pos (snd w1)) P1 C1) as CC. rewrite EQ1 in CC. apply in_all_starts in H; [|apply n_cells_nonneg; exact ok]. destruct H as (_ & H1 & H2 & _).
  split; [rewrite <- CC; apply nudt_strength; lia|]. split; [lia|].
  intros E. rewrite <- V3, <- W3 in E. apply idf_inj in E; lia.
Qed.

Lemma strength_pos k : 2 <= k -> (0 < strength nudt0 k)%R.
Proof.
  intros Hk. unfold strength. assert (0 < IZR k)%R by (apply IZR_lt; lia). assert (0 < IZR (2 * (k / 2)))%R by (apply IZR_lt; lia).
  apply Rdiv_lt_0_compat; [|assumption]. repeat apply Rmult_lt_0_compat; assumption.
Qed.

Lemma round_ok rnd reg l : (forall k, 0 < fst (rnd k) <= 1 /\ 0 < snd (rnd k) <= 1)%R ->
  schedule (length (map (task_of g nudt0 Q) (all_starts g Q))) l ->
  exists st reg' L', coll_evs g rnd (map (task_of g nudt0 Q) (all_starts g Q)) (c_st c, reg) l = Some (st, reg') /\
    alen L' = alen L /\ (forall n w, aget L' n = Some w -> aget st n = Some (snd w)) /\
    (forall n w w', aget L n = Some w -> aget L' n = Some w' -> but_u w' = but_u w) /\ paired nudt0 L L' prs.
Proof.
  intros Hr Hl. set (ts := map (task_of g nudt0 Q) (all_starts g Q)) in *.
  destruct (coll_race g rnd ts (c_st c) l) with (reg := reg) as (st & reg' & E & Len & Lft & Rest).
  - unfold ts. rewrite ts_slots. apply prs_nodup.
  - intros t Ht. unfold ts in Ht. apply in_map_iff in Ht. destruct Ht as ([q n] & <- & Hq). destruct (pair_at q n Hq) as (w1 & w2 & E1 & E2 & S1 & S2 & X1 & X2 & TP & C1 & TN & K2 & Nab).
    split; [exact Nab|]. exists (snd w1), (snd w2), (cellno g (fst w1) (cu_pos (snd w1))). split; [exact S1|]. split; [exact S2|]. rewrite TP.
    split; [apply valid_cell_in; assumption|]. split; [rewrite <- X2; apply valid_cell_in; assumption|].
    split; [apply Hm; apply aget_In in E1; exact E1|]. split; [apply Hm; apply aget_In in E2; exact E2|]. rewrite TN. apply strength_pos. exact K2.
  - exact Hr.
  - exact Hl.
  - exists st, reg', (map (fun n => (match aget L n with Some w => fst w | None => 0 end, match aget st n with Some x => x | None => cu_zero end)) (zrange 0 (alen L))).
    set (L' := map _ _). pose proof (alen_nonneg L) as LN.
    assert (LL : alen L' = alen L) by (unfold L'; rewrite alen_map, alen_zrange; lia).
    assert (ST : forall n, 0 <= n < alen L -> exists x, aget st n = Some x).
    { intros n Hn. apply aget_some. rewrite Len. destruct (L_at n) as (w & _ & S & _); [rewrite (ld_n _ _ _ _ _ _ D); exact Hn|]. apply aget_bounds in S. exact S. }
    assert (GL' : forall n w x, aget L n = Some w -> aget st n = Some x -> aget L' n = Some (fst w, x)).
    { intros n w x Ew Ex. pose proof (aget_bounds _ _ _ Ew) as B. unfold L'. rewrite aget_map, aget_zrange. replace ((0 <=? n) && (n <? alen L - 0)) with true by (symmetry; lia).
      cbn [option_map]. replace (0 + n) with n by lia. rewrite Ew, Ex. reflexivity. }
    assert (PR : forall a b, In (a, b) prs -> exists w1 w2 u v nudt r1 r2, (0 < r1 <= 1 /\ 0 < r2 <= 1)%R /\ aget L a = Some w1 /\ aget L b = Some w2 /\ fst w1 = fst w2 /\ cu_pos (snd w1) = cu_pos (snd w2) /\
      collide (cp_m (cu_c (snd w1))) (cp_m (cu_c (snd w2))) (cp_q (cu_c (snd w1))) (cp_q (cu_c (snd w2))) (cp_u (cu_c (snd w1))) (cp_u (cu_c (snd w2))) (strength nudt0 (count_in L (fst w1) (cu_pos (snd w1)))) r1 r2 = Some (u, v, nudt) /\
      aget L' a = Some (fst w1, set_u (snd w1) u) /\ aget L' b = Some (fst w2, set_u (snd w2) v)).
    { intros a b H. unfold prs in H. apply in_map_iff in H. destruct H as ([q n] & E0 & Hq). injection E0 as <- <-. cbn [snd].
      destruct (pair_at q n Hq) as (w1 & w2 & E1 & E2 & S1 & S2 & X1 & X2 & TP & C1 & TN & K2 & Nab). cbv zeta in *.
      assert (IT : In (task_of g nudt0 Q (q, n)) ts) by (unfold ts; apply in_map; exact Hq). destruct (In_nth_error _ _ IT) as [k Ek].
      assert (Hk : (k < length ts)%nat) by (apply nth_error_Some; congruence).
      destruct (Lft k Hk _ _ _ Ek S1 S2) as (u & v & nudt & Ec & Ga & Gb). rewrite TN in Ec.
      exists w1, w2, u, v, nudt, (fst (rnd k)), (snd (rnd k)). split; [apply Hr|]. split; [exact E1|]. split; [exact E2|]. split; [exact X1|]. split; [exact X2|]. split; [exact Ec|].
      split; [exact (GL' _ _ _ E1 Ga)|exact (GL' _ _ _ E2 Gb)]. }
    assert (RE : forall n, ~ In n (flat_map (fun ab => [fst ab; snd ab]) prs) -> aget L' n = aget L n).
    { intros n Hn. unfold ts in Rest. rewrite ts_slots in Rest. destruct (aget L n) as [w|] eqn:Ew.
      - rewrite (GL' n w (snd w) Ew); [destruct w; reflexivity|]. rewrite (Rest n Hn). apply (ld_rd _ _ _ _ _ _ D). exact Ew.
      - apply aget_none. rewrite LL. intros B. destruct (aget_some L n B). congruence. }
    split; [exact E|]. split; [exact LL|]. split; [|split].
    + intros n w Ew. pose proof (aget_bounds _ _ _ Ew) as B. rewrite LL in B. destruct (ST n B) as [x Ex]. destruct (aget_some L n B) as [v Ev].
      rewrite (GL' n v x Ev Ex) in Ew. injection Ew as <-. exact Ex.
    + intros n w w' Ew Ew'. destruct (in_dec Z.eq_dec n (flat_map (fun ab => [fst ab; snd ab]) prs)) as [I|I].
      * apply in_flat_map in I. destruct I as ([a b] & Hab & I). cbn [fst snd] in I. destruct (PR a b Hab) as (w1 & w2 & u & v & nudt & r1 & r2 & _ & E1 & E2 & _ & _ & _ & G1 & G2).
        destruct I as [<-|[<-|[]]].
        -- rewrite E1 in Ew. injection Ew as <-. rewrite G1 in Ew'. injection Ew' as <-. reflexivity.
        -- rewrite E2 in Ew. injection Ew as <-. rewrite G2 in Ew'. injection Ew' as <-. reflexivity.
      * rewrite (RE n I), Ew in Ew'. injection Ew' as <-. reflexivity.
    + constructor.
      * apply prs_nodup.
      * intros a b Hab. destruct (PR a b Hab) as (w1 & w2 & u & v & nudt & r1 & r2 & Rr & E1 & E2 & X1 & X2 & Ec & G1 & G2).
        exists (fst w1), (cu_pos (snd w1)), w1, w2, (fst w1, set_u (snd w1) u), (fst w2, set_u (snd w2) v).
        split; [exact E1|]. split; [exact E2|]. split; [apply in_cellb_spec; auto|]. split; [apply in_cellb_spec; auto|]. split; [exact G1|]. split; [exact G2|].
        exists u, v, nudt, r1, r2. split; [exact Rr|]. split; [exact Ec|]. split; split; reflexivity.
      * exact RE.
      * intros p q a b w1 w2 E1 E2 H1 H2 N1 N2. apply in_cellb_spec in H1. apply in_cellb_spec in H2.
        assert (UN : forall a w, aget L a = Some w -> fst w = p /\ cu_pos (snd w) = q -> ~ In a (flat_map (fun ab => [fst ab; snd ab]) prs) -> exists n, 0 <= n < c_n c /\ idf Q n = a /\ n + 1 = cnt Q (cellno g p q + 1)).
        { intros s w Ew [<- <-] Ns. pose proof (aget_bounds _ _ _ Ew) as B. rewrite <- (ld_n _ _ _ _ _ _ D) in B.
          destruct (L_at s B) as (w' & Ew' & _ & P1 & C1 & I1). rewrite Ew in Ew'. injection Ew' as <-.
          assert (I : In s (map snd Q)) by (apply (Permutation_in _ (Permutation_sym Q_snd)); apply in_zrange; exact B).
          apply In_aget in I. destruct I as [n En]. rewrite aget_map in En. destruct (aget Q n) as [z|] eqn:Ez; [|discriminate]. injection En as En.
          destruct (Q_at n z Ez) as (Z1 & Z2 & Z3). exists n. pose proof (aget_bounds _ _ _ Ez) as Bn. rewrite Q_len in Bn. split; [exact Bn|]. split; [congruence|].
          destruct HQ as [SQ _]. set (cl := cellno g (fst w) (cu_pos (snd w))) in *. assert (Fz : fst z = cl) by congruence.
          pose proof (proj2 (cnt_key Q cl n z SQ Ez) Fz) as CK. pose proof (cellno_range g (fst w) (cu_pos (snd w)) P1 C1) as CR. fold cl in CR.
          destruct (Z.eq_dec (n + 1) (cnt Q (cl + 1))) as [|NE]; [assumption|]. exfalso. apply Ns. rewrite prs_slots. apply in_map_iff. exists n. split; [congruence|].
          apply in_flat_map. destruct (Z.eq_dec ((n - cnt Q cl) mod 2) 0) as [M|M].
          - exists (cl, n). split; [|left; reflexivity]. apply in_all_starts; [apply n_cells_nonneg; exact ok|]. split; [exact CR|]. split; [lia|]. split; [lia|]. apply Z.mod_divide; [lia|exact M].
          - exists (cl, n - 1). pose proof (Z.mod_pos_bound (n - cnt Q cl) 2 ltac:(lia)) as MB. pose proof (Z.div_mod (n - cnt Q cl) 2 ltac:(lia)) as DM.
            split; [|right; left; cbn [snd]; lia]. apply in_all_starts; [apply n_cells_nonneg; exact ok|]. split; [exact CR|].
            split; [|split; [lia|exists ((n - cnt Q cl) / 2); lia]]. destruct (Z.eq_dec n (cnt Q cl)) as [Ee|]; [|lia]. exfalso. apply M. rewrite Ee, Z.sub_diag. reflexivity. }
        destruct (UN a w1 E1 H1 N1) as (n1 & _ & <- & Q1). destruct (UN b w2 E2 H2 N2) as (n2 & _ & <- & Q2). f_equal. lia.
Qed.
End Round.
