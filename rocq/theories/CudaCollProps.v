(** Collisions on the GPU: the theorems. *)
From Coq Require Import Reals Lra Permutation Sorted.
From Verif Require Import Base Arr RSum FieldModel BinColModel BinColProps CudaPrtModel CudaPrtSpec CudaPrtProofs CudaLaunchModel CudaLaunchSpec CudaLaunchProofs CudaLaunchProps CudaPushProofs CudaSharedProofs CudaCollModel CudaCollSpec CudaCollProofs CudaCollRunProofs GhostProofs.
Local Open Scope Z_scope.

(** ** What follows of pairing *)

Section Paired.
Context (nudt0 : R) (L L' : list (Z * cuprt)) (prs : list (Z * Z)).
Hypothesis Hp : paired nudt0 L L' prs.
Hypothesis Hlen : alen L' = alen L.
Hypothesis Hnu : (0 < nudt0)%R.
Hypothesis Hm : forall w, In w L -> (0 < cp_m (cu_c (snd w)))%R.

Let slots := flat_map (fun ab : Z * Z => [fst ab; snd ab]) prs.

Lemma but_u_at n w w' : aget L n = Some w -> aget L' n = Some w' -> but_u w' = but_u w.
Proof.
  intros E E'. destruct (in_dec Z.eq_dec n slots) as [I|I].
  - apply in_flat_map in I. destruct I as ([a b] & Hab & I). cbn [fst snd] in I.
    destruct (pd_pair _ _ _ _ Hp a b Hab) as (p & q & w1 & w2 & w1' & w2' & E1 & E2 & _ & _ & G1 & G2 & (u & v & nudt & r1 & r2 & _ & _ & [U1 _] & [U2 _])).
    destruct I as [<-|[<-|[]]]; congruence.
  - rewrite (pd_rest _ _ _ _ Hp n I), E in E'. congruence.
Qed.

Lemma but_u_map : map but_u L' = map but_u L.
Proof.
  apply alist_ext; [rewrite !alen_map; exact Hlen|]. intros n Hn. rewrite alen_map in Hn. rewrite !aget_map. destruct (aget_some L' n Hn) as [w' E']. rewrite Hlen in Hn.
  destruct (aget_some L n Hn) as [w E]. rewrite E, E'. cbn [option_map]. f_equal. apply (but_u_at n); assumption.
Qed.

Lemma in_cellb_but p q w w' : but_u w' = but_u w -> in_cellb p q w' = in_cellb p q w.
Proof. intros E. unfold but_u in E. injection E as E1 E2 _ _ _. unfold in_cellb, cu_pos. rewrite E1, E2. reflexivity. Qed.

Lemma count_two {A} (f : A -> bool) (l : list A) i j x y : i <> j -> aget l i = Some x -> aget l j = Some y -> f x = true -> f y = true -> 2 <= alen (filter f l).
Proof.
  assert (ONE : forall (l : list A) i x, aget l i = Some x -> f x = true -> 1 <= alen (filter f l)).
  { clear. induction l as [|a l IH]; intros i x E F; [apply aget_bounds in E; unfold alen in E; cbn in E; lia|]. rewrite aget_cons in E. cbn [filter].
    pose proof (alen_nonneg (filter f l)). destruct (i =? 0); [injection E as ->; rewrite F, alen_cons; lia|]. specialize (IH _ _ E F). destruct (f a); [rewrite alen_cons; lia|exact IH]. }
  revert i j. induction l as [|a l IH]; intros i j N E1 E2 F1 F2; [apply aget_bounds in E1; unfold alen in E1; cbn in E1; lia|].
  rewrite aget_cons in E1, E2. cbn [filter]. destruct (Z.eqb_spec i 0), (Z.eqb_spec j 0); try lia.
  - injection E1 as ->. rewrite F1, alen_cons. pose proof (ONE l _ _ E2 F2). lia.
  - injection E2 as ->. rewrite F2, alen_cons. pose proof (ONE l _ _ E1 F1). lia.
  - specialize (IH (i - 1) (j - 1) ltac:(lia) E1 E2 F1 F2). destruct (f a); [rewrite alen_cons; lia|exact IH].
Qed.

Lemma pair_neq a b : In (a, b) prs -> a <> b.
Proof.
  intros H E. subst b. pose proof (pd_once _ _ _ _ Hp) as ND. apply in_split in H. destruct H as (l1 & l2 & ->). rewrite flat_map_app in ND.
  destruct (NoDup_app_split _ _ ND) as [ND2 _]. cbn [flat_map fst snd app] in ND2. inversion ND2 as [|x_ l_ N _]; subst. apply N. left. reflexivity.
Qed.

Lemma rsum_support (f : Z -> R) l m : NoDup l -> NoDup m -> incl m l -> (forall x, In x l -> ~ In x m -> f x = 0%R) -> rsum (map f l) = rsum (map f m).
Proof.
  intros Nl Nm I Z. set (inb := fun x => if in_dec Z.eq_dec x m then true else false).
  transitivity (rsum (map (fun x => if inb x then f x else 0%R) l)).
  - apply rsum_ext. intros x Hx. unfold inb. destruct (in_dec Z.eq_dec x m); [reflexivity|apply Z; assumption].
  - rewrite <- rsum_filter. apply rsum_perm, Permutation_map. apply NoDup_Permutation; [apply NoDup_filter; exact Nl|exact Nm|].
    intros x. rewrite filter_In. unfold inb. destruct (in_dec Z.eq_dec x m); [|split; [intros []; discriminate|tauto]]. split; [tauto|]. intros. split; [apply I; assumption|reflexivity].
Qed.

Lemma slot_range n : In n slots -> 0 <= n < alen L.
Proof.
  intros I. apply in_flat_map in I. destruct I as ([a b] & Hab & I). cbn [fst snd] in I.
  destruct (pd_pair _ _ _ _ Hp a b Hab) as (p & q & w1 & w2 & w1' & w2' & E1 & E2 & _). destruct I as [<-|[<-|[]]]; eapply aget_bounds; eassumption.
Qed.

(** what a collision keeps, a cell keeps *)
Lemma amount_kept (f : cprt -> R) : (forall p1 p2 u v nudt1 ran1 ran2 nudt, (0 < cp_m p1)%R -> (0 < cp_m p2)%R -> (0 < nudt1)%R -> (0 < ran2 <= 1)%R ->
    collide (cp_m p1) (cp_m p2) (cp_q p1) (cp_q p2) (cp_u p1) (cp_u p2) nudt1 ran1 ran2 = Some (u, v, nudt) ->
    (f (mkC (cp_m p1) (cp_q p1) u) + f (mkC (cp_m p2) (cp_q p2) v) = f p1 + f p2)%R) ->
  forall p q, amount_in f L' p q = amount_in f L p q.
Proof.
  intros K p q. unfold amount_in. rewrite !rsum_filter. set (F := fun w => if in_cellb p q w then f (cu_c (snd w)) else 0%R).
  change (rsum (map F L') = rsum (map F L)).
  set (at_ := fun (l : list (Z * cuprt)) n => match aget l n with Some w => F w | None => 0%R end).
  assert (IX : forall l, map F l = map (at_ l) (zrange 0 (alen l))).
  { intros l. symmetry. apply map_by_index. intros i x E. unfold at_. rewrite E. reflexivity. }
  rewrite (IX L), (IX L'), Hlen.
  assert (ZD : rsum (map (fun n => (at_ L' n + -1 * at_ L n)%R) (zrange 0 (alen L))) = 0%R).
  { rewrite (rsum_support _ _ slots); [|apply NoDup_zrange|apply (pd_once _ _ _ _ Hp)|intros n Hn; apply in_zrange, slot_range; exact Hn|].
    - unfold slots. rewrite map_flat_map, rsum_flat_map. apply rsum_zero. intros [a b] Hab. cbn [map fst snd]. rewrite !rsum_cons. change (rsum []) with 0%R.
      destruct (pd_pair _ _ _ _ Hp a b Hab) as (p' & q' & w1 & w2 & w1' & w2' & E1 & E2 & C1 & C2 & G1 & G2 & (u & v & nudt & r1 & r2 & [R1 R2] & Ec & [U1 V1] & [U2 V2])).
      unfold at_. rewrite E1, E2, G1, G2. unfold F. rewrite (in_cellb_but p q _ _ U1), (in_cellb_but p q _ _ U2).
      assert (SAME : in_cellb p q w1 = in_cellb p q w2).
      { apply in_cellb_spec in C1. apply in_cellb_spec in C2. apply Bool.eq_iff_eq_true. rewrite !in_cellb_spec. destruct C1 as [-> ->], C2 as [-> ->]. reflexivity. }
      rewrite <- SAME. destruct (in_cellb p q w1); [|ring].
      assert (SP : (0 < strength nudt0 (count_in L p' q'))%R).
      { apply strength_pos; [exact Hnu|]. unfold count_in. eapply (count_two _ L a b); [apply pair_neq; exact Hab|eassumption..]. }
      pose proof (K (cu_c (snd w1)) (cu_c (snd w2)) u v _ _ _ _ (Hm _ (aget_In _ _ _ E1)) (Hm _ (aget_In _ _ _ E2)) SP R2 Ec) as KK. unfold but_u in U1, U2. injection U1 as _ _ _ M1 Q1. injection U2 as _ _ _ M2 Q2.
      assert (X1 : cu_c (snd w1') = mkC (cp_m (cu_c (snd w1))) (cp_q (cu_c (snd w1))) u) by (destruct (cu_c (snd w1')); cbn in *; congruence).
      assert (X2 : cu_c (snd w2') = mkC (cp_m (cu_c (snd w2))) (cp_q (cu_c (snd w2))) v) by (destruct (cu_c (snd w2')); cbn in *; congruence).
      rewrite X1, X2. lra.
    - intros n _ Hn. unfold at_. rewrite (pd_rest _ _ _ _ Hp n Hn). ring. }
  rewrite rsum_plus, rsum_mul in ZD. lra.
Qed.

Lemma pairs_in_count p q : alen (pairs_in L prs p q) = count_in L p q / 2.
Proof using Hp.
  clear Hm Hnu Hlen.
  set (inc := fun n => match aget L n with Some w => in_cellb p q w | None => false end).
  set (I := filter inc (zrange 0 (alen L))). set (J := flat_map (fun ab : Z * Z => [fst ab; snd ab]) (pairs_in L prs p q)).
  assert (CI : count_in L p q = alen I).
  { unfold count_in, I. pose (w0 := (0, cu_zero)). rewrite (all_by_index L w0) at 1.
    assert (F : forall m, (forall n, In n m -> 0 <= n < alen L) -> alen (filter (in_cellb p q) (map (fun i => match aget L i with Some x => x | None => w0 end) m)) = alen (filter inc m)).
    { induction m as [|n m IH]; intros Hm'; [reflexivity|]. cbn [map filter]. specialize (IH ltac:(intros; apply Hm'; right; assumption)). destruct (aget_some L n (Hm' n (or_introl eq_refl))) as [w Ew].
      assert (IN : inc n = in_cellb p q w) by (unfold inc; rewrite Ew; reflexivity). rewrite IN, Ew. destruct (in_cellb p q w); [rewrite !alen_cons; lia|exact IH]. }
    apply F. intros n Hn. apply in_zrange in Hn. exact Hn. }
  assert (NI : NoDup I) by (apply NoDup_filter, NoDup_zrange).
  assert (LJ : alen J = 2 * alen (pairs_in L prs p q)).
  { unfold J. induction (pairs_in L prs p q) as [|ab r IH]; [reflexivity|]. cbn [flat_map app]. rewrite !alen_cons, IH. lia. }
  assert (SUB : forall l : list (Z * Z), NoDup (flat_map (fun ab : Z * Z => [fst ab; snd ab]) l) -> forall f, NoDup (flat_map (fun ab : Z * Z => [fst ab; snd ab]) (filter f l))).
  { induction l as [|ab l IH]; intros ND f; [constructor|]. change (flat_map (fun ab : Z * Z => [fst ab; snd ab]) (ab :: l)) with ([fst ab; snd ab] ++ flat_map (fun ab : Z * Z => [fst ab; snd ab]) l) in ND.
    destruct (NoDup_app_split _ _ ND) as [N1 N2]. cbn [filter]. destruct (f ab); [|apply IH; exact N1].
    change (NoDup ([fst ab; snd ab] ++ flat_map (fun ab : Z * Z => [fst ab; snd ab]) (filter f l))). apply DomainProofs.NoDup_app_intro; [|apply IH; exact N1|].
    - cbn [app] in ND. inversion ND as [|x_ l_ A1 A2]; subst. inversion A2 as [|y_ m_ A3 A4]; subst. constructor; [intros [X|[]]; apply A1; left; exact X|constructor; [intros []|constructor]].
    - intros x X1 X2. apply (N2 x X1). apply in_flat_map in X2. destruct X2 as (cd & H1 & H2). apply filter_In in H1. apply in_flat_map. exists cd. split; [apply H1|exact H2]. }
  assert (NJ : NoDup J) by (apply SUB, (pd_once _ _ _ _ Hp)).
  assert (PC : forall a b, In (a, b) prs -> inc a = inc b).
  { intros a b Hab. destruct (pd_pair _ _ _ _ Hp a b Hab) as (p' & q' & w1 & w2 & _ & _ & E1 & E2 & C1 & C2 & _). unfold inc. rewrite E1, E2.
    apply in_cellb_spec in C1. apply in_cellb_spec in C2. apply Bool.eq_iff_eq_true. rewrite !in_cellb_spec. destruct C1 as [-> ->], C2 as [-> ->]. reflexivity. }
  assert (JI : incl J I).
  { intros n Hn. unfold J in Hn. apply in_flat_map in Hn. destruct Hn as ([a b] & Hab & Hn). unfold pairs_in in Hab. apply filter_In in Hab. destruct Hab as [Hab Ha]. cbn [fst snd] in *. fold (inc a) in Ha.
    assert (inc n = true) by (destruct Hn as [<-|[<-|[]]]; [exact Ha|rewrite <- (PC a b Hab); exact Ha]). apply filter_In. split; [|assumption]. apply in_zrange.
    unfold inc in H. destruct (aget L n) as [w|] eqn:Ew; [|discriminate]. apply aget_bounds in Ew. exact Ew. }
  assert (UNP : forall n, In n I -> ~ In n J -> ~ In n slots).
  { intros n Hn Nn Hs. apply Nn. unfold slots in Hs. apply in_flat_map in Hs. destruct Hs as ([a b] & Hab & Hs). apply in_flat_map. exists (a, b). split; [|exact Hs].
    apply filter_In. split; [exact Hab|]. cbn [fst snd] in *. fold (inc a). apply filter_In in Hn. destruct Hn as [_ Hn]. destruct Hs as [<-|[<-|[]]]; [exact Hn|rewrite (PC a b Hab); exact Hn]. }
  assert (TWO : forall x y, In x I -> In y I -> ~ In x J -> ~ In y J -> x = y).
  { intros x y Hx Hy Nx Ny. pose proof (UNP x Hx Nx) as Sx. pose proof (UNP y Hy Ny) as Sy. apply filter_In in Hx. apply filter_In in Hy. destruct Hx as [_ Hx], Hy as [_ Hy].
    unfold inc in Hx, Hy. destruct (aget L x) as [w1|] eqn:E1; [|discriminate]. destruct (aget L y) as [w2|] eqn:E2; [|discriminate]. exact (pd_all _ _ _ _ Hp p q x y w1 w2 E1 E2 Hx Hy Sx Sy). }
  assert (LE : alen J <= alen I) by (pose proof (NoDup_incl_length NJ JI); unfold alen; lia).
  assert (GE : alen I <= alen J + 1).
  { destruct (Exists_dec (fun x => ~ In x J) I) as [X|X].
    - intros x. destruct (in_dec Z.eq_dec x J); [right; tauto|left; assumption].
    - apply Exists_exists in X. destruct X as (x & Hx & Nx). assert (INC : incl I (x :: J)).
      { intros y Hy. destruct (in_dec Z.eq_dec y J) as [|Ny]; [right; assumption|left]. apply TWO; assumption. }
      pose proof (NoDup_incl_length NI INC) as Le. cbn [length] in Le. unfold alen. lia.
    - assert (INC : incl I J). { intros y Hy. destruct (in_dec Z.eq_dec y J) as [|Ny]; [assumption|]. exfalso. apply X. apply Exists_exists. exists y. auto. }
      pose proof (NoDup_incl_length NI INC) as Le. unfold alen. lia. }
  rewrite CI. lia.
Qed.
End Paired.

(** ** The theorems *)

(** Collisions on the GPU.  Whatever is drawn, however the particles come to be sorted, and in whatever order the threads
    do their work: nothing goes wrong, and all that happens is that the particles -- in each cell of each patch all, but
    for one left over -- have collided in pairs.  The store goes on holding the particles. *)
Theorem C64_collisions : forall g c S nudt0 r, geom_ok g -> represents cu_pos g c S -> S <> [] -> (0 < nudt0)%R ->
  (forall w, In w S -> (0 < cp_m (cu_c (snd w)))%R) -> collide_runs g nudt0 c r ->
  exists c' L L' prs, r = Some c' /\ Permutation L S /\ alen L' = alen L /\ paired nudt0 L L' prs /\ represents cu_pos g c' L'.
Proof.
  intros g c S nudt0 r ok Rep NE Hnu Hm H. destruct (rep_laid cu_pos cu_zero g ok c S Rep NE) as (h & L & PL & D0).
  assert (NL : L <> []) by (intros ->; apply Permutation_nil in PL; contradiction).
  assert (HmL : forall w, In w L -> (0 < cp_m (cu_c (snd w)))%R) by (intros w Hw; apply Hm; exact (Permutation_in _ PL Hw)).
  unfold collide_runs in H. destruct (Z.eqb_spec (c_n c) 0) as [Z0|_].
  { exfalso. apply NL. rewrite (ld_n _ _ _ _ _ _ D0) in Z0. destruct L; [reflexivity|unfold alen in Z0; cbn in Z0; lia]. }
  destruct (reorder_laid cu_pos cu_zero g h c L D0 NL) as (c1 & E1 & R1 & D). rewrite E1 in H. destruct H as (rs & Hs & H).
  destruct (sort_runs_ok g ok c1 h L D rs Hs) as (Q & HQ & ->). rewrite (coll_tasks_ok g nudt0 Q) in H by (apply n_cells_nonneg; exact ok).
  destruct H as (rnd & reg & l & Hr & Hl & ->).
  destruct (round_ok g ok c1 h L nudt0 D Hnu HmL Q HQ rnd reg l Hr Hl) as (st & reg' & L' & E & Len & St & Bu & Pd). rewrite E. cbn [option_map fst].
  eexists _, L, L', (prs g Q). split; [reflexivity|]. split; [exact PL|]. split; [exact Len|]. split; [exact Pd|].
  apply (laid_rep cu_pos g ok h); [exact R1|]. destruct D as [D1 D2 D3 D4 D5 D6 D7]. constructor; cbn [c_st c_off c_n]; try assumption.
  - rewrite Len. exact D1.
  - intros n w k E' Hk Hn. pose proof (aget_bounds _ _ _ E') as B. rewrite Len in B. destruct (aget_some L n B) as [v Ev]. pose proof (Bu n v w Ev E') as X.
    unfold but_u in X. injection X as X1 X2 _ _ _. destruct (D7 n v k Ev Hk Hn) as (A1 & A2 & A3). assert (PW : cu_pos (snd w) = cu_pos (snd v)) by (unfold cu_pos; rewrite X2; reflexivity). rewrite X1, PW. auto.
Qed.
Print Assumptions C64_collisions.

(** There is such a run. *)
Theorem C64_runs : forall g c S nudt0, geom_ok g -> represents cu_pos g c S -> S <> [] -> exists r, collide_runs g nudt0 c r.
Proof.
  intros g c S nudt0 ok Rep NE. destruct (rep_laid cu_pos cu_zero g ok c S Rep NE) as (h & L & PL & D0).
  assert (NL : L <> []) by (intros ->; apply Permutation_nil in PL; contradiction).
  unfold collide_runs. destruct (Z.eqb_spec (c_n c) 0) as [Z0|_]; [eexists; reflexivity|].
  destruct (reorder_laid cu_pos cu_zero g h c L D0 NL) as (c1 & E1 & R1 & D). rewrite E1.
  destruct (sort_runs_exist g ok c1 h L D) as (rs & Hs). destruct (sort_runs_ok g ok c1 h L D rs Hs) as (Q & HQ & ->).
  eexists. exists (Some (map (cnt Q) (zrange 0 (n_cells g + 1)), map snd Q)). split; [exact Hs|]. rewrite (coll_tasks_ok g nudt0 Q) by (apply n_cells_nonneg; exact ok).
  exists (fun _ => (1, 1)%R), (fun _ => None). eexists. split; [intros; cbn [fst snd]; lra|]. split; [apply schedule_exists|reflexivity].
Qed.
Print Assumptions C64_runs.

(** Without particles, nothing happens. *)
Theorem C64_none : forall g c nudt0 r, represents cu_pos g c [] -> collide_runs g nudt0 c r -> r = Some c.
Proof. intros g c nudt0 r (N & _) H. unfold collide_runs in H. change (alen []) with 0 in N. rewrite N in H. exact H. Qed.
Print Assumptions C64_none.

(** What the store holds afterwards: the same particles but for the momenta, and in each cell of each patch as much momentum
    and energy as before. *)
Theorem C64_conserved : forall g c S nudt0 r, geom_ok g -> represents cu_pos g c S -> S <> [] -> (0 < nudt0)%R ->
  (forall w, In w S -> (0 < cp_m (cu_c (snd w)))%R) -> collide_runs g nudt0 c r ->
  exists c' S', r = Some c' /\ represents cu_pos g c' S' /\ Permutation (map but_u S') (map but_u S) /\
    forall p q, (forall d, amount_in (p_mom d) S' p q = amount_in (p_mom d) S p q) /\ amount_in p_energy S' p q = amount_in p_energy S p q.
Proof.
  intros g c S nudt0 r ok Rep NE Hnu Hm H. destruct (C64_collisions g c S nudt0 r ok Rep NE Hnu Hm H) as (c' & L & L' & prs & -> & PL & Len & Pd & Rep').
  assert (HmL : forall w, In w L -> (0 < cp_m (cu_c (snd w)))%R) by (intros w Hw; apply Hm; exact (Permutation_in _ PL Hw)).
  exists c', L'. split; [reflexivity|]. split; [exact Rep'|]. split; [rewrite (but_u_map nudt0 L L' prs Pd Len); apply Permutation_map; exact PL|].
  assert (PF : forall (f : Z * cuprt -> bool) l l', Permutation l l' -> Permutation (filter f l) (filter f l')).
  { intros f l l' Pl. induction Pl; cbn [filter]; [constructor| | |eapply perm_trans; eassumption].
    - destruct (f x); [constructor|]; exact IHPl.
    - destruct (f x), (f y); try reflexivity. apply perm_swap. }
  assert (AP : forall f p q, amount_in f L p q = amount_in f S p q) by (intros f p q; unfold amount_in; apply rsum_perm, Permutation_map, PF, PL).
  intros p q. split; [intros d|]; rewrite <- AP; apply (amount_kept nudt0 L L' prs Pd Len Hnu HmL);
    intros p1 p2 u v nudt1 ran1 ran2 nudt M1 M2 N1 R2 E; destruct (collide_any _ _ (cp_q p1) (cp_q p2) (cp_u p1) (cp_u p2) nudt1 ran1 ran2 M1 M2 N1 R2) as (u' & v' & n' & E' & CM & CE & _);
    rewrite E in E'; injection E' as <- <- _; unfold p_mom, p_energy; cbn [cp_m cp_u]; [apply CM|exact CE].
Qed.
Print Assumptions C64_conserved.

(** How often and how strongly: in a cell with k particles there are k / 2 pairs (rounded down), and together they are of
    the strength nudt0 * k^2 / 2, also if one particle is left over -- the same as on the CPU. *)
Theorem C64_strength : forall nudt0 L L' prs p q, paired nudt0 L L' prs ->
  let k := count_in L p q in
  alen (pairs_in L prs p q) = k / 2 /\ (2 <= k -> (IZR (alen (pairs_in L prs p q)) * strength nudt0 k = nudt0 * IZR k * IZR k / 2)%R).
Proof.
  intros nudt0 L L' prs p q Pd k. pose proof (pairs_in_count nudt0 L L' prs Pd p q) as E. fold k in E. split; [exact E|].
  intros Hk. rewrite E. unfold strength. rewrite mult_IZR. assert (0 < IZR (k / 2))%R by (apply IZR_lt; lia). field. lra.
Qed.
Print Assumptions C64_strength.

(** three particles in a cell of a patch, one in another block, stored in the other order as after the exchange *)
Definition ex64_p (y : R) (u : R) : cuprt := mkcu (v3 (1 / 2) y (1 / 2))%R 1%R (mkC 1 1 (v3 u 0 0))%R.
Definition ex64_c : cm cuprt := mkcm [ex64_p (21 / 4) 1; ex64_p (1 / 2) 2; ex64_p (1 / 4) 0; ex64_p (3 / 4) (-1)] [] [] [1; 2; 3; 0]%Z [0; 3; 4]%Z 4 true.
Definition ex64_S : list (Z * cuprt) := map (pair 0) [ex64_p (1 / 2) 2; ex64_p (1 / 4) 0; ex64_p (3 / 4) (-1); ex64_p (21 / 4) 1].

Lemma ex64_low y u : (0 <= y < 1)%R -> cu_pos (ex64_p y u) = v3 0 0 0.
Proof. intros H. apply v3_ext; intros d; unfold cu_pos; rewrite get3_gen3; apply DepositProofs.fint_unique; destruct d; cbn; lra. Qed.

Example ex_C64 : geom_ok ex63_g /\ represents cu_pos ex63_g ex64_c ex64_S /\ ex64_S <> [] /\ (0 < 1 / 10)%R /\
  (forall w, In w ex64_S -> (0 < cp_m (cu_c (snd w)))%R) /\ (exists r, collide_runs ex63_g (1 / 10) ex64_c r) /\
  count_in ex64_S 0 (v3 0 0 0) = 3 /\ count_in ex64_S 0 (v3 0 5 0) = 1 /\ amount_in (p_mom D0) ex64_S 0 (v3 0 0 0) = 1%R.
Proof.
  assert (G : geom_ok ex63_g) by apply ex_C63.
  assert (P1 : cu_pos (ex64_p (1 / 2) 2) = v3 0 0 0) by (apply ex64_low; lra).
  assert (P2 : cu_pos (ex64_p (1 / 4) 0) = v3 0 0 0) by (apply ex64_low; lra).
  assert (P3 : cu_pos (ex64_p (3 / 4) (-1)) = v3 0 0 0) by (apply ex64_low; lra).
  assert (P4 : cu_pos (ex64_p (21 / 4) 1) = v3 0 5 0) by (apply v3_ext; intros d; unfold cu_pos; rewrite get3_gen3; apply DepositProofs.fint_unique; destruct d; cbn; lra).
  assert (Rep : represents cu_pos ex63_g ex64_c ex64_S).
  { split; [reflexivity|]. split.
    { intros w [<-|[<-|[<-|[<-|[]]]]]; (split; [cbn; lia|]); cbn [snd]; rewrite ?P1, ?P2, ?P3, ?P4; intros []; cbn; lia. }
    intros p b Hp Hb. pose proof (Hb D0) as H0. pose proof (Hb D1) as H1. pose proof (Hb D2) as H2. destruct b as [b0 b1 b2].
    change (nblk ex63_g D0) with 1%Z in H0. change (nblk ex63_g D1) with 2%Z in H1. change (nblk ex63_g D2) with 1%Z in H2. cbn [get3 c0 c1 c2] in H0, H1, H2. cbn [ex63_g g_np] in Hp.
    assert (p = 0)%Z as -> by lia. assert (b0 = 0)%Z as -> by lia. assert (b2 = 0)%Z as -> by lia. assert (b1 = 0 \/ b1 = 1)%Z as [-> | ->] by lia.
    - exists [ex64_p (1 / 2) 2; ex64_p (1 / 4) 0; ex64_p (3 / 4) (-1)]. split.
      + exists 0%Z, 3%Z. split; [reflexivity|]. split; [reflexivity|]. split; [lia|]. split; [cbn; lia|]. split; [reflexivity|].
        intros i Hi. cbn [c_re ex64_c]. assert (i = 0 \/ i = 1 \/ i = 2)%Z as [->|[->| ->]] by lia; [exists 1%Z|exists 2%Z|exists 3%Z]; split; reflexivity.
      + unfold ex64_S. cbn [filter map fst snd]. rewrite P1, P2, P3, P4. apply Permutation_refl.
    - exists [ex64_p (21 / 4) 1]. split.
      + exists 3%Z, 4%Z. split; [reflexivity|]. split; [reflexivity|]. split; [lia|]. split; [cbn; lia|]. split; [reflexivity|].
        intros i Hi. assert (i = 0)%Z as -> by lia. cbn [c_re ex64_c]. exists 0%Z. split; reflexivity.
      + unfold ex64_S. cbn [filter map fst snd]. rewrite P1, P2, P3, P4. apply Permutation_refl. }
  split; [exact G|]. split; [exact Rep|]. split; [discriminate|]. split; [lra|]. split; [intros w [<-|[<-|[<-|[<-|[]]]]]; cbn; lra|].
  split; [apply (C64_runs _ _ _ _ G Rep); discriminate|].
  unfold count_in, amount_in, ex64_S. cbn [filter map]. unfold in_cellb. cbn [fst snd]. rewrite P1, P2, P3, P4. split; [reflexivity|]. split; [reflexivity|].
  change (p_mom D0 (mkC 1 1 (v3 2 0 0)) + (p_mom D0 (mkC 1 1 (v3 0 0 0)) + (p_mom D0 (mkC 1 1 (v3 (-1) 0 0)) + 0)) = 1)%R. unfold p_mom, momentum; cbn [cp_m cp_u get3 c0]; ring.
Qed.
