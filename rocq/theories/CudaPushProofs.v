(** Proofs about the current left by the push on the GPU. *)
From Coq Require Import Reals Permutation.
From Verif Require Import Base Arr RSum FieldModel CurrentModel DepositProofs CurrentProofs CudaPrtModel CudaPrtSpec CudaPrtProofs CudaLaunchModel CudaLaunchSpec CudaLaunchProofs CudaSharedProofs BalanceCommProofs UidProofs GhostProofs SetupProofs CollisionProofs.
Local Open Scope Z_scope.

Lemma flat_map_flat_map {A B C} (f : B -> list C) (h : A -> list B) l : flat_map f (flat_map h l) = flat_map (fun a => flat_map f (h a)) l.
Proof. induction l as [|a l IH]; [reflexivity|]. cbn [flat_map]. rewrite flat_map_app, IH. reflexivity. Qed.

Lemma rsum_flat_map {A} (h : A -> list R) l : rsum (flat_map h l) = rsum (map (fun i => rsum (h i)) l).
Proof. induction l as [|a l IH]; [reflexivity|]. cbn [flat_map map]. rewrite rsum_app, rsum_cons, IH. reflexivity. Qed.

Lemma rsum_filter {A} (q : A -> bool) (f : A -> R) l : rsum (map f (filter q l)) = rsum (map (fun x => if q x then f x else 0%R) l).
Proof. induction l as [|a l IH]; [reflexivity|]. cbn [filter map]. rewrite rsum_cons, <- IH. destruct (q a); cbn [map]; rewrite ?rsum_cons; ring. Qed.

(** of a sum over a list without repetitions, one term *)
Lemma rsum_single {A} (f : A -> R) l a : NoDup l -> In a l -> (forall x, In x l -> x <> a -> f x = 0%R) -> rsum (map f l) = f a.
Proof.
  induction l as [|b l IH]; intros N I Z; [destruct I|]. cbn [map]. rewrite rsum_cons. inversion N; subst. destruct I as [->|I].
  - rewrite rsum_zero; [ring|]. intros x Hx. apply Z; [right; exact Hx|]. intros ->. contradiction.
  - rewrite IH; [|assumption..|intros x Hx; apply Z; right; exact Hx]. rewrite (Z b); [ring|left; reflexivity|]. intros ->. contradiction.
Qed.

Lemma jcur_perm l l' d n : Permutation l l' -> jcur l d n = jcur l' d n.
Proof. intros H. apply rsum_perm, Permutation_map, H. Qed.

Lemma jcur_flat_map {A} (h : A -> list entry) l d n : jcur (flat_map h l) d n = rsum (map (fun x => jcur (h x) d n) l).
Proof. unfold jcur. rewrite map_flat_map, rsum_flat_map. reflexivity. Qed.

Lemma current_of_jcur {P} (jof : Z -> P -> list entry) S p d n :
  current_of jof S p d n = rsum (map (fun w => if fst w =? p then jcur (jof p (snd w)) d n else 0%R) S).
Proof. unfold current_of. apply rsum_ext. intros w _. rewrite cadd_all_get. destruct (fst w =? p); [ring|reflexivity]. Qed.

Lemma nblk_bs g (ok : geom_ok g) d pos : 0 <= pos < nblk g d -> 0 <= pos * get3 (g_bs g) d /\ pos * get3 (g_bs g) d + get3 (g_bs g) d <= get3 (g_ldims g) d.
Proof. intros H. pose proof (nblk_mul g ok d). pose proof (go_bs g ok d). nia. Qed.

Section Push.
Context {P : Type} (cpos : P -> V3 Z) (g : geom) (ok : geom_ok g) (ibn : V3 Z) (c : cm P) (S : list (Z * P)).
Hypothesis rep : represents cpos g c S.
Context (calc : Z -> V3 Z -> P -> option (list entry)) (jof : Z -> P -> list entry).
Hypothesis Hcalc : forall p x, In (p, x) S -> calc p (k_ci0 (block_at g p (blkpos g (cpos x)))) x = Some (jof p x).

(** the particles of a block *)
Definition of_block (p : Z) (pos : V3 Z) : list P := map snd (filter (fun w => (fst w =? p) && in_blockb g (cpos (snd w)) pos) S).

Lemma in_of_block p pos x : In x (of_block p pos) <-> In (p, x) S /\ blkpos g (cpos x) = pos.
Proof.
  unfold of_block. rewrite in_map_iff. split.
  - intros ([p' x'] & <- & H). apply filter_In in H. cbn [fst snd] in *. destruct H as [H E]. apply Bool.andb_true_iff in E. destruct E as [E1 E2].
    apply Z.eqb_eq in E1. subst p'. apply in_blockb_spec in E2; [|exact ok]. auto.
  - intros [H E]. exists (p, x). split; [reflexivity|]. apply filter_In. cbn [fst snd]. split; [exact H|]. rewrite Z.eqb_refl. apply in_blockb_spec; [exact ok|exact E].
Qed.

Lemma block_adds_ok p pos : is_pos g p pos -> exists adds, block_adds calc c (block_at g p pos) = Some adds /\
  (forall te, In te adds -> 0 <= fst te) /\ Permutation (map snd adds) (flat_map (jof p) (of_block p pos)).
Proof.
  intros [Hp Hpos]. destruct rep as (_ & _ & R). destruct (R p pos Hp Hpos) as (l & (lo & hi & Elo & Ehi & B & _ & Len & Get) & Per). clear R.
  set (b := block_at g p pos).
  assert (RS : forall i x, aget l i = Some x -> read_slot c (lo + i) = Some x).
  { intros i x E. pose proof (aget_bounds _ _ _ E) as Bi. specialize (Get i ltac:(lia)). unfold read_slot. destruct (c_re c).
    - destruct Get as (j & -> & ->). exact E.
    - rewrite Get. exact E. }
  assert (CA : forall x, In x l -> calc p (k_ci0 b) x = Some (jof p x)).
  { intros x H. apply (Permutation_in _ Per) in H. apply in_of_block in H. destruct H as [H <-]. apply Hcalc. exact H. }
  set (h := fun n => match read_slot c n with Some x => jof p x | None => [] end).
  assert (TA : forall tid, thread_adds calc c b tid = Some (flat_map (fun n => map (fun e => (tid, e)) (h n)) (in_block_loop tpb lo hi tid)) ).
  { intros tid. unfold thread_adds, thread_slots. change (k_bid b) with (block_no g p pos). rewrite Elo, Ehi.
    rewrite (all_some_fun _ (fun n => map (fun e => (tid, e)) (h n))); [cbn [option_map]; rewrite concat_map_flat; reflexivity|].
    intros n Hn. assert (lo <= n < hi).
    { unfold in_block_loop in Hn. apply filter_In in Hn. destruct Hn as [Hn L]. apply in_strided in Hn; [|reflexivity]. apply Bool.negb_true_iff, Z.ltb_ge in L. lia. }
    destruct (aget_some l (n - lo) ltac:(lia)) as [x Ex]. pose proof (RS _ _ Ex) as E. replace (lo + (n - lo)) with n in E by lia. unfold h. rewrite E.
    change (k_p b) with p. rewrite CA by (apply aget_In in Ex; exact Ex). reflexivity. }
  exists (flat_map (fun tid => flat_map (fun n => map (fun e => (tid, e)) (h n)) (in_block_loop tpb lo hi tid)) (zrange 0 tpb)). split; [|split].
  - unfold block_adds. rewrite (all_some_fun _ (fun tid => flat_map (fun n => map (fun e => (tid, e)) (h n)) (in_block_loop tpb lo hi tid))) by (intros; apply TA).
    cbn [option_map]. rewrite concat_map_flat. reflexivity.
  - intros te H. apply in_flat_map in H. destruct H as (tid & Ht & H). apply in_flat_map in H. destruct H as (n & _ & H). apply in_map_iff in H. destruct H as (e & <- & _).
    apply in_zrange in Ht. cbn [fst]. lia.
  - rewrite map_flat_map.
    replace (flat_map _ (zrange 0 tpb)) with (flat_map h (flat_map (in_block_loop tpb lo hi) (zrange 0 tpb))).
    2:{ rewrite flat_map_flat_map. apply flat_map_ext_in'. intros tid _. rewrite map_flat_map. apply flat_map_ext_in'. intros n _. rewrite map_map. cbn [snd]. rewrite map_id. reflexivity. }
    eapply perm_trans; [apply Permutation_flat_map; apply in_block_loop_perm; [reflexivity|lia]|].
    replace (flat_map h (zrange lo hi)) with (flat_map (jof p) l); [apply Permutation_flat_map; exact Per|].
    rewrite !flat_map_concat_map. f_equal. replace lo with (0 + lo) at 1 by lia. replace hi with (alen l + lo) by lia. rewrite zrange_shift, map_map. symmetry.
    apply (map_by_index l (fun i => h (lo + i)) (jof p)). intros i x E. unfold h. rewrite (RS _ _ E). reflexivity.
Qed.

(** the particles by block *)
Lemma sum_blocks (f : Z -> P -> R) (bl : list blk) p : each_once (all_blocks g) bl ->
  (forall h : blk -> R, (forall p' pos, is_pos g p' pos -> h (block_at g p' pos) = if p' =? p then rsum (map (f p) (of_block p' pos)) else 0%R) ->
    rsum (map h bl) = rsum (map (fun w => if fst w =? p then f p (snd w) else 0%R) S)).
Proof.
  intros [ND IFF] h Hh.
  set (H := fun (b : blk) w => if ((k_p b =? p) && (fst w =? p) && (k_bid b =? key g (fst w) (cpos (snd w))))%bool then f p (snd w) else 0%R).
  transitivity (rsum (map (fun b => rsum (map (H b) S)) bl)).
  - apply rsum_ext. intros b Hb. apply IFF in Hb. destruct Hb as (p' & pos & Q & ->). rewrite (Hh p' pos Q). unfold H. cbn [block_at k_p k_bid].
    destruct (p' =? p) eqn:E; [|symmetry; apply rsum_zero; reflexivity]. apply Z.eqb_eq in E. subst p'. unfold of_block. rewrite map_map, rsum_filter.
    apply rsum_ext. intros [q x] Hw. cbn [fst snd andb]. destruct (q =? p) eqn:E; [|reflexivity]. apply Z.eqb_eq in E. subst q. cbn [andb].
    destruct rep as (_ & RI & _). destruct (RI _ Hw) as [Hq Hc]. cbn [fst snd] in Hq, Hc.
    destruct (in_blockb g (cpos x) pos) eqn:E1.
    + apply in_blockb_spec in E1; [|exact ok]. unfold key. rewrite E1, Z.eqb_refl. reflexivity.
    + destruct (block_no g p pos =? key g p (cpos x)) eqn:E2; [|reflexivity]. exfalso. apply Z.eqb_eq in E2. destruct Q as [Q1 Q2].
      apply (block_no_inj g ok) in E2; [|assumption|assumption|assumption|apply blkpos_range; assumption]. destruct E2 as [_ E2]. symmetry in E2.
      apply in_blockb_spec in E2; [|exact ok]. congruence.
  - rewrite rsum_swap. apply rsum_ext. intros [q x] Hw. cbn [fst snd]. destruct rep as (_ & RI & _). destruct (RI _ Hw) as [Hq Hc]. cbn [fst snd] in Hq, Hc.
    assert (Q : is_pos g q (blkpos g (cpos x))) by (split; [exact Hq|apply blkpos_range; assumption]).
    rewrite (rsum_single _ bl (block_at g q (blkpos g (cpos x)))); [|exact ND|apply IFF; eexists _, _; split; [exact Q|reflexivity]|].
    + unfold H. cbn [block_at k_p k_bid fst snd]. unfold key. rewrite Z.eqb_refl, Bool.andb_true_r. destruct (q =? p); reflexivity.
    + intros b Hb Nb. unfold H. cbn [fst snd]. destruct (_ && _ && _)%bool eqn:E; [|reflexivity]. exfalso. apply Nb. rewrite !Bool.andb_true_iff, !Z.eqb_eq in E. destruct E as [_ E].
      apply IFF in Hb. destruct Hb as (p' & pos & Q' & ->). apply (block_at_inj g ok) in E; [|exact Q'|exact Q]. destruct E as [-> ->]. reflexivity.
Qed.

(** ** CurrmemShared *)

Section Shared.
Hypothesis Hyz : g_yz g = true.
Hypothesis Hsmall : stride_y g * stride_z g <= tpb.
Hypothesis Hbs : 3 <= c1 (g_bs g) /\ 3 <= c2 (g_bs g).
Hypothesis Hibn : 0 <= c0 ibn /\ 2 <= c1 ibn /\ 2 <= c2 ibn.
(** the current of a particle stays near its block *)
Hypothesis Hnear : forall p x e, In (p, x) S -> In e (jof p x) -> let ci0 := k_ci0 (block_at g p (blkpos g (cpos x))) in
  c0 (snd (fst e)) = 0 /\ c1 ci0 - 1 <= c1 (snd (fst e)) <= c1 ci0 + c1 (g_bs g) + 1 /\ c2 ci0 - 1 <= c2 (snd (fst e)) <= c2 ci0 + c2 (g_bs g) + 1.

(** what a block adds at a point of the field *)
Definition block_cur (p : Z) (pos : V3 Z) (d : dim3) (n : V3 Z) : R := rsum (map (fun x => jcur (jof p x) d n) (of_block p pos)).

Lemma block_runs_ok p pos r : is_pos g p pos -> block_runs calc g c (block_at g p pos) r ->
  exists ts, r = Some ts /\ NoDup (map fst ts) /\
    (forall t, In t ts -> exists m jy jz, in_box g jy jz /\ fst t = (p, m, v3 0 (jy + c1 pos * c1 (g_bs g)) (jz + c2 pos * c2 (g_bs g)))) /\
    forall q d n, rsum (map (fun t => if addr_eqb (fst t) (q, d, n) then snd t else 0%R) ts) = (if p =? q then block_cur p pos d n else 0%R).
Proof.
  intros Q H. destruct (block_adds_ok p pos Q) as (adds & EA & HT & PA). unfold block_runs in H. rewrite EA in H.
  destruct H as (sh & l & Pl & ->). set (b := block_at g p pos) in *.
  assert (Nr : forall te, In te l -> c0 (snd (fst (snd te))) = 0 /\ add_ok g (k_ci0 b) te).
  { intros te Hte. apply (Permutation_in _ Pl) in Hte. assert (I : In (snd te) (flat_map (jof p) (of_block p pos))) by (apply (Permutation_in _ PA); apply in_map; exact Hte).
    apply in_flat_map in I. destruct I as (x & Hx & He). apply in_of_block in Hx. destruct Hx as [Hx E].
    pose proof (Hnear p x (snd te) Hx He) as N. cbv zeta in N. rewrite E in N. fold b in N. split; [apply N|]. split; [apply HT; exact Hte|]. unfold in_box, stride_y, stride_z. lia. }
  destruct (sh_adds_ok g (k_ci0 b) l (sh_zero g sh)) as (sh' & E & Sum); [intros te Hte; apply Nr; exact Hte|]. rewrite E. cbn [option_map].
  exists (block_tasks g b sh'). split; [reflexivity|]. split; [apply block_tasks_nodup; assumption|]. split.
  { intros t Ht. apply block_tasks_addr in Ht; [|assumption..]. destruct Ht as (m & jy & jz & B & Et). exists m, jy, jz. split; [exact B|].
    rewrite Et. unfold b. cbn [block_at k_ci0 k_p]. unfold gen3. cbn [c1 c2 get3]. reflexivity. }
  intros q d n. rewrite block_tasks_sum by assumption. cbv zeta. change (k_p b) with p. destruct (p =? q) eqn:Eq; [|reflexivity]. cbn [andb].
  assert (J : block_cur p pos d n = jcur (map snd l) d n).
  { unfold block_cur. rewrite <- jcur_flat_map. symmetry. apply jcur_perm. eapply perm_trans; [apply Permutation_map; exact Pl|exact PA]. }
  rewrite J. clear J. match goal with |- (if ?cc then _ else _) = _ => destruct cc eqn:C end.
  - rewrite !Bool.andb_true_iff, !Z.eqb_eq, !Z.leb_le, !Z.ltb_lt in C. destruct C as [[[[C0 C1] C2] C3] C4].
    assert (B : in_box g (c1 n - c1 (k_ci0 b)) (c2 n - c2 (k_ci0 b))) by (unfold in_box; lia).
    rewrite Sum, sh_zero_sum by assumption. rewrite Rplus_0_l. unfold adds_at, jcur. rewrite map_map. apply rsum_ext. intros [t [[m n'] v]] Hte.
    destruct (Nr _ Hte) as [N0 _]. cbn [fst snd] in N0 |- *. rewrite <- v3_eqb_delta.
    assert (V : v3_eqb n' n = ((c1 n' - c1 (k_ci0 b) =? c1 n - c1 (k_ci0 b)) && (c2 n' - c2 (k_ci0 b) =? c2 n - c2 (k_ci0 b)))%bool).
    { apply Bool.eq_iff_eq_true. rewrite v3_eqb_eq, Bool.andb_true_iff, !Z.eqb_eq. split; [intros ->; lia|]. intros [V1 V2]. destruct n as [n0 n1 n2], n' as [m0 m1 m2]. cbn [c0 c1 c2] in *. f_equal; lia. }
    rewrite V. destruct (dim3_eqb m d), (c1 n' - c1 (k_ci0 b) =? c1 n - c1 (k_ci0 b)), (c2 n' - c2 (k_ci0 b) =? c2 n - c2 (k_ci0 b)); cbn [andb]; ring.
  - symmetry. unfold jcur. rewrite map_map. apply rsum_zero. intros [t [[m n'] v]] Hte. destruct (Nr _ Hte) as [N0 [_ [B1 B2]]]. cbn [fst snd] in *. rewrite <- v3_eqb_delta.
    destruct (v3_eqb n' n) eqn:V; [|destruct (dim3_eqb m d); ring]. exfalso. apply v3_eqb_eq in V. subst n'.
    assert (C' : ((c0 n =? 0) && (0 <=? c1 n - c1 (k_ci0 b) + 1) && (c1 n - c1 (k_ci0 b) + 1 <? stride_y g) && (0 <=? c2 n - c2 (k_ci0 b) + 1) && (c2 n - c2 (k_ci0 b) + 1 <? stride_z g))%bool = true).
    { rewrite !Bool.andb_true_iff, !Z.eqb_eq, !Z.leb_le, !Z.ltb_lt. repeat split; lia. }
    congruence.
Qed.

(** the updates of the blocks of a launch *)
Lemma launch_tasks s bl : 0 <= s < 4 -> NoDup bl -> (forall b, In b bl -> blocks_of_start g s b) -> forall rs, Forall2 (block_runs calc g c) bl rs ->
  exists tss, all_some rs = Some tss /\ NoDup (map fst (concat tss)) /\
    (forall t, In t (concat tss) -> in_field g ibn (fst t) = true /\
      exists b m jy jz, In b bl /\ in_box g jy jz /\ fst t = (k_p b, m, v3 0 (jy + c1 (k_ci0 b)) (jz + c2 (k_ci0 b)))) /\
    forall q d n, rsum (map (fun t => if addr_eqb (fst t) (q, d, n) then snd t else 0%R) (concat tss)) =
      rsum (map (fun b => if k_p b =? q then block_cur (k_p b) (pos_of g (k_bid b)) d n else 0%R) bl).
Proof.
  intros Hs ND HB rs H. induction H as [|b r bl rs Hb H IH].
  - exists []. split; [reflexivity|]. split; [constructor|]. split; [intros t []|]. reflexivity.
  - inversion ND as [|b_ bl_ Nb NDb]; subst b_ bl_. destruct IH as (tss & E & N & A & Sum); [assumption|intros b' Hb'; apply HB; right; exact Hb'|].
    pose proof (HB b (or_introl eq_refl)) as K. destruct K as (p & pos & Q & M1 & M2 & Eb).
    assert (Hb' : block_runs calc g c (block_at g p pos) r) by (rewrite <- Eb; exact Hb).
    destruct (block_runs_ok p pos r Q Hb') as (ts & -> & N' & A' & Sum').
    assert (Ap : forall t, In t ts -> in_field g ibn (fst t) = true).
    { intros t Ht. destruct (A' t Ht) as (m & jy & jz & [B1 B2] & ->). destruct Q as [Q1 Q2]. pose proof (nblk_bs g ok D1 _ (Q2 D1)) as L1. pose proof (nblk_bs g ok D2 _ (Q2 D2)) as L2.
      pose proof (go_ld g ok D0) as L0. cbn [get3] in L0, L1, L2. unfold in_field. cbn [forallb dims3 get3 c0 c1 c2]. unfold stride_y, stride_z in B1, B2.
      rewrite !Bool.andb_true_iff, !Z.leb_le, !Z.ltb_lt. repeat split; lia. }
    exists (ts :: tss). cbn [all_some]. rewrite E. split; [reflexivity|]. cbn [concat]. rewrite !map_app. split; [|split].
    + apply DomainProofs.NoDup_app_intro; [exact N'|exact N|]. intros a H1 H2. apply in_map_iff in H1, H2. destruct H1 as (t1 & <- & H1), H2 as (t2 & E2 & H2).
      destruct (A' _ H1) as (m & jy & jz & [B1 B2] & E1). destruct (A _ H2) as (_ & b' & m' & jy' & jz' & Ib & [B1' B2'] & E3).
      rewrite E3, E1 in E2. injection E2 as E2 _ Ey Ez.
      destruct (HB b' (or_intror Ib)) as (p' & pos' & Q' & M1' & M2' & Eb'). subst b'. cbn [block_at k_p k_ci0] in *. subst p'.
      unfold gen3 in Ey, Ez. cbn [c1 c2 get3] in Ey, Ez.
      assert (pos = pos').
      { assert (c1 pos = c1 pos').
        { unfold stride_y in *. assert (c1 pos - c1 pos' < 2) by nia. assert (c1 pos' - c1 pos < 2) by nia. pose proof (Z.div_mod (c1 pos) 2 ltac:(lia)). pose proof (Z.div_mod (c1 pos') 2 ltac:(lia)). lia. }
        assert (c2 pos = c2 pos').
        { unfold stride_z in *. assert (c2 pos - c2 pos' < 2) by nia. assert (c2 pos' - c2 pos < 2) by nia. pose proof (Z.div_mod (c2 pos) 2 ltac:(lia)). pose proof (Z.div_mod (c2 pos') 2 ltac:(lia)). lia. }
        pose proof (nblk_yz g ok Hyz) as N0. destruct Q as [_ Q2], Q' as [_ Q2']. pose proof (Q2 D0). pose proof (Q2' D0). apply v3_ext. intros []; cbn [get3] in *; lia. }
      subst pos'. rewrite Eb in Nb. contradiction.
    + intros t Ht. apply in_app_or in Ht. destruct Ht as [Ht|Ht].
      * split; [apply Ap; exact Ht|]. destruct (A' _ Ht) as (m & jy & jz & B & Et). exists b, m, jy, jz. split; [left; reflexivity|]. split; [exact B|]. rewrite Et, Eb. unfold block_at, gen3. cbn [k_p k_ci0 c1 c2 get3]. reflexivity.
      * destruct (A _ Ht) as (F & b' & m & jy & jz & Ib & B & Et). split; [exact F|]. exists b', m, jy, jz. split; [right; exact Ib|]. split; assumption.
    + intros q d n. rewrite map_app, rsum_app, Sum, Sum'. cbn [map]. rewrite rsum_cons. f_equal. rewrite Eb. cbn [block_at k_p k_bid].
      destruct (of_block_no g ok p pos Q) as (_ & -> & _). reflexivity.
Qed.

Lemma launch_ok s F r : 0 <= s < 4 -> launch_runs calc g ibn c s F r -> exists F', r = Some F' /\
  forall q d n, F' q d n = (F q d n + rsum (map (fun b => if k_p b =? q then block_cur (k_p b) (pos_of g (k_bid b)) d n else 0) (q_blocks g s)))%R.
Proof.
  intros Hs (rs & H & HR). destruct (q_blocks_once g ok s Hs Hyz) as [ND IFF].
  destruct (launch_tasks s (q_blocks g s) Hs ND (fun b => proj1 (IFF b)) rs H) as (tss & E & N & A & Sum). rewrite E in HR.
  destruct HR as (reg & l & Sch & ->). destruct (exec_race g ibn (concat tss) N (fun t Ht => proj1 (A t Ht)) F l Sch reg) as (st & -> & G).
  exists (fst st). split; [reflexivity|]. intros q d n. specialize (G (q, d, n)). cbn [jget] in G. rewrite G, Sum. reflexivity.
Qed.

Lemma launches_ok ss : (forall s, In s ss -> 0 <= s < 4) -> forall F r, launches_run calc g ibn c ss F r -> exists F', r = Some F' /\
  forall q d n, F' q d n = (F q d n + rsum (map (fun b => if k_p b =? q then block_cur (k_p b) (pos_of g (k_bid b)) d n else 0) (flat_map (q_blocks g) ss)))%R.
Proof.
  induction ss as [|s ss IH]; intros Hs F r H.
  - cbn in H. exists F. split; [exact H|]. intros. cbn. ring.
  - destruct H as (r1 & H1 & H2). destruct (launch_ok s F r1) as (F1 & -> & G1); [apply Hs; left; reflexivity|exact H1|].
    destruct (IH (fun s' Hs' => Hs s' (or_intror Hs')) F1 r H2) as (F' & -> & G). exists F'. split; [reflexivity|].
    intros q d n. rewrite G, G1. cbn [flat_map]. rewrite map_app, rsum_app. ring.
Qed.

Lemma push_ok_shared F r : S <> [] -> push_runs calc g ibn c F r -> exists F', r = Some F' /\ forall p d n, F' p d n = current_of jof S p d n.
Proof.
  intros HS H. unfold push_runs in H. assert (c_n c <> 0).
  { destruct rep as (-> & _). destruct S as [|w S']; [congruence|]. unfold alen. cbn [length]. lia. }
  destruct (c_n c =? 0) eqn:E; [apply Z.eqb_eq in E; contradiction|].
  destruct (launches_ok q_starts) with (F := zero_currents F) (r := r) as (F' & -> & G); [intros s Hs; apply in_zrange in Hs; exact Hs|exact H|].
  exists F'. split; [reflexivity|]. intros p d n. rewrite G. unfold zero_currents. rewrite Rplus_0_l, current_of_jcur.
  apply (sum_blocks (fun p x => jcur (jof p x) d n) _ p (q_all_once g ok Hyz)). intros p' pos Q. cbn [block_at k_p k_bid]. destruct (p' =? p) eqn:E'; [|reflexivity].
  apply Z.eqb_eq in E'. subst p'. destruct (of_block_no g ok p pos Q) as (_ & -> & _). reflexivity.
Qed.

(** and there are runs *)
Lemma push_runs_exist F : exists r, push_runs calc g ibn c F r.
Proof.
  unfold push_runs. destruct (c_n c =? 0); [eexists; reflexivity|]. assert (L : forall ss, (forall s, In s ss -> 0 <= s < 4) -> forall F, exists r, launches_run calc g ibn c ss F r).
  { induction ss as [|s ss IH]; intros Hs F1; [exists (Some F1); reflexivity|].
    assert (B : forall bl, (forall b, In b bl -> blocks_of_start g s b) -> exists rs, Forall2 (block_runs calc g c) bl rs).
    { induction bl as [|b bl IHb]; intros HB; [exists []; constructor|]. destruct IHb as [rs Hrs]; [intros b' Hb'; apply HB; right; exact Hb'|].
      destruct (HB b (or_introl eq_refl)) as (p & pos & Q & _ & _ & ->). destruct (block_adds_ok p pos Q) as (adds & EA & _).
      eexists (_ :: rs). constructor; [|exact Hrs]. unfold block_runs. rewrite EA. exists (fun _ => 0%R), adds. split; [reflexivity|reflexivity]. }
    destruct (q_blocks_once g ok s (Hs s (or_introl eq_refl)) Hyz) as [ND IFF]. destruct (B (q_blocks g s) (fun b => proj1 (IFF b))) as [rs Hrs].
    assert (exists r1, launch_runs calc g ibn c s F1 r1) as [r1 H1].
    { destruct (all_some rs) as [tss|] eqn:E; eexists; exists rs; (split; [exact Hrs|]); rewrite E; [|reflexivity].
      exists (fun _ => 0%R). eexists. split; [apply schedule_exists|reflexivity]. }
    destruct r1 as [F2|].
    - destruct (IH (fun s' Hs' => Hs s' (or_intror Hs')) F2) as [r Hr]. exists r, (Some F2). split; assumption.
    - exists None, None. split; [exact H1|reflexivity]. }
  apply L. intros s Hs. apply in_zrange in Hs. exact Hs.
Qed.
End Shared.

(** ** CurrmemGlobal *)

Section Global.
Hypothesis Hfield : forall p x e, In (p, x) S -> In e (jof p x) -> in_field g ibn (p, fst (fst e), snd (fst e)) = true.

Lemma g_adds_ok l : (forall pe, In pe l -> in_field g ibn (fst pe, fst (fst (snd pe)), snd (fst (snd pe))) = true) -> forall F, exists F', g_adds g ibn F l = Some F' /\
  forall p d n, F' p d n = (F p d n + rsum (map (fun pe => if fst pe =? p then jcur [snd pe] d n else 0) l))%R.
Proof.
  induction l as [|[q [[m n'] v]] l IH]; intros H F.
  - exists F. split; [reflexivity|]. intros. cbn. ring.
  - cbn [g_adds fst snd]. unfold g_add. pose proof (H _ (or_introl eq_refl)) as Hf. cbn [fst snd] in Hf. rewrite Hf.
    destruct (IH (fun pe Hpe => H pe (or_intror Hpe)) (jset F (q, m, n') (F q m n' + v)%R)) as (F' & E & G). exists F'. split; [exact E|].
    intros p d n. rewrite G. cbn [map]. rewrite rsum_cons. cbn [fst snd]. unfold jset, jcur. cbn [map]. rewrite rsum_cons. cbn [fst snd rsum fold_right addr_eqb]. rewrite <- v3_eqb_delta.
    destruct (q =? p) eqn:E1; cbn [andb]; [|ring]. destruct (dim3_eqb m d) eqn:E2; cbn [andb]; [|ring]. destruct (v3_eqb n' n) eqn:E3; [|ring].
    apply Z.eqb_eq in E1. apply dim3_eqb_eq in E2. apply v3_eqb_eq in E3. subst. ring.
Qed.

Lemma push_ok_global F r : S <> [] -> push_global_runs calc g ibn c F r -> exists F', r = Some F' /\ forall p d n, F' p d n = current_of jof S p d n.
Proof.
  intros HS H. unfold push_global_runs in H. assert (c_n c <> 0).
  { destruct rep as (-> & _). destruct S as [|w S']; [congruence|]. unfold alen. cbn [length]. lia. }
  destruct (c_n c =? 0) eqn:E; [apply Z.eqb_eq in E; contradiction|].
  destruct (simple_once g ok) as [ND IFF].
  set (ad := fun b : blk => match block_adds calc c b with Some adds => map (fun te => (k_p b, snd te)) adds | None => [] end).
  assert (LA : launch_adds calc g c = Some (flat_map ad (simple_blocks g))).
  { unfold launch_adds. rewrite (all_some_fun _ ad); [cbn [option_map]; rewrite concat_map_flat; reflexivity|]. intros b Hb. apply IFF in Hb. destruct Hb as (p & pos & Q & ->).
    unfold ad. destruct (block_adds_ok p pos Q) as (adds & -> & _). reflexivity. }
  rewrite LA in H. destruct H as (l & Pl & ->).
  assert (AD : forall p pos, is_pos g p pos -> exists es, ad (block_at g p pos) = map (fun e => (p, e)) es /\ Permutation es (flat_map (jof p) (of_block p pos))).
  { intros p pos Q. unfold ad. destruct (block_adds_ok p pos Q) as (adds & -> & _ & PA). exists (map snd adds). split; [rewrite map_map; reflexivity|exact PA]. }
  destruct (g_adds_ok l) with (F := zero_currents F) as (F' & EF & G).
  { intros pe Hpe. apply (Permutation_in _ Pl) in Hpe. apply in_flat_map in Hpe. destruct Hpe as (b & Hb & Hpe). apply IFF in Hb. destruct Hb as (p & pos & Q & ->).
    destruct (AD p pos Q) as (es & Ead & Pe). rewrite Ead in Hpe. apply in_map_iff in Hpe. destruct Hpe as (e & <- & He). cbn [fst snd]. apply (Permutation_in _ Pe) in He. apply in_flat_map in He. destruct He as (x & Hx & He).
    apply in_of_block in Hx. apply (Hfield p x e); [apply Hx|exact He]. }
  exists F'. split; [exact EF|]. intros p d n. rewrite G. unfold zero_currents. rewrite Rplus_0_l, current_of_jcur.
  rewrite (rsum_perm _ _ (Permutation_map _ Pl)), map_flat_map, rsum_flat_map.
  apply (sum_blocks (fun p x => jcur (jof p x) d n) _ p (conj ND IFF)). intros p' pos Q. destruct (AD p' pos Q) as (es & -> & Pe). rewrite map_map. cbn [fst snd].
  destruct (p' =? p) eqn:E'; [|apply rsum_zero; reflexivity]. apply Z.eqb_eq in E'. subst p'.
  transitivity (jcur es d n).
  { unfold jcur. apply rsum_ext. intros e _. cbn [map]. rewrite rsum_cons. cbn. ring. }
  rewrite (jcur_perm _ _ d n Pe). apply jcur_flat_map.
Qed.

Lemma push_global_exist F : exists r, push_global_runs calc g ibn c F r.
Proof.
  unfold push_global_runs. destruct (c_n c =? 0); [eexists; reflexivity|]. destruct (launch_adds calc g c) as [adds|]; [|eexists; reflexivity].
  eexists. exists adds. split; reflexivity.
Qed.
End Global.
End Push.
