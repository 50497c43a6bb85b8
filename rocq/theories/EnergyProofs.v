From Coq Require Import Reals Lra.
From Verif Require Import Base Arr RSum StorageModel StorageProofs DomainModel DomainSpec DomainProofs DomainBoxProofs BalanceCommProofs DdcPrtSpec DdcPrtProofs GhostModel GhostSpec GhostProofs ReflectProofs EnergyModel EnergySpec.
Local Open Scope R_scope.

(** ** Particles *)
Definition negb_q (pt : prt) : bool := if Rlt_dec (prt_q pt) 0 then true else false.
Definition posb_q (pt : prt) : bool := if Rlt_dec 0 (prt_q pt) then true else false.
Definition w_of (pt : prt) : R := prt_qni_wni pt / prt_q pt.

Section Prt.
  Variables (fnqs fac : R).
  Let en (pt : prt) : R := kinetic (prt_u pt) (prt_m pt) (w_of pt) * fnqs * fac.
  Let step (o : option (R * R)) (pt : prt) := match o with Some vals => add_prt fnqs fac pt vals | None => None end.

  Lemma prts_val l : forall a b, (forall pt, In pt l -> prt_q pt <> 0) ->
    fold_left step l (Some (a, b)) = Some (a + sum_where negb_q en l, b + sum_where posb_q en l).
  Proof.
    induction l as [|pt l IH]; intros a b H; [cbn; unfold sum_where; cbn; f_equal; f_equal; ring|].
    cbn [fold_left]. assert (prt_q pt <> 0) as Hq by (apply H; left; reflexivity).
    unfold step at 2, add_prt. cbv zeta. cbn [fst snd]. unfold sum_where in *. cbn [filter]. unfold negb_q at 1, posb_q at 1.
    destruct (Rlt_dec (prt_q pt) 0), (Rlt_dec 0 (prt_q pt)); try lra.
    - rewrite IH by (intros q Hq'; apply H; right; exact Hq'). cbn [map]. rewrite rsum_cons. f_equal. f_equal. change (en pt) with (kinetic (prt_u pt) (prt_m pt) (w_of pt) * fnqs * fac). unfold kinetic at 1, w_of at 1. ring.
    - rewrite IH by (intros q Hq'; apply H; right; exact Hq'). cbn [map]. rewrite rsum_cons. f_equal. f_equal. change (en pt) with (kinetic (prt_u pt) (prt_m pt) (w_of pt) * fnqs * fac). unfold kinetic at 1, w_of at 1. ring.
  Qed.

  Lemma prts_none l : fold_left step l None = None.
  Proof. induction l; [reflexivity|exact IHl]. Qed.

  Lemma prts_neutral l : forall o, (exists pt, In pt l /\ prt_q pt = 0) -> fold_left step l o = None.
  Proof.
    induction l as [|pt l IH]; intros o [x [Hx Hq]]; [destruct Hx|]. cbn [fold_left]. destruct Hx as [->|Hx]; [|apply IH; eauto].
    assert (step o x = None) as ->; [|apply prts_none]. unfold step, add_prt. destruct o; [|reflexivity]. cbv zeta.
    destruct (Rlt_dec (prt_q x) 0); [lra|]. destruct (Rlt_dec 0 (prt_q x)); [lra|reflexivity].
  Qed.

  Lemma patches_val (ll : list (list prt)) : forall o, fold_left (fun o prts => fold_left step prts o) ll o = fold_left step (concat ll) o.
  Proof. induction ll as [|l ll IH]; intros o; [reflexivity|]. cbn [concat fold_left]. rewrite fold_left_app. apply IH. Qed.
End Prt.

Lemma sum_where_app {P} (b : P -> bool) e l l' : sum_where b e (l ++ l') = sum_where b e l + sum_where b e l'.
Proof. unfold sum_where. rewrite filter_app, map_app. apply rsum_app. Qed.

Lemma sum_where_perm {P} (b : P -> bool) e l l' : Permutation l l' -> sum_where b e l = sum_where b e l'.
Proof. intros H. unfold sum_where. apply rsum_perm, Permutation_map. induction H; cbn [filter]; [constructor| | |eapply perm_trans; eassumption].
  - destruct (b x); [constructor|]; assumption.
  - destruct (b x), (b y); try reflexivity; try constructor.
Qed.

Lemma sum_where_nonneg {P} (b : P -> bool) e l : (forall x, In x l -> 0 <= e x) -> 0 <= sum_where b e l.
Proof. intros H. unfold sum_where. apply rsum_nonneg. intros x Hx. apply filter_In in Hx. apply H, Hx. Qed.

Lemma kinetic_nonneg u m w : 0 <= m -> 0 <= w -> 0 <= kinetic u m w.
Proof.
  intros Hm Hw. unfold kinetic. apply Rmult_le_pos; [apply Rmult_le_pos|]; try assumption.
  assert (1 <= sqrt (1 + c0 u * c0 u + c1 u * c1 u + c2 u * c2 u)); [|lra]. rewrite <- sqrt_1 at 1. apply sqrt_le_1_alt.
  pose proof (Rle_0_sqr (c0 u)). pose proof (Rle_0_sqr (c1 u)). pose proof (Rle_0_sqr (c2 u)). unfold Rsqr in *. lra.
Qed.

(** ** Reduction *)
Lemma write_one_val {A} (C : list A) (size : Z) (vals : Z -> option (list R)) (S : Z -> A -> R) : (0 <= size)%Z ->
  (forall r, (0 <= r < size)%Z -> vals r = Some (map (S r) C)) ->
  write_one (length C) size vals = Some (map (fun a => rsum (map (fun r => S r a) (zrange 0 size))) C).
Proof.
  intros Hs H. unfold write_one.
  assert (G : forall l acc, (forall r, In r l -> (0 <= r < size)%Z) ->
    fold_left (fun o r => match o, vals r with Some a, Some b => Some (vsum a b) | _, _ => None end) l (Some (map acc C)) =
    Some (map (fun a => acc a + rsum (map (fun r => S r a) l)) C)).
  { induction l as [|r l IH]; intros acc Hl.
    - cbn. f_equal. apply map_ext. intros a. ring.
    - cbn [fold_left]. rewrite (H r) by (apply Hl; left; reflexivity).
      replace (vsum (map acc C) (map (S r) C)) with (map (fun a => acc a + S r a) C).
      + rewrite IH by (intros q Hq; apply Hl; right; exact Hq). f_equal. apply map_ext. intros a. cbn [map]. rewrite rsum_cons. ring.
      + unfold vsum. clear. induction C as [|a C IH]; [reflexivity|]. cbn [map combine]. f_equal. exact IH. }
  replace (repeat 0 (length C)) with (map (fun _ : A => 0) C) by (clear; induction C; cbn; congruence).
  rewrite G by (intros r Hr; apply in_zrange in Hr; exact Hr). f_equal. apply map_ext. intros a. ring.
Qed.

Lemma write_one_none n size vals r : (0 <= r < size)%Z -> vals r = None -> write_one n size vals = None.
Proof.
  intros Hr H. unfold write_one. assert (In r (zrange 0 size)) as HI by (apply in_zrange; exact Hr). revert HI. generalize (Some (repeat 0 n)).
  induction (zrange 0 size) as [|q l IH]; intros o HI; [destruct HI|]. cbn [fold_left]. destruct HI as [->|HI]; [|apply IH, HI].
  rewrite H. assert (forall l, fold_left (fun o r => match o, vals r with Some a, Some b => Some (vsum a b) | _, _ => None end) l None = None) as E by (clear; induction l; auto).
  destruct o; apply E.
Qed.

(** ** Fields *)
Section Cells.
  Variables (f : mfields) (mem : Z -> R) (first : V3 Z) (fac : R).

  Lemma add_cell_val p x (v S : Z -> R) : (forall m, In m EH_comps -> view_read f mem first p m x = Some (v m)) ->
    add_cell f mem first fac p x (map S EH_comps) = Some (map (fun m => S m + v m * v m * fac) EH_comps).
  Proof.
    intros H. unfold add_cell. revert H. generalize EH_comps as C. induction C as [|m C IH]; intros H; [reflexivity|].
    cbn [map combine fold_right]. rewrite IH by (intros k Hk; apply H; right; exact Hk). rewrite H by (left; reflexivity). reflexivity.
  Qed.

  Let stepx (p : Z) (o : option (list R)) (x : V3 Z) := match o with Some EH2 => add_cell f mem first fac p x EH2 | None => None end.

  Lemma cells_val p (v : Z -> V3 Z -> R) l : (forall m x, In m EH_comps -> In x l -> view_read f mem first p m x = Some (v m x)) -> forall S,
    fold_left (stepx p) l (Some (map S EH_comps)) = Some (map (fun m => S m + rsum (map (fun x => v m x * v m x * fac) l)) EH_comps).
  Proof.
    induction l as [|x l IH]; intros H S.
    - cbn [fold_left]. f_equal. apply map_ext. intros m. cbn. ring.
    - cbn [fold_left]. unfold stepx at 2. rewrite (add_cell_val p x (fun m => v m x) S) by (intros m Hm; apply H; [exact Hm|left; reflexivity]).
      rewrite IH by (intros m y Hm Hy; apply H; [exact Hm|right; exact Hy]). f_equal. apply map_ext. intros m. cbn [map]. rewrite rsum_cons. ring.
  Qed.

  Lemma patches_cells_val (v : Z -> Z -> V3 Z -> R) xs ps : (forall p m x, In p ps -> In m EH_comps -> In x xs -> view_read f mem first p m x = Some (v p m x)) -> forall S,
    fold_left (fun o p => fold_left (stepx p) xs o) ps (Some (map S EH_comps)) =
    Some (map (fun m => S m + rsum (map (fun p => rsum (map (fun x => v p m x * v p m x * fac) xs)) ps)) EH_comps).
  Proof.
    induction ps as [|p ps IH]; intros H S.
    - cbn [fold_left]. f_equal. apply map_ext. intros m. cbn. ring.
    - cbn [fold_left]. rewrite (cells_val p (v p)) by (intros m x Hm Hx; apply H; [left; reflexivity|exact Hm|exact Hx]).
      rewrite IH by (intros q m x Hq; apply H; right; exact Hq). f_equal. apply map_ext. intros m. cbn [map]. rewrite rsum_cons. ring.
  Qed.

  Lemma add_cell_length p x E E' : length E = 6%nat -> add_cell f mem first fac p x E = Some E' -> length E' = 6%nat.
  Proof.
    intros HL. do 7 (destruct E as [|? E]; try discriminate HL). unfold add_cell, EH_comps. cbn [combine fold_right].
    repeat match goal with |- context [view_read f mem first p ?m x] => destruct (view_read f mem first p m x) end; try discriminate. intros [= <-]. reflexivity.
  Qed.

  Definition six (o : option (list R)) : Prop := match o with Some E => length E = 6%nat | None => True end.

  Lemma six_step p x o : six o -> six (stepx p o x).
  Proof. destruct o as [E|]; intros H; [|exact I]. unfold stepx. destruct (add_cell f mem first fac p x E) eqn:E1; [|exact I]. exact (add_cell_length p x E l H E1). Qed.

  Lemma six_cells p xs : forall o, six o -> six (fold_left (stepx p) xs o).
  Proof. induction xs as [|x xs IH]; intros o H; [exact H|]. cbn [fold_left]. apply IH, six_step, H. Qed.

  Lemma cells_none p xs : fold_left (stepx p) xs None = None.
  Proof. induction xs; auto. Qed.

  (** one bad access ends it *)
  Lemma cells_bad p m x xs : In m EH_comps -> In x xs -> view_read f mem first p m x = None -> forall o, six o -> fold_left (stepx p) xs o = None.
  Proof.
    intros Hm. induction xs as [|y xs IH]; intros HI E o H; [destruct HI|]. cbn [fold_left]. destruct HI as [->|HI]; [|apply IH; [exact HI|exact E|apply six_step, H]].
    assert (stepx p o x = None) as ->; [|apply cells_none]. destruct o as [EH|]; [|reflexivity]. cbn [six] in H.
    do 7 (destruct EH as [|? EH]; try discriminate H). unfold stepx, add_cell, EH_comps in *. cbn [combine fold_right].
    cbn [In] in Hm. destruct Hm as [<-|[<-|[<-|[<-|[<-|[<-|[]]]]]]]; rewrite E;
    repeat match goal with |- context [view_read f mem first p ?m x] => destruct (view_read f mem first p m x) end; reflexivity.
  Qed.

  Lemma patches_bad p m x xs ps : In p ps -> In m EH_comps -> In x xs -> view_read f mem first p m x = None -> forall o, six o ->
    fold_left (fun o p => fold_left (stepx p) xs o) ps o = None.
  Proof.
    intros HI Hm Hx E. induction ps as [|q ps IH]; intros o H; [destruct HI|]. cbn [fold_left]. destruct HI as [->|HI]; [|apply IH; [exact HI|apply six_cells, H]].
    rewrite (cells_bad p m x xs Hm Hx E o H). clear. induction ps; [reflexivity|]. cbn [fold_left]. rewrite cells_none. exact IHps.
  Qed.
End Cells.

Lemma in_cells ldims x : In x (cells ldims) <-> in_box ldims x.
Proof.
  unfold cells. rewrite in_map_iff. split.
  - intros [[m y] [<- H]]. apply in_loop4 in H. destruct H as [_ H]. rewrite in_boxb_iff in H. intros d. specialize (H d). destruct d; exact H.
  - intros H. exists (0%Z, x). split; [reflexivity|]. apply in_loop4. split; [lia|]. rewrite in_boxb_iff. intros d. specialize (H d). destruct d; exact H.
Qed.

Lemma cells_box ldims : cells ldims = box (v3 0 0 0)%Z ldims.
Proof.
  unfold cells, loop4, box. change (zrange 0 1) with [0%Z]. cbn [flat_map]. rewrite app_nil_r. cbn [c0 c1 c2].
  induction (zrange 0 (c2 ldims)) as [|k l IH]; [reflexivity|]. cbn [flat_map]. rewrite map_app, IH. f_equal. clear IH.
  induction (zrange 0 (c1 ldims)) as [|j l' IH]; [reflexivity|]. cbn [flat_map]. rewrite map_app, IH. f_equal. clear IH.
  rewrite map_map. reflexivity.
Qed.

(** reading through the right slices *)
Lemma view_read_own ldims ibn nc npat mem p m x : (forall d, (0 <= get3 ibn d)%Z) -> in_box ldims x -> (0 <= m < nc)%Z -> (0 <= p < npat)%Z ->
  let f := make_mfields ldims ibn nc npat in view_read f mem ibn p m x = Some (mem (mf_pos f m (c0 x) (c1 x) (c2 x) p)).
Proof.
  intros Hb Hx Hm Hp f. unfold view_read. cbv zeta. unfold slice_start.
  pose proof (Hb D0). pose proof (Hb D1). pose proof (Hb D2). cbn [get3] in *.
  replace (c0 ibn <? 0)%Z with false by lia. replace (c1 ibn <? 0)%Z with false by lia. replace (c2 ibn <? 0)%Z with false by lia.
  assert (storage_pos f (c0 ibn + c0 x) (c1 ibn + c1 x) (c2 ibn + c2 x) m p = mf_pos f m (c0 x) (c1 x) (c2 x) p)%Z as ->.
  { unfold mf_pos. cbn [f make_mfields ib gen3 c0 c1 c2 get3]. f_equal; lia. }
  pose proof (pos_in_allocation f (Point m x p)) as H3. unfold pos_of in H3. cbn [pt_m pt_i pt_p] in H3.
  replace ((0 <=? _) && (_ <? _))%Z with true; [reflexivity|]. symmetry.
  assert (declared f (Point m x p)) as HD.
  { split; [|split; [exact Hm|exact Hp]]. intros d. cbn [pt_i f make_mfields ib im]. rewrite !get3_gen3. specialize (Hx d). specialize (Hb d). lia. }
  specialize (H3 HD). lia.
Qed.

(** the slices of the code: beyond the storage *)
Lemma view_read_beyond ldims ibn npat mem : all_pos ldims -> (forall d, (0 <= get3 ibn d)%Z) -> (0 < c2 ibn)%Z -> (c2 ibn < c2 ldims)%Z -> (0 < npat)%Z ->
  let f := make_mfields ldims ibn 9 npat in
  view_read f mem (gen3 (fun d => - get3 ibn d)%Z) (npat - 1) 8 (gen3 (fun d => get3 ldims d - 1)%Z) = None.
Proof.
  intros HL Hb H2 H3 Hp f. unfold view_read. cbv zeta.
  match goal with |- (if ?b then _ else _) = _ => assert (b = false) as -> end; [|reflexivity].
  unfold storage_pos, storage_size, f, make_mfields. cbn [im n_comps n_patches gen3 c0 c1 c2 get3].
  pose proof (HL D0). pose proof (HL D1). pose proof (HL D2). pose proof (Hb D0). pose proof (Hb D1). cbn [get3] in *. unfold slice_start.
  replace (- c2 ibn <? 0)%Z with true by lia.
  set (i := (_ + (c0 ldims - 1))%Z). set (j := (_ + (c1 ldims - 1))%Z). set (k := (_ + (c2 ldims - 1))%Z).
  assert (0 <= i)%Z by (unfold i; destruct (Z.ltb_spec (- c0 ibn) 0); lia). assert (0 <= j)%Z by (unfold j; destruct (Z.ltb_spec (- c1 ibn) 0); lia).
  set (n0 := (c0 ldims + 2 * c0 ibn)%Z) in *. set (n1 := (c1 ldims + 2 * c1 ibn)%Z) in *. set (n2 := (c2 ldims + 2 * c2 ibn)%Z) in *.
  assert (n2 <= k)%Z by (unfold k, n2; lia). assert (0 < n0)%Z by (unfold n0; lia). assert (0 < n1)%Z by (unfold n1; lia).
  assert (0 <= n0 * j)%Z by (apply Z.mul_nonneg_nonneg; lia).
  assert (n0 * n1 * n2 <= n0 * n1 * k)%Z by (apply Z.mul_le_mono_nonneg_l; [apply Z.mul_nonneg_nonneg; lia|lia]).
  apply andb_false_iff. right. apply Z.ltb_ge.
  replace (n0 * n1 * n2 * 9 * npat)%Z with (n0 * n1 * n2 + n0 * n1 * n2 * 8 + n0 * n1 * n2 * 9 * (npat - 1))%Z by ring. lia.
Qed.

(** ** The cells of all patches are the cells of the domain *)
Section Dom.
  Variables (c : curve) (np gdims : V3 Z) (per : V3 bool) (pr : option (list Z)) (size : Z) (dm : domain).
  Hypothesis Hpos : all_pos np.
  Hypothesis Hset : domain_setup c np gdims per pr size = Some dm.
  Hypothesis Hcnt : counts_valid pr (volume np) size.
  Hypothesis Hproc : processes pr size.

  Definition cell_of (a : place) : V3 Z := gen3 (global_idx dm a).

  Lemma size_ok : (0 <= size)%Z.
  Proof.
    clear Hset Hpos. unfold counts_valid in Hcnt. unfold processes in Hproc. destruct pr; [|lia]. unfold alen in Hproc. lia.
  Qed.

  Lemma owned_cells : Permutation (map cell_of (own_places dm size)) (box (v3 0 0 0)%Z gdims).
  Proof.
    apply NoDup_Permutation.
    - apply NoDup_map_inj_in.
      + intros [[r p] x] [[r' p'] x'] Ha Hb E. apply (in_own c np gdims per pr size dm Hpos Hset Hcnt Hproc) in Ha, Hb.
        destruct (place_unique c np gdims per pr size dm Hpos Hset Hcnt Hproc r p x r' p' x' (proj1 Ha) (proj1 Hb) (proj2 Ha) (proj2 Hb)) as [-> [-> ->]]; [|reflexivity].
        apply (same_point_iff c np gdims per pr size dm Hset). intros d. apply (f_equal (fun v => get3 v d)) in E. unfold cell_of in E. rewrite !get3_gen3 in E.
        destruct (get3 per d); [exists 0%Z; lia|exact E].
      + apply NoDup_places. intros r p. apply NoDup_box'.
    - apply NoDup_box'.
    - intros X. rewrite in_box_iff, in_boxb_iff, in_map_iff. split.
      + intros [[[r p] x] [<- H]]. apply (in_own c np gdims per pr size dm Hpos Hset Hcnt Hproc) in H. destruct H as [V HI].
        destruct (global_idx_val c np gdims per pr size dm Hpos Hset Hcnt Hproc r p V) as [idx [Hb [_ G]]].
        apply (interior_iff size) in HI. intros d. unfold cell_of. rewrite get3_gen3, G. specialize (HI d). specialize (Hb d).
        pose proof (gdims_ld c np gdims per pr size dm Hpos Hset d) as GD.
        assert (get3 (v3 0 0 0)%Z d = 0%Z) as -> by (destruct d; reflexivity). nia.
      + intros HX. assert (in_box gdims X) as HX' by (intros d; specialize (HX d); destruct d; exact HX).
        destruct (cell_patch c np gdims per pr size dm Hpos Hset Hcnt X HX') as [gp [info [Hgp [EI [IP _]]]]].
        destruct (ownership_full c np gdims per pr size dm Hpos Hset Hcnt) as [counts [HC [HS [HO HL]]]].
        destruct (HO gp Hgp) as [info' [EI' [Own _]]]. rewrite EI in EI'. injection EI' as <-.
        destruct Own as [Hr [k [Hn [Hp Eg]]]].
        destruct (HL (pi_rank info) k (pi_patch info) Hr Hn Hp) as [HN [info2 [EI2 [R2 [P2 Own2]]]]].
        assert (pi_global_patch info2 = gp) as EG.
        { destruct Own2 as [_ [k2 [Hn2 [_ ->]]]]. rewrite Eg. reflexivity. }
        set (r := pi_rank info) in *. set (p := pi_patch info) in *.
        assert (V : valid size (patches_of dm) r p).
        { split; [|unfold patches_of; rewrite HN; exact Hp]. split; [exact Hr|].
          assert (Z.to_nat r < length counts)%nat by (apply nth_error_Some; congruence).
          destruct pr; [subst counts; unfold processes, alen in Hproc; lia|lia]. }
        destruct (patch_owns c np gdims per pr size dm Hset Hcnt Hproc r p V) as [gp3 O3].
        destruct (owns_local c np gdims per pr size dm Hpos Hset Hcnt r p gp3 O3) as [G3 L3].
        assert (info2 = info) as E2.
        { (* the same global patch *)
          destruct (global_info c np gdims per pr size dm Hpos Hset Hcnt gp3 G3) as [i3 [E3 [GP3 _]]]. 
          rewrite L3, E3 in EI2. injection EI2 as <-. rewrite EG in GP3. subst gp3. rewrite EI in E3. congruence. }
        subst info2. exists (r, p, gen3 (fun d => get3 X d - get3 (pi_off info) d)%Z). split.
        * apply v3_ext. intros d. unfold cell_of, global_idx. rewrite EI2, !get3_gen3. lia.
        * apply (in_own c np gdims per pr size dm Hpos Hset Hcnt Hproc). split; [exact V|]. apply (interior_iff size). intros d. rewrite get3_gen3.
          destruct (info_of c np gdims per pr size dm Hpos Hset Hcnt Hproc r p V) as [i4 [E4 [L4 _]]]. rewrite EI2 in E4. injection E4 as <-. rewrite <- L4. specialize (IP d). lia.
  Qed.

  Lemma rsum_places (u : place -> R) pts : rsum (map u (places dm size pts)) =
    rsum (map (fun r => rsum (map (fun p => rsum (map (fun x => u (r, p, x)) (pts r p))) (zrange 0 (patches_of dm r)))) (zrange 0 size)).
  Proof.
    assert (FL : forall {A B} (h : A -> list B) (v : B -> R) l, rsum (map v (flat_map h l)) = rsum (map (fun a => rsum (map v (h a))) l)).
    { intros A B h v. induction l as [|a l IH]; [reflexivity|]. cbn [flat_map map]. rewrite map_app, rsum_app, rsum_cons, IH. reflexivity. }
    unfold places. rewrite FL. apply rsum_ext. intros r _. rewrite FL. apply rsum_ext. intros p _. rewrite map_map. reflexivity.
  Qed.

  Lemma energy_of_cells (G : V3 Z -> R) (dV : R) (u : place -> R) : (forall a, In a (own_places dm size) -> u a = G (cell_of a)) ->
    rsum (map (fun r => rsum (map (fun p => rsum (map (fun x => u (r, p, x) * u (r, p, x) * dV) (box (v3 0 0 0)%Z (grid_ldims dm)))) (zrange 0 (patches_of dm r)))) (zrange 0 size)) =
    field_energy gdims dV G.
  Proof.
    intros H. unfold field_energy. rewrite <- (rsum_perm _ _ (Permutation_map (fun x => G x * G x * dV) owned_cells)). rewrite map_map.
    rewrite <- (rsum_ext (fun a => u a * u a * dV) (fun a => G (cell_of a) * G (cell_of a) * dV)) by (intros a Ha; rewrite H by exact Ha; reflexivity).
    unfold own_places. rewrite rsum_places. apply rsum_ext. intros r Hr. apply rsum_ext. intros p Hp. apply in_zrange in Hr, Hp.
    unfold own_points. rewrite (size_of_val c np gdims per pr size dm Hpos Hset Hcnt Hproc r p) by (split; assumption). reflexivity.
  Qed.
End Dom.
