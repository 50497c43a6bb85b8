(** C65: moments of the particles on the GPU, proofs. *)
From Coq Require Import Reals Lra Permutation String.
From Flocq Require Import Core.
From Verif Require Import Base Arr RSum DomainModel DdcPrtSpec GhostModel FieldModel FieldProofs DepositModel DepositSpec DepositProofs CurrentProofs GaussModel GaussSpec MomentModel MomentSpec MomentProofs PushModel CudaPrtModel CudaPrtSpec CudaPrtProofs CudaLaunchModel CudaLaunchSpec CudaLaunchProofs CudaPushProofs CudaCollProofs CudaMomModel CudaMomSpec BalanceCommProofs UidProofs SetupProofs GhostProofs.
Local Open Scope Z_scope.

(** ** Kernels over the particles *)

Lemma represents_perm {P} (cpos : P -> V3 Z) g c S S' : Permutation S S' -> represents cpos g c S -> represents cpos g c S'.
Proof.
  intros HP (H1 & H2 & H3). split; [rewrite H1; unfold alen; f_equal; apply Permutation_length; exact HP|]. split.
  - intros w Hw. apply H2. apply (Permutation_in _ (Permutation_sym HP)). exact Hw.
  - intros p b Hp Hb. destruct (H3 p b Hp Hb) as (l & Hl & Pl). exists l. split; [exact Hl|]. eapply perm_trans; [exact Pl|]. apply Permutation_map.
    clear - HP. induction HP; cbn [filter]; [constructor| | |eapply perm_trans; eassumption].
    + destruct (_ && _); [constructor|]; assumption.
    + repeat destruct (_ && _)%bool; try reflexivity; constructor.
Qed.

Lemma blocks_perm g bl : geom_ok g -> each_once (all_blocks g) bl -> Permutation (map k_bid bl) (zrange 0 (n_blocks g)).
Proof.
  intros ok [ND IFF]. apply NoDup_Permutation.
  - apply NoDup_map_in; [|exact ND]. intros b b' Hb Hb' E. apply IFF in Hb. apply IFF in Hb'. destruct Hb as (p & pos & Q & ->). destruct Hb' as (p' & pos' & Q' & ->).
    apply (block_at_inj g ok) in E; [|assumption..]. destruct E as [-> ->]. reflexivity.
  - apply NoDup_zrange.
  - intros k. rewrite in_map_iff, in_zrange. split.
    + intros (b & <- & Hb). apply IFF in Hb. destruct Hb as (p & pos & [Hp Hpos] & ->). apply block_no_lt; assumption.
    + intros Hk. exists (block_at g (pat_of g k) (pos_of g k)). split; [apply block_no_of; exact ok|]. apply IFF. exists (pat_of g k), (pos_of g k). split; [exact (pos_of_ok g ok k Hk)|reflexivity].
Qed.

(** Every particle once, with the block it is in. *)
Lemma launch_slots_ok {P B} (cpos : P -> V3 Z) g h c (L : list (Z * P)) bl nt (f : blk -> Z -> option (list B)) (W : Z * P -> list B) :
  geom_ok g -> laid cpos g h (aget (c_st c)) c L -> each_once (all_blocks g) bl -> 0 < nt ->
  (forall p pos n x, is_pos g p pos -> h (block_no g p pos) <= n < h (block_no g p pos + 1) -> aget L n = Some (p, x) -> f (block_at g p pos) n = Some (W (p, x))) ->
  exists ws, launch_slots bl nt c f = Some ws /\ Permutation ws (flat_map W L).
Proof.
  intros ok D EO Hnt Hf. pose proof (NBnn g ok) as NN. pose proof (proj2 EO) as IFF.
  set (V := fun n => match aget L n with Some w => W w | None => [] end).
  assert (O : forall b, In b bl -> all_blocks g b) by (intros b; apply IFF).
  assert (TK : forall b, In b bl -> forall tid, In tid (zrange 0 nt) -> all_some (map (f b) (in_block_loop nt (h (k_bid b)) (h (k_bid b + 1)) tid)) = Some (map V (in_block_loop nt (h (k_bid b)) (h (k_bid b + 1)) tid))).
  { intros b Hb tid Ht. apply in_zrange in Ht. destruct (O b Hb) as (p & pos & [Hp Hpos] & ->). change (k_bid (block_at g p pos)) with (block_no g p pos).
    pose proof (block_no_lt g ok p pos Hp Hpos) as Hk.
    apply all_some_ext. intros n Hn. assert (B0 : h (block_no g p pos) <= n < h (block_no g p pos + 1)).
    { unfold in_block_loop in Hn. apply filter_In in Hn. destruct Hn as [Hn Q]. apply in_strided in Hn; [|exact Hnt]. apply Bool.negb_true_iff, Z.ltb_ge in Q. lia. }
    pose proof (mono_le_n (n_blocks g) h (ld_mono _ _ _ _ _ _ D) 0 (block_no g p pos) ltac:(lia) ltac:(lia)) as M1. rewrite (ld_0 _ _ _ _ _ _ D) in M1.
    pose proof (mono_le_n (n_blocks g) h (ld_mono _ _ _ _ _ _ D) (block_no g p pos + 1) (n_blocks g) ltac:(lia) ltac:(lia)) as M2. rewrite (ld_nb _ _ _ _ _ _ D), (ld_n _ _ _ _ _ _ D) in M2.
    destruct (aget_some L n ltac:(lia)) as [[q x] Ew]. unfold V. rewrite Ew.
    destruct (ld_key _ _ _ _ _ _ D n _ _ Ew Hk B0) as (A1 & A2 & A3). cbn [fst snd] in *. unfold key in A3. apply (block_no_inj g ok) in A3; [|assumption|assumption|apply blkpos_range; assumption|assumption].
    destruct A3 as [-> _]. apply Hf; [split; assumption|exact B0|exact Ew]. }
  exists (flat_map (fun b => flat_map (fun tid => flat_map V (in_block_loop nt (h (k_bid b)) (h (k_bid b + 1)) tid)) (zrange 0 nt)) bl). split.
  - unfold launch_slots. rewrite (all_some_ext _ _ (fun b => flat_map (fun tid => flat_map V (in_block_loop nt (h (k_bid b)) (h (k_bid b + 1)) tid)) (zrange 0 nt))); [cbn [option_map]; rewrite concat_map_flat; reflexivity|].
    intros b Hb. pose proof (O b Hb) as (p & pos & [Hp Hpos] & Eb). assert (Hk : 0 <= k_bid b < n_blocks g) by (subst b; apply block_no_lt; assumption).
    rewrite (ld_off _ _ _ _ _ _ D (k_bid b)) by lia. rewrite (ld_off _ _ _ _ _ _ D (k_bid b + 1)) by lia.
    rewrite (all_some_ext _ _ (fun tid => flat_map V (in_block_loop nt (h (k_bid b)) (h (k_bid b + 1)) tid))) by (intros tid Ht; rewrite (TK b Hb tid Ht); cbn [option_map]; rewrite concat_map_flat; reflexivity).
    cbn [option_map]. rewrite concat_map_flat. reflexivity.
  - eapply perm_trans with (flat_map (fun k => flat_map V (zrange (h k) (h (k + 1)))) (map k_bid bl)).
    + assert (Q : forall m, (forall b, In b m -> all_blocks g b) -> Permutation (flat_map (fun b => flat_map (fun tid => flat_map V (in_block_loop nt (h (k_bid b)) (h (k_bid b + 1)) tid)) (zrange 0 nt)) m) (flat_map (fun k => flat_map V (zrange (h k) (h (k + 1)))) (map k_bid m))).
      { induction m as [|b m IH]; intros Hm; cbn [flat_map map]; [constructor|]. apply Permutation_app; [|apply IH; intros; apply Hm; right; assumption].
        rewrite <- flat_map_flat_map. apply Permutation_flat_map. apply in_block_loop_perm; [exact Hnt|]. destruct (Hm b (or_introl eq_refl)) as (p & pos & [Hp Hpos] & ->). cbn [block_at k_bid].
        pose proof (block_no_lt g ok p pos Hp Hpos) as Hk. pose proof (mono_le_n (n_blocks g) h (ld_mono _ _ _ _ _ _ D) 0 (block_no g p pos) ltac:(lia) ltac:(lia)) as M1. rewrite (ld_0 _ _ _ _ _ _ D) in M1. exact M1. }
      apply Q. exact O.
    + eapply perm_trans; [apply Permutation_flat_map; apply (blocks_perm g bl ok EO)|]. rewrite <- flat_map_flat_map.
      destruct (flat_zranges h 0 (n_blocks g) NN (ld_mono _ _ _ _ _ _ D)) as [-> _]. rewrite (ld_0 _ _ _ _ _ _ D), (ld_nb _ _ _ _ _ _ D), (ld_n _ _ _ _ _ _ D).
      rewrite !flat_map_concat_map. rewrite (map_by_index L V W); [reflexivity|]. intros i x E. unfold V. rewrite E. reflexivity.
Qed.

(** ** The adds of one particle *)

Lemma cons_pair2 {A} (a a' : A) (v v' : R) l l' : a = a' -> v = v' -> l = l' -> (a, v) :: l = (a', v') :: l'.
Proof. intros -> -> ->. reflexivity. Qed.

Section Run.
Variables (S : setting) (g : geom) (t : cumoment) (ks : list kind).
Hypothesis ok : geom_ok g.
Hypothesis Hdim : s_dim S = if g_yz g then dim_yz else dim_xyz.
Hypothesis Hld : g_ldims g = grid_ldims (s_dm S).
Hypothesis Hsp : forall d, (0 < get3 (spacing S) d)%R.
Hypothesis Hibn : forall d, 0 <= get3 (s_ibn S) d /\ (get3 (invar_of (s_dim S)) d = false -> 1 <= get3 (s_ibn S) d).
Hypothesis Hks : forall k, In k ks -> k_q k <> 0%R.
Hypothesis H4 : alen ks <= 4.
Hypothesis Hsq : g_yz g = true -> nblk g D1 = nblk g D2.

Let mt := fst (same_as t).
Let sc := snd (same_as t).
Let inv := invar_of (s_dim S).

Definition prt_in (x : mprt) : Prop := 0 <= mp_kind x < alen ks /\ forall d, (0 <= get3 (mp_x x) d < IZR (get3 (g_ldims g) d) * get3 (spacing S) d)%R.

(** what a particle adds at a place *)
Definition adds_at (x : mprt) (m : Z) (i : V3 Z) : R := (s_fnqs S * contrib mt ks m x * share hat inv (DepositProofs.place sc (spacing S) (mp_x x)) i)%R.

Lemma n_comps_same : cu_n_comps t ks = n_comps mt ks.
Proof. unfold cu_n_comps, n_comps, mt. destruct t; reflexivity. Qed.

Lemma calc_v_same u : calc_v u = calc_vxi u.
Proof. unfold calc_v, calc_vxi, rsqrt, sqr. cbv zeta. unfold Rdiv. rewrite Rmult_1_l. reflexivity. Qed.

Lemma cu_values_same x : prt_in x -> exists l, calls mt ks x = Some l /\ (forall e, In e l -> 0 <= fst e < cu_n_comps t ks) /\
  cu_values t ks (s_fnqs S) x = Some (map (fun e => (fst e, (s_fnqs S * snd e)%R)) l).
Proof.
  intros [Hk _]. rewrite n_comps_same. destruct (calls_ok mt ks x Hks Hk) as (l & E & B). exists l. split; [exact E|]. split; [exact B|]. revert E. clear B.
  unfold cu_values, calls, kind_of, cu_prt_w, prt_w. destruct (aget ks (mp_kind x)) as [k|]; [|discriminate]. destruct (Req_EM_T (k_q k) 0); [discriminate|].
  rewrite calc_v_same. generalize (calc_vxi (mp_u x)) as v. intros v. unfold mt. destruct t; cbn [same_as fst]; intros E; injection E as <-; cbn [map fst snd]; apply f_equal; repeat (apply cons_pair2; [reflexivity|unfold Rdiv; ring|]); reflexivity.
Qed.

Lemma pos_place x : gen3 (fun d => get3 (mp_x x) d * get3 (cu_dxi S) d + cu_shift t)%R = DepositProofs.place sc (spacing S) (mp_x x).
Proof.
  apply v3_ext; intros d. unfold DepositProofs.place, cu_dxi, sc. rewrite !get3_gen3. pose proof (Hsp d). unfold cu_shift, offset_of; destruct t; cbn [same_as snd]; field; lra.
Qed.

Lemma cu_deposit_list m y val : exists l, deposit1st (s_dim S) (gen3 (fun e => fint (get3 y e) - get3 (v3 0 0 0) e)) (gen3 (fun e => get3 y e - IZR (fint (get3 y e)))%R) val = Some l /\
  cu_deposit (g_yz g) m (gen3 (fun e => fint (get3 y e))) (gen3 (fun e => get3 y e - IZR (fint (get3 y e)))%R) val = map (fun e => ((m, fst e), snd e)) l.
Proof.
  rewrite Hdim. destruct y as [y0 y1 y2]. unfold gen3. cbn [get3 c0 c1 c2]. rewrite !Z.sub_0_r. destruct (g_yz g); cbn [deposit1st cu_deposit]; eexists; (split; [reflexivity|]); cbn [map fst snd]; unfold z3; rewrite ?Z.add_0_r; repeat (apply cons_pair2; [reflexivity|ring|]); reflexivity.
Qed.

(** the value added at one place by a list of adds *)
Definition at_place (l : list (maddr * R)) (m : Z) (i : V3 Z) : R := rsum (map (fun e => if fst (fst e) =? m then (snd e * delta3 (snd (fst e)) i)%R else 0%R) l).

Lemma at_place_app l l' m i : at_place (l ++ l') m i = (at_place l m i + at_place l' m i)%R.
Proof. unfold at_place. rewrite map_app, rsum_app. reflexivity. Qed.

Lemma cu_deposit_at m y val m' i : at_place (cu_deposit (g_yz g) m (gen3 (fun e => fint (get3 y e))) (gen3 (fun e => get3 y e - IZR (fint (get3 y e)))%R) val) m' i =
  (if m =? m' then val * share hat inv y i else 0)%R.
Proof.
  destruct (cu_deposit_list m y val) as (l & E & ->). unfold at_place. rewrite map_map. cbn [fst snd]. destruct (m =? m'); [|apply rsum_zero; reflexivity].
  pose proof (deposit1st_share (s_dim S) (v3 0 0 0) y val l (fun _ => 0%R) i) as H. rewrite radd_all_get, !Rplus_0_l in H. unfold inv.
  replace (node (v3 0 0 0) i) with i in H by (apply v3_ext; intros d; unfold node; rewrite get3_gen3; destruct d; cbn; lia). apply H; [|exact E]. intros d _. destruct d; reflexivity.
Qed.

Definition p_adds (x : mprt) : list (maddr * R) :=
  let y := DepositProofs.place sc (spacing S) (mp_x x) in
  match cu_values t ks (s_fnqs S) x with
  | Some l => flat_map (fun e => cu_deposit (g_yz g) (fst e) (gen3 (fun d => fint (get3 y d))) (gen3 (fun d => get3 y d - IZR (fint (get3 y d)))%R) (snd e)) l
  | None => []
  end.

Lemma p_adds_at x m i : prt_in x -> at_place (p_adds x) m i = adds_at x m i.
Proof.
  intros Hx. unfold p_adds, adds_at, contrib. destruct (cu_values_same x Hx) as (l & -> & _ & ->). set (y := DepositProofs.place sc (spacing S) (mp_x x)). unfold added_to.
  clear Hx. induction l as [|[m' v] l IH]; cbn [map flat_map fst snd].
  - unfold at_place. cbn. ring.
  - rewrite at_place_app, IH, cu_deposit_at, rsum_cons. destruct (m' =? m); ring.
Qed.

Lemma place_range x d : prt_in x -> 0 < get3 (g_ldims g) d /\ -1 <= fint (get3 (DepositProofs.place sc (spacing S) (mp_x x)) d) < get3 (g_ldims g) d.
Proof.
  intros [_ H]. specialize (H d). unfold DepositProofs.place. rewrite get3_gen3. pose proof (Hsp d) as Hp. set (h := get3 (spacing S) d) in *.
  assert (A : (0 <= get3 (mp_x x) d / h < IZR (get3 (g_ldims g) d))%R).
  { unfold Rdiv. split; [apply Rmult_le_pos; [lra|apply Rlt_le, Rinv_0_lt_compat; exact Hp]|]. apply (Rmult_lt_reg_r h); [exact Hp|]. rewrite Rmult_assoc, Rinv_l, Rmult_1_r by lra. apply H. }
  assert (0 <= offset_of sc <= / 2)%R by (destruct sc; cbn; lra). split; [apply lt_IZR; lra|]. split; [apply fint_bounds|apply fint_bounds_hi]; lra.
Qed.

Lemma p_adds_in x p e : prt_in x -> 0 <= p < g_np g -> In e (p_adds x) -> in_mfield g (s_ibn S) t ks p (fst e) = true.
Proof.
  intros Hx Hp He. unfold p_adds in He. destruct (cu_values_same x Hx) as (l & _ & B & E). rewrite E in He. clear E. apply in_flat_map in He. destruct He as ([m v] & Hm & He).
  apply in_map_iff in Hm. destruct Hm as ([m0 v0] & Em & Hm). specialize (B _ Hm). cbn [fst snd] in *. injection Em as -> _.
  set (y := DepositProofs.place sc (spacing S) (mp_x x)) in *. destruct (cu_deposit_list m y v) as (l' & E1 & E2). cbn [fst snd] in *.
  rewrite E2 in He. apply in_map_iff in He. destruct He as ([i w] & <- & Hi). cbn [fst snd]. unfold in_mfield. cbn [fst snd].
  assert (R : forall d, - get3 (s_ibn S) d <= get3 i d < get3 (g_ldims g) d + get3 (s_ibn S) d).
  { pose proof (place_range x D0 Hx) as P0. pose proof (place_range x D1 Hx) as P1. pose proof (place_range x D2 Hx) as P2. fold y in P0, P1, P2.
    pose proof (Hibn D0) as I0. pose proof (Hibn D1) as I1. pose proof (Hibn D2) as I2. clearbody y. clear - Hi P0 P1 P2 I0 I1 I2 E1 Hdim. rewrite Hdim in *.
    destruct y as [y0 y1 y2]. unfold gen3 in E1. cbn [get3 c0 c1 c2] in *. destruct (g_yz g); cbn [deposit1st] in E1; injection E1 as <-; cbn [In] in Hi; unfold z3 in Hi; cbn [invar_of get3 c0 c1 c2] in I0, I1, I2;
      destruct I0 as [I0 J0], I1 as [I1 J1], I2 as [I2 J2]; try specialize (J0 eq_refl); try specialize (J1 eq_refl); try specialize (J2 eq_refl);
      repeat (destruct Hi as [Hi|Hi]; [injection Hi as <- _; intros d; destruct d; cbn [get3 c0 c1 c2] in *; lia|]); destruct Hi. }
  rewrite !Bool.andb_true_iff, forallb_forall, !Z.leb_le, !Z.ltb_lt. repeat split; [apply Hp|apply Hp|apply B|apply B|]. intros d _. rewrite Bool.andb_true_iff, Z.leb_le, Z.ltb_lt. exact (R d).
Qed.

Lemma m_adds_ok l : (forall pe, In pe l -> in_mfield g (s_ibn S) t ks (fst pe) (fst (snd pe)) = true) -> forall F, exists F', m_adds g (s_ibn S) t ks F l = Some F' /\
  forall p m i, F' p m i = (F p m i + rsum (map (fun pe => if (fst pe =? p) then at_place [snd pe] m i else 0) l))%R.
Proof.
  induction l as [|[q [[m0 i0] v]] l IH]; intros H F.
  - exists F. split; [reflexivity|]. intros. cbn. ring.
  - cbn [m_adds]. unfold m_add. pose proof (H _ (or_introl eq_refl)) as Hf. cbn [fst snd] in Hf. rewrite Hf.
    destruct (IH (fun pe Hpe => H pe (or_intror Hpe)) (fun p' m' i' => if (p' =? q) && (m' =? m0) && v3_eqb i' i0 then (F p' m' i' + v)%R else F p' m' i')) as (F' & E & G). exists F'. split; [exact E|].
    intros p m i. rewrite G. cbn [map]. rewrite rsum_cons. unfold at_place at 2. cbn [map fst snd]. rewrite rsum_cons. cbn [rsum fold_right]. rewrite <- v3_eqb_delta, (Z.eqb_sym p q), (Z.eqb_sym m m0).
    replace (v3_eqb i i0) with (v3_eqb i0 i) by (apply Bool.eq_iff_eq_true; split; intros Q; apply v3_eqb_eq in Q; apply v3_eqb_eq; congruence).
    destruct (q =? p), (m0 =? m), (v3_eqb i0 i); cbn [andb]; ring.
Qed.

(** ** One process *)

Lemma mom_blocks_once : each_once (all_blocks g) (cu_mom_blocks g).
Proof. unfold cu_mom_blocks. destruct (g_yz g) eqn:Y; [exact (simple_yz_once g ok Y (Hsq eq_refl))|exact (simple_once g ok)]. Qed.

(** the particles of a patch *)
Definition of_patch (PS : list (Z * mprt)) (p : Z) : list mprt := map snd (filter (fun w => fst w =? p) PS).

Variables (c : cm mprt) (PS : list (Z * mprt)).
Hypothesis rep : represents (mp_cell S) g c PS.
Hypothesis Hin : forall w, In w PS -> prt_in (snd w).

Lemma run_ok F : (exists r, cu_moment_runs g (cu_dxi S) (s_fnqs S) (s_ibn S) t ks c F r) /\
  forall r, cu_moment_runs g (cu_dxi S) (s_fnqs S) (s_ibn S) t ks c F r -> exists c' F', r = Some (c', F') /\ represents (mp_cell S) g c' PS /\
    forall p m i, F' p m i = (F p m i + rsum (map (fun x => adds_at x m i) (of_patch PS p)))%R.
Proof.
  unfold cu_moment_runs. pose proof (proj1 rep) as HN. destruct (Z.eqb_spec (c_n c) 0) as [E0|N0].
  { split; [eexists; reflexivity|]. intros r ->. exists c, F. split; [reflexivity|]. split; [exact rep|]. intros p m i. rewrite HN in E0. destruct PS; [cbn; ring|]. unfold alen in E0. cbn [length] in E0. lia. }
  assert (NE : PS <> []) by (intros ->; apply N0; exact HN).
  destruct (rep_laid (mp_cell S) mp_zero g ok c PS rep NE) as (h & L & PL & D).
  assert (NL : L <> []) by (intros ->; apply NE; apply Permutation_nil; exact PL).
  destruct (reorder_laid (mp_cell S) mp_zero g h c L D NL) as (c1 & -> & RE & D1). rewrite RE. replace (4 <? alen ks) with false by lia. cbn [orb].
  set (W := fun w : Z * mprt => map (pair (fst w)) (p_adds (snd w))).
  destruct (launch_slots_ok (mp_cell S) g h c1 L (cu_mom_blocks g) tpb (cu_prt_adds g (cu_dxi S) (s_fnqs S) t ks c1) W ok D1 mom_blocks_once ltac:(reflexivity)) as (adds & -> & PA).
  { intros p pos n x _ _ E. unfold cu_prt_adds. rewrite (ld_rd _ _ _ _ _ _ D1 n _ E). cbn [snd block_at k_p]. unfold cu_idx_off. cbv zeta. rewrite pos_place. unfold W, p_adds. cbn [fst snd].
    destruct (cu_values_same x) as (l & _ & _ & El); [apply (Hin (p, x)); apply (Permutation_in _ PL); exact (aget_In _ _ _ E)|].
    rewrite El. cbn [option_map]. rewrite map_flat_map. reflexivity. }
  split; [eexists; exists adds; split; reflexivity|]. intros r (l & Pl & ->).
  assert (IN : forall w, In w L -> 0 <= fst w < g_np g /\ prt_in (snd w)).
  { intros w Hw. split; [apply (laid_good (mp_cell S) g ok _ _ _ _ D w Hw)|]. apply Hin. apply (Permutation_in _ PL). exact Hw. }
  destruct (m_adds_ok l) with (F := F) as (F' & -> & G).
  { intros pe Hpe. apply (Permutation_in _ Pl) in Hpe. apply (Permutation_in _ PA) in Hpe. apply in_flat_map in Hpe. destruct Hpe as (w & Hw & Hpe). destruct (IN w Hw) as [I1 I2].
    unfold W in Hpe. apply in_map_iff in Hpe. destruct Hpe as (e & <- & He). cbn [fst snd]. exact (p_adds_in (snd w) (fst w) e I2 I1 He). }
  exists c1, F'. split; [reflexivity|]. split; [exact (represents_perm _ _ _ _ _ PL (laid_rep (mp_cell S) g ok h c1 L RE D1))|].
  intros p m i. rewrite G. f_equal. rewrite (rsum_perm _ _ (Permutation_map _ Pl)), (rsum_perm _ _ (Permutation_map _ PA)), map_flat_map, rsum_flat_map.
  unfold of_patch. transitivity (rsum (map (fun w => if fst w =? p then adds_at (snd w) m i else 0%R) L)).
  - apply rsum_ext. intros [q x] Hw. unfold W. cbn [fst snd]. rewrite map_map. cbn [fst snd]. destruct (q =? p); [|apply rsum_zero; reflexivity].
    rewrite <- (p_adds_at x m i) by (apply (IN _ Hw)). unfold at_place at 2. apply rsum_ext. intros e _. unfold at_place. cbn [map]. rewrite rsum_cons. cbn. ring.
  - rewrite (rsum_perm _ _ (Permutation_map _ PL)), map_map. symmetry. apply rsum_filter.
Qed.
End Run.
