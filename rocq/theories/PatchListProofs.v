(** The patches of a domain, process by process. *)
From Verif Require Import Base Arr DomainModel DomainSpec DomainProofs DomainBoxProofs MpiModel BalanceModel BalanceMoveProofs BalanceCommProofs DdcPrtSpec DdcPrtProofs CollisionProofs RestartProofs GhostModel GhostProofs.
Local Open Scope Z_scope.

Section PatchList.
  Variables (c : curve) (np gdims : V3 Z) (per : V3 bool) (pr : option (list Z)) (size : Z) (dm : domain).
  Hypothesis Hpos : all_pos np.
  Hypothesis Hset : domain_setup c np gdims per pr size = Some dm.
  Hypothesis Hcnt : counts_valid pr (volume np) size.
  Hypothesis Hproc : processes pr size.

  Notation counts := (counts_of pr (volume np) size).

  Definition no_info : patch_info := mkPatchInfo 0 0 0 (v3 0 0 0) (v3 0 0 0) (v3 0 0 0).
  Definition inf (r p : Z) : patch_info := match get_local_patch_info dm r p with Some i => i | None => no_info end.

  Lemma len_counts : Z.of_nat (length counts) = size.
  Proof. exact (counts_length pr (volume np) size Hcnt Hproc). Qed.

  Lemma patches_cnt r : 0 <= r < size -> patches_of dm r = cnt_of counts r.
  Proof.
    intros Hr. pose proof len_counts as HL. unfold patches_of, cnt_of. destruct (nth_error counts (Z.to_nat r)) as [k|] eqn:E.
    - rewrite (nr_patches_ok c np gdims per pr size dm Hset r k (proj1 Hr) E). symmetry. apply nth_error_nth. exact E.
    - apply nth_error_None in E. lia.
  Qed.

  Lemma vol_nonneg : 0 <= volume np.
  Proof. unfold volume. pose proof (Hpos D0). pose proof (Hpos D1). pose proof (Hpos D2). cbn [get3] in *. nia. Qed.

  Lemma counts_ok : Forall (fun c => 0 <= c) counts /\ zsum counts = volume np.
  Proof. apply counts_of_ok; [apply vol_nonneg|exact Hcnt]. Qed.

  Lemma patches_nonneg r : 0 <= r < size -> 0 <= patches_of dm r.
  Proof.
    intros Hr. rewrite patches_cnt by exact Hr. pose proof len_counts. destruct counts_ok as [F _]. rewrite Forall_forall in F. apply F. unfold cnt_of. apply nth_In. lia.
  Qed.

  Lemma owns_same r p r' p' gp : owns counts r p gp -> owns counts r' p' gp -> r = r' /\ p = p'.
  Proof.
    intros H H'. destruct counts_ok as [F _]. pose proof (lookup_complete counts r p gp F H) as E. rewrite (lookup_complete counts r' p' gp F H') in E. injection E as -> ->. auto.
  Qed.

  Lemma inf_ok r p : valid size (patches_of dm) r p -> get_local_patch_info dm r p = Some (inf r p) /\ pi_rank (inf r p) = r /\ pi_patch (inf r p) = p /\
    pi_ldims (inf r p) = grid_ldims dm /\ get_global_patch_info dm (off_of counts r + p) = Some (inf r p) /\ 0 <= off_of counts r + p < volume np.
  Proof.
    intros [Hr Hp]. pose proof len_counts as HL. assert (HO : owns counts r p (off_of counts r + p)) by (apply owns_intro; [lia|rewrite <- patches_cnt by exact Hr; exact Hp]).
    destruct (owns_local c np gdims per pr size dm Hpos Hset Hcnt r p _ HO) as [HB E].
    destruct (global_info c np gdims per pr size dm Hpos Hset Hcnt _ HB) as [info [EI [_ [Ow [_ [_ Hd]]]]]]. unfold inf. rewrite E, EI.
    split; [reflexivity|]. destruct (owns_same _ _ _ _ _ Ow HO) as [-> ->]. repeat split; try assumption; try lia.
    apply v3_ext. intros d. rewrite (proj1 (Hd d)). unfold grid_ldims. rewrite !get3_gen3. destruct (dm_parts c np gdims per pr size dm Hset) as [-> [-> _]]. reflexivity.
  Qed.

  Lemma owner gp : 0 <= gp < volume np -> exists r p, valid size (patches_of dm) r p /\ gp = off_of counts r + p.
  Proof.
    intros Hg. destruct counts_ok as [F Z0]. destruct (exists_owner counts gp F ltac:(lia)) as [r [p H]]. apply owns_range in H. pose proof len_counts. destruct H as [R [Q ->]].
    exists r, p. split; [|reflexivity]. split; [lia|]. rewrite patches_cnt by lia. exact Q.
  Qed.

  Lemma size_pos : 0 < size.
  Proof.
    destruct (owner 0) as [r [p [[Hr _] _]]]; [|lia]. unfold volume. pose proof (Hpos D0). pose proof (Hpos D1). pose proof (Hpos D2). cbn [get3] in *. nia.
  Qed.

  (** every cell is in one patch *)
  Lemma cell_owner g : in_box gdims g -> exists r p, valid size (patches_of dm) r p /\ in_patch (pi_off (inf r p)) (grid_ldims dm) g.
  Proof.
    intros H. destruct (cell_patch c np gdims per pr size dm Hpos Hset Hcnt g H) as [gp [info [Hg [E [I _]]]]]. destruct (owner gp Hg) as [r [p [V ->]]].
    exists r, p. split; [exact V|]. destruct (inf_ok r p V) as [_ [_ [_ [L [G _]]]]]. rewrite E in G. injection G as ->. rewrite <- L. exact I.
  Qed.

  Lemma cell_owner_unique g r p r' p' : valid size (patches_of dm) r p -> valid size (patches_of dm) r' p' ->
    in_patch (pi_off (inf r p)) (grid_ldims dm) g -> in_patch (pi_off (inf r' p')) (grid_ldims dm) g -> r = r' /\ p = p'.
  Proof.
    intros V V' I I'. destruct (inf_ok r p V) as [_ [R [Q [L [G B]]]]]. destruct (inf_ok r' p' V') as [_ [R' [Q' [L' [G' B']]]]].
    destruct (tiling_full c np gdims per pr size dm Hpos Hset Hcnt) as [_ [U _]]. rewrite <- L in I. rewrite <- L' in I'. pose proof (U _ _ _ _ g B G B' G' I I') as E.
    rewrite E, G' in G. injection G as G. rewrite <- G in R, Q. split; congruence.
  Qed.

  Lemma ldims_pos d : (forall d, 0 < get3 gdims d) -> 0 < get3 (grid_ldims dm) d.
  Proof.
    intros Hg. destruct (owner 0) as [r [p [V _]]]; [unfold volume; pose proof (Hpos D0); pose proof (Hpos D1); pose proof (Hpos D2); cbn [get3] in *; nia|].
    destruct (inf_ok r p V) as [_ [_ [_ [L [G B]]]]]. destruct (tiling_full c np gdims per pr size dm Hpos Hset Hcnt) as [_ [_ U]]. destruct (U _ B) as [i2 [E2 D]]. rewrite G in E2. injection E2 as <-.
    specialize (D d). rewrite L in D. specialize (Hg d). specialize (Hpos d). nia.
  Qed.

  (** in order *)
  Lemma off_succ r : 0 <= r < size -> off_of counts (r + 1) = off_of counts r + patches_of dm r.
  Proof.
    intros Hr. pose proof len_counts. rewrite patches_cnt by exact Hr. unfold off_of, cnt_of. replace (Z.to_nat (r + 1)) with (Datatypes.S (Z.to_nat r)) by lia.
    apply zsum_firstn_S. apply nth_error_nth'. lia.
  Qed.

  Lemma numbers_by_process n : 0 <= n <= size -> zrange 0 (off_of counts n) = flat_map (fun r => map (fun p => off_of counts r + p) (zrange 0 (patches_of dm r))) (zrange 0 n).
  Proof.
    intros [H0 H1]. revert H1. pattern n. apply natlike_ind; [| |exact H0].
    - intros _. rewrite !zrange_empty by (cbn; lia). reflexivity.
    - clear n H0. intros n H0 IH H1. unfold Z.succ in *. rewrite off_succ, zrange_snoc, flat_map_app, <- IH by lia. cbn [flat_map]. rewrite app_nil_r.
      pose proof (patches_nonneg n ltac:(lia)). destruct counts_ok as [F Z0]. pose proof len_counts. destruct (off_bounds counts (volume np) F Z0 n ltac:(lia)) as [B _].
      rewrite (zrange_app 0 (off_of counts n)) by lia. f_equal.
      replace (zrange (off_of counts n) (off_of counts n + patches_of dm n)) with (zrange (0 + off_of counts n) (patches_of dm n + off_of counts n)) by (f_equal; lia).
      rewrite zrange_shift. apply map_ext. intros; lia.
  Qed.

  Lemma ginfos_ok : sequence (map (get_global_patch_info dm) (zrange 0 (dm_nr_global_patches dm))) = Some (flat_map (fun r => map (inf r) (zrange 0 (patches_of dm r))) (zrange 0 size)).
  Proof.
    destruct (np_dm c np gdims per pr size dm Hset) as [_ [_ [-> _]]]. destruct counts_ok as [F Z0]. pose proof len_counts as HL.
    assert (E : volume np = off_of counts size). { unfold off_of. rewrite firstn_all2 by lia. symmetry. exact Z0. }
    rewrite E, numbers_by_process by (pose proof size_pos; lia).
    assert (M : forall l, map (get_global_patch_info dm) (flat_map (fun r => map (fun p => off_of counts r + p) (zrange 0 (patches_of dm r))) l) =
      flat_map (fun r => map (fun p => get_global_patch_info dm (off_of counts r + p)) (zrange 0 (patches_of dm r))) l).
    { induction l as [|a l IH]; [reflexivity|]. cbn [flat_map]. rewrite map_app, IH, map_map. reflexivity. }
    rewrite M. clear M.
    assert (G : forall l, (forall r, In r l -> 0 <= r < size) -> sequence (flat_map (fun r => map (fun p => get_global_patch_info dm (off_of counts r + p)) (zrange 0 (patches_of dm r))) l) =
      Some (flat_map (fun r => map (inf r) (zrange 0 (patches_of dm r))) l)).
    { induction l as [|a l IH]; intros Hl; [reflexivity|]. cbn [flat_map]. apply sequence_app_some; [|apply IH; intros r Hr; apply Hl; now right].
      apply sequence_map_some. intros p Hp. apply in_zrange in Hp. apply inf_ok. split; [apply Hl; now left|lia]. }
    apply G. intros r Hr. apply in_zrange in Hr. lia.
  Qed.

  Lemma linfos_ok r n : 0 <= r < size -> n = patches_of dm r -> sequence (map (get_local_patch_info dm r) (zrange 0 n)) = Some (map (inf r) (zrange 0 n)).
  Proof. intros Hr ->. apply sequence_map_some. intros p Hp. apply in_zrange in Hp. apply inf_ok. split; lia. Qed.
End PatchList.
