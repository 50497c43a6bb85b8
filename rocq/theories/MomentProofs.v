(** C57: moments of the particles, proofs. *)
From Coq Require Import Reals Lra Psatz String.
From Flocq Require Import Core.
From Verif Require Import Base Arr RSum DomainModel DomainSpec DdcPrtSpec DdcPrtProofs GhostModel GhostSpec GhostProofs GhostProps FieldModel DepositModel DepositSpec DepositProofs GaussModel GaussSpec GaussProofs GaussProps MomentModel MomentSpec.
Local Open Scope R_scope.

(** ** what one particle adds to a component *)
Definition added_to (l : list (Z * R)) (m : Z) : R := rsum (map (fun e => if (fst e =? m)%Z then snd e else 0) l).
Definition contrib (t : moment) (ks : list kind) (m : Z) (p : mprt) : R := match calls t ks p with Some l => added_to l m | None => 0 end.

Section Patch.
  Variables (S : setting) (s : dep_scheme) (nc : Z).
  Hypothesis W : wf_ib (s_dim S) (item_ib S).
  Let sv (x : V3 R) (i : V3 Z) : R := share (shape_of s) (invar_of (s_dim S)) (DepositProofs.place s (spacing S) x) (node (item_ib S) i).

  Lemma deposit_one_val x m v f f' : deposit_one S s nc x (m, v) f = Some f' -> forall m' i, f' m' i = f m' i + s_fnqs S * (if (m =? m')%Z then v else 0) * sv x i.
  Proof.
    unfold deposit_one. destruct ((0 <=? m)%Z && (m <? nc)%Z); [|discriminate]. destruct (code_dep _ _ _ _ _ _ _ _) as [g|] eqn:E; [|discriminate].
    intros H m' i. injection H as <-. destruct (Z.eqb_spec m' m) as [->|N].
    - rewrite Z.eqb_refl. exact (code_dep_share _ _ _ _ _ _ _ _ _ i W E).
    - replace (m =? m')%Z with false by lia. ring.
  Qed.

  Lemma deposit_calls_val x : forall l f f', deposit_calls S s nc x l f = Some f' -> forall m i, f' m i = f m i + s_fnqs S * added_to l m * sv x i.
  Proof.
    induction l as [|[m v] l IH]; intros f f' H m' i; cbn [deposit_calls] in H.
    - injection H as <-. unfold added_to. cbn. ring.
    - destruct (deposit_one S s nc x (m, v) f) as [f1|] eqn:E; [|discriminate]. rewrite (IH f1 f' H m' i), (deposit_one_val x m v f f1 E m' i).
      unfold added_to. cbn [map fst snd]. rewrite rsum_cons. ring.
  Qed.

  Lemma moment_patch_val t ks : forall b f f', moment_patch S s nc t ks b f = Some f' -> forall m i,
    f' m i = f m i + rsum (map (fun p => s_fnqs S * contrib t ks m p * sv (mp_x p) i) b).
  Proof.
    induction b as [|p b IH]; intros f f' H m i; cbn [moment_patch] in H.
    - injection H as <-. cbn. ring.
    - destruct (calls t ks p) as [l|] eqn:E; [|discriminate]. destruct (deposit_calls S s nc (mp_x p) l f) as [f1|] eqn:E1; [|discriminate].
      rewrite (IH f1 f' H m i), (deposit_calls_val _ l f f1 E1 m i). cbn [map]. rewrite rsum_cons. unfold contrib at 2. rewrite E. ring.
  Qed.

  Hypothesis Hdim : dep_dim (s_dim S).
  Lemma deposit_calls_ok x : forall l f, (forall e, In e l -> (0 <= fst e < nc)%Z) -> exists f', deposit_calls S s nc x l f = Some f'.
  Proof.
    induction l as [|[m v] l IH]; intros f H; cbn [deposit_calls]; [eauto|]. unfold deposit_one. pose proof (H (m, v) (or_introl eq_refl)) as B. cbn [fst] in B.
    replace ((0 <=? m)%Z && (m <? nc)%Z) with true by lia. destruct (code_dep_total s (s_dim S) (spacing S) (s_fnqs S) (item_ib S) x v (f m) Hdim) as [g E]. rewrite E.
    apply IH. intros e He. apply H. right. exact He.
  Qed.

  Lemma moment_patch_ok t ks : forall b f, (forall p, In p b -> exists l, calls t ks p = Some l /\ forall e, In e l -> (0 <= fst e < nc)%Z) -> exists f', moment_patch S s nc t ks b f = Some f'.
  Proof.
    induction b as [|p b IH]; intros f H; cbn [moment_patch]; [eauto|]. destruct (H p (or_introl eq_refl)) as (l & E & B). rewrite E.
    destruct (deposit_calls_ok (mp_x p) l f B) as [f1 E1]. rewrite E1. apply IH. intros q Hq. apply H. right. exact Hq.
  Qed.
End Patch.

(** ** components and their names *)
Definition table_len (t : moment) : Z := alen (contents t).

Lemma comp_names_table t ks : t <> mom_rho -> comp_names t ks = add_kind_suffix (map fst (contents t)) ks.
Proof. destruct t; intros H; [reflexivity|congruence|reflexivity ..]. Qed.

Lemma suffix_alen names ks : alen (add_kind_suffix names ks) = (alen ks * alen names)%Z.
Proof. unfold add_kind_suffix. induction ks as [|k ks IH]; [reflexivity|]. cbn [flat_map]. rewrite alen_app, alen_map, alen_cons, IH. lia. Qed.

Lemma suffix_get names : forall ks m nm, aget (add_kind_suffix names ks) m = Some nm -> exists k j kd n,
  m = (k * alen names + j)%Z /\ (0 <= j < alen names)%Z /\ aget ks k = Some kd /\ aget names j = Some n /\ nm = (n ++ "_" ++ k_name kd)%string.
Proof.
  induction ks as [|k ks IH]; intros m nm H; unfold add_kind_suffix in *; cbn [flat_map] in H; [rewrite aget_none in H; [discriminate|change (alen (@nil string)) with 0%Z; lia]|].
  pose proof (aget_bounds _ _ _ H) as B. rewrite aget_app, alen_map in H. destruct (m <? alen names)%Z eqn:L.
  - rewrite aget_map in H. destruct (aget names m) as [n|] eqn:E; [|discriminate]. injection H as <-. exists 0%Z, m, k, n. repeat split; try lia; try exact E. 
  - destruct (IH _ _ H) as (k' & j & kd & n & E1 & E2 & E3 & E4 & E5). exists (k' + 1)%Z, j, kd, n. pose proof (aget_bounds _ _ _ E3) as B3.
    repeat split; try lia; try assumption. rewrite aget_cons. replace (k' + 1 =? 0)%Z with false by lia. replace (k' + 1 - 1)%Z with k' by lia. exact E3.
Qed.

Lemma label_inj t lb Q lb' Q' n n' : In (lb, Q) (contents t) -> In (lb', Q') (contents t) -> (lb ++ "_" ++ n = lb' ++ "_" ++ n')%string -> lb = lb' /\ Q = Q' /\ n = n'.
Proof.
  intros H H'. destruct t; cbn [contents] in H, H'; 
    repeat match type of H with _ \/ _ => destruct H as [H|H] | False => destruct H | In _ (_ :: _) => destruct H as [H|H] | In _ [] => destruct H end; try injection H as <- <-;
    repeat match type of H' with _ \/ _ => destruct H' as [H'|H'] | False => destruct H' | In _ (_ :: _) => destruct H' as [H'|H'] | In _ [] => destruct H' end; try injection H' as <- <-;
    cbn; intros E; try discriminate E; injection E as E; subst; repeat split; reflexivity.
Qed.

Lemma names_inj ks : NoDup (map k_name ks) -> forall k k' kd kd', aget ks k = Some kd -> aget ks k' = Some kd' -> k_name kd = k_name kd' -> k = k'.
Proof.
  intros HN k k' kd kd' H H' E. pose proof (aget_bounds _ _ _ H) as B. pose proof (aget_bounds _ _ _ H') as B'. unfold aget in *.
  destruct (Z.ltb_spec k 0); [lia|]. destruct (Z.ltb_spec k' 0); [lia|].
  assert (Z.to_nat k = Z.to_nat k'); [|lia]. apply (proj1 (NoDup_nth_error (map k_name ks)) HN); [rewrite map_length; apply nth_error_Some; congruence|].
  rewrite !nth_error_map, H, H'. cbn. congruence.
Qed.

Lemma labels_nodup t : NoDup (contents t).
Proof. destruct t; cbn [contents]; repeat constructor; cbn [In]; intuition discriminate. Qed.

Lemma labels_inj t j j' lb Q : aget (contents t) j = Some (lb, Q) -> aget (contents t) j' = Some (lb, Q) -> j = j'.
Proof.
  intros H H'. pose proof (aget_bounds _ _ _ H) as B. pose proof (aget_bounds _ _ _ H') as B'. unfold aget in *.
  destruct (Z.ltb_spec j 0); [lia|]. destruct (Z.ltb_spec j' 0); [lia|].
  assert (Z.to_nat j = Z.to_nat j'); [|lia]. apply (proj1 (NoDup_nth_error (contents t)) (labels_nodup t)); [apply nth_error_Some; congruence|congruence].
Qed.

Lemma calc_vxi_get u d : get3 (calc_vxi u) d = get3 u d / gamma u.
Proof.
  unfold calc_vxi, gamma. replace (1 + (c0 u ^ 2 + c1 u ^ 2 + c2 u ^ 2)) with (1 + c0 u * c0 u + c1 u * c1 u + c2 u * c2 u) by ring.
  destruct d; cbn [get3 c0 c1 c2]; unfold Rdiv; ring.
Qed.

Lemma added_shift kd k n j l : (0 <= j < n)%Z -> (forall e, In e l -> (0 <= fst e < n)%Z) ->
  added_to (map (fun e => ((kd * n + fst e)%Z, snd e)) l) (k * n + j) = if (kd =? k)%Z then added_to l j else 0.
Proof.
  intros Hj Hl. unfold added_to. rewrite map_map. cbn [fst snd]. destruct (Z.eqb_spec kd k) as [->|N].
  - apply rsum_ext. intros e He. replace (k * n + fst e =? k * n + j)%Z with (fst e =? j)%Z by lia. reflexivity.
  - apply rsum_zero. intros e He. specialize (Hl e He). replace (kd * n + fst e =? k * n + j)%Z with false; [reflexivity|]. symmetry. apply Z.eqb_neq. clear - Hj Hl N. intros E. apply N.
    assert ((kd - k) * n = j - fst e)%Z by lia. destruct (Z.lt_trichotomy kd k) as [L|[L|L]]; [|exact L|]; exfalso; nia.
Qed.

Lemma cons_pair (a a' : Z) (v v' : R) l l' : a = a' -> v = v' -> l = l' -> (a, v) :: l = (a', v') :: l'.
Proof. intros -> -> ->. reflexivity. Qed.
Lemma one_pair (a a' : Z) (v v' : R) : a = a' -> v = v' -> [(a, v)] = [(a', v')].
Proof. intros -> ->. reflexivity. Qed.

(** the calls for one particle, by the table of contents *)
Definition rel_calls (t : moment) (k : kind) (p : mprt) : list (Z * R) := 
  map (fun jx : Z * (string * quantity) => (fst jx, amount (snd (snd jx)) k p)) (combine (zrange 0 (table_len t)) (contents t)).

Lemma calls_table t ks p k : t <> mom_rho -> aget ks (mp_kind p) = Some k -> k_q k <> 0 ->
  calls t ks p = Some (map (fun e => ((mp_kind p * table_len t + fst e)%Z, snd e)) (rel_calls t k p)).
Proof.
  intros Ht Hk Hq. unfold calls, kind_of. rewrite Hk. unfold prt_w. destruct (Req_EM_T (k_q k) 0) as [E|_]; [contradiction|].
  pose proof (calc_vxi_get (mp_u p) D0) as V0. pose proof (calc_vxi_get (mp_u p) D1) as V1. pose proof (calc_vxi_get (mp_u p) D2) as V2. cbn [get3] in V0, V1, V2.
  destruct t; [|congruence| | |]; f_equal; unfold rel_calls, table_len; cbn [contents].
  1: change (zrange 0 (alen [("n"%string, Number)])) with [0%Z].
  2,3: change (zrange 0 3) with [0; 1; 2]%Z; change (alen _) with 3%Z; change (zrange 0 3) with [0; 1; 2]%Z.
  4: change (alen _) with 13%Z; change (zrange 0 13) with [0; 1; 2; 3; 4; 5; 6; 7; 8; 9; 10; 11; 12]%Z.
  all: cbn [combine map fst snd amount get3 Z.eqb Pos.eqb]; rewrite ?V0, ?V1, ?V2.
  - change (alen _) with 1%Z. apply one_pair; [lia|reflexivity].
  - repeat (apply cons_pair; [lia|reflexivity|]). reflexivity.
  - repeat (apply cons_pair; [lia|reflexivity|]). reflexivity.
  - assert (G : gamma (mp_u p) <> 0) by (apply Rgt_not_eq, sqrt_lt_R0; nra).
    repeat (apply cons_pair; [lia|field; try split; assumption|]). reflexivity.
Qed.

Lemma rel_calls_bounds t k p e : In e (rel_calls t k p) -> (0 <= fst e < table_len t)%Z.
Proof.
  unfold rel_calls. intros H. apply in_map_iff in H. destruct H as ([j x] & <- & H). cbn [fst]. apply in_combine_l in H. apply in_zrange in H. exact H.
Qed.

Lemma rsum_pick {A} (f : A -> R) : forall l lo j x, aget l j = Some x ->
  rsum (map (fun jx => if (fst jx =? lo + j)%Z then f (snd jx) else 0) (combine (zrange lo (lo + alen l)) l)) = f x.
Proof.
  induction l as [|a l IH]; intros lo j x H; [pose proof (aget_bounds _ _ _ H) as B; change (alen (@nil A)) with 0%Z in B; lia|].
  pose proof (aget_bounds _ _ _ H) as B. rewrite alen_cons in *. assert (0 <= alen l)%Z by apply alen_nonneg. rewrite zrange_cons by lia. cbn [combine map fst snd]. rewrite rsum_cons.
  rewrite aget_cons in H. replace (lo + (1 + alen l))%Z with (lo + 1 + alen l)%Z by lia. destruct (Z.eqb_spec j 0) as [->|N].
  - injection H as <-. replace (lo =? lo + 0)%Z with true by lia. rewrite rsum_zero; [ring|]. intros [i y] Hi. apply in_combine_l in Hi. apply in_zrange in Hi. cbn [fst]. replace (i =? lo + 0)%Z with false by lia. reflexivity.
  - replace (lo =? lo + j)%Z with false by lia. rewrite <- (IH (lo + 1)%Z (j - 1)%Z x H), Rplus_0_l. apply rsum_ext. intros [i y] _. cbn [fst snd]. replace (lo + 1 + (j - 1))%Z with (lo + j)%Z by lia. reflexivity.
Qed.

Lemma rel_added t k p j lb Q : aget (contents t) j = Some (lb, Q) -> added_to (rel_calls t k p) j = amount Q k p.
Proof.
  intros H. unfold added_to, rel_calls, table_len. rewrite map_map. cbn [fst snd].
  exact (rsum_pick (fun x : string * quantity => amount (snd x) k p) (contents t) 0 j (lb, Q) H).
Qed.

Lemma contrib_val t ks k kd j lb Q p : (forall k, In k ks -> k_q k <> 0) -> (0 <= mp_kind p < alen ks)%Z -> aget ks k = Some kd -> aget (contents t) j = Some (lb, Q) ->
  contrib t ks (k * table_len t + j) p = of_kind Q k kd p.
Proof.
  intros Hq Hp Hk Hj. destruct (aget_some ks (mp_kind p) Hp) as [kp Ep]. assert (Ht : t <> mom_rho). { intros ->. pose proof (aget_bounds _ _ _ Hj) as B. cbn in B. lia. }
  unfold contrib. rewrite (calls_table t ks p kp Ht Ep (Hq kp (aget_In _ _ _ Ep))).
  pose proof (aget_bounds _ _ _ Hj) as B. rewrite added_shift; [|exact B|apply rel_calls_bounds]. unfold of_kind. destruct (Z.eqb_spec (mp_kind p) k) as [E|_]; [|reflexivity].
  rewrite E, Hk in Ep. injection Ep as <-. exact (rel_added t kd p j lb Q Hj).
Qed.

Lemma contrib_rho ks p : (forall k, In k ks -> k_q k <> 0) -> (0 <= mp_kind p < alen ks)%Z -> contrib mom_rho ks 0 p = mp_qw p.
Proof.
  intros Hq Hp. destruct (aget_some ks (mp_kind p) Hp) as [kp Ep]. pose proof (Hq kp (aget_In _ _ _ Ep)) as Hn. unfold contrib, calls, kind_of, prt_w. rewrite Ep.
  destruct (Req_EM_T (k_q kp) 0) as [E|_]; [contradiction|]. unfold added_to. cbn. field. exact Hn.
Qed.

Lemma calls_ok t ks p : (forall k, In k ks -> k_q k <> 0) -> (0 <= mp_kind p < alen ks)%Z -> exists l, calls t ks p = Some l /\ forall e, In e l -> (0 <= fst e < n_comps t ks)%Z.
Proof.
  intros Hq Hp. destruct (aget_some ks (mp_kind p) Hp) as [kp Ep]. pose proof (Hq kp (aget_In _ _ _ Ep)) as Hn.
  assert (D : t = mom_rho \/ t <> mom_rho) by (destruct t; [right|left|right ..]; congruence). destruct D as [->|Ht].
  - unfold calls, kind_of, prt_w. rewrite Ep. destruct (Req_EM_T (k_q kp) 0) as [E|_]; [contradiction|]. eexists. split; [reflexivity|]. intros e [<-|[]]. cbn. lia.
  - rewrite (calls_table t ks p kp Ht Ep Hn). eexists. split; [reflexivity|]. intros e He. apply in_map_iff in He. destruct He as (e' & <- & He). cbn [fst].
    pose proof (rel_calls_bounds t kp p e' He) as B. unfold n_comps. rewrite comp_names_table, suffix_alen, alen_map by exact Ht. fold (table_len t). clear - B Hp. nia.
Qed.

Section Domain.
  Variables (S : setting) (c : curve) (np gdims : V3 Z) (per : V3 bool) (pr : option (list Z)).
  Hypothesis HD : periodic_domain S c np gdims per pr.
  Variables (s : dep_scheme) (t : moment) (ks : list kind) (P : Z -> list (list mprt)).
  Hypothesis Hks : forall k, In k ks -> k_q k <> 0.
  Hypothesis HP : mprts_ok S ks P.
  Local Notation dm := (s_dm S).
  Local Notation size := (s_size S).
  Local Notation ibn := (s_ibn S).
  Local Notation inv := (invar_of (s_dim S)).
  Local Notation ld := (grid_ldims (s_dm S)).
  Local Notation val := (valid size (patches_of dm)).

  Let Hset : domain_setup c np gdims per pr size = Some dm.
  Proof. apply HD. Qed.
  Let Hpos : all_pos np.
  Proof. apply HD. Qed.
  Let Hcnt : counts_valid pr (volume np) size.
  Proof. apply HD. Qed.
  Let Hproc : processes pr size.
  Proof. apply HD. Qed.
  Let Hper : forall d, get3 per d = true.
  Proof. apply HD. Qed.
  Let Hg : forall d, (0 < get3 gdims d)%Z.
  Proof. intros d. apply HD. Qed.
  Let Hlen : forall d, 0 < get3 (s_len S) d.
  Proof. intros d. apply HD. Qed.
  Let Hinv : forall d, if get3 inv d then get3 gdims d = 1%Z /\ get3 ibn d = 0%Z else (2 <= get3 ibn d)%Z.
  Proof. intros d. apply HD. Qed.
  Let Hdim : dep_dim (s_dim S).
  Proof. destruct HD as (_ & _ & [->| ->] & _); [left|right]; reflexivity. Qed.
  Let Hgd : dm_gdims dm = gdims.
  Proof. destruct (dm_parts c np gdims per pr _ _ Hset) as (_ & -> & _). reflexivity. Qed.
  Let Hibn : forall d, (0 <= get3 ibn d <= get3 ld d)%Z.
  Proof.
    intros d. rewrite (ld_eq c np gdims per pr _ _ Hset), get3_gen3. destruct HD as (_ & _ & _ & H). destruct (H d) as (_ & _ & A & B). clear - A B.
    destruct (get3 inv d); [destruct B|]; lia.
  Qed.
  Let W : wf_ib (s_dim S) (item_ib S).
  Proof. intros e E. unfold item_ib. rewrite get3_gen3. pose proof (Hinv e) as Y. rewrite E in Y. destruct Y as [_ Y]. lia. Qed.

  Lemma shape_compact : compact (shape_of s).
  Proof. destruct s; [exact hat_compact|exact hat_compact|exact spline2_compact]. Qed.

  Lemma off_org r p d : patch_off S r p d = org S r p d.
  Proof. unfold patch_off, org, global_idx. destruct (get_local_patch_info dm r p); [destruct d; cbn [get3 c0 c1 c2]; lia|reflexivity]. Qed.

  Lemma share_at_weight r p x r' p' q : val r p -> share_at S s (fun d => patch_off S r p d + get3 x d)%Z (position S r' p' q) =
    weight S gdims (shape_of s) (r, p, x) (fun d => IZR (org S r' p' d) + get3 (DepositProofs.place s (spacing S) (mp_x q)) d).
  Proof.
    intros V. assert (X : forall d, shape_at (shape s) (get3 (dm_gdims dm) d) (patch_off S r p d + get3 x d) (position S r' p' q d - center s) =
      comb (get3 gdims d) (shape_of s) (global_idx dm (r, p, x) d) (IZR (org S r' p' d) + get3 (DepositProofs.place s (spacing S) (mp_x q)) d)).
    { intros d. rewrite (gidx S c np gdims per pr Hpos Hset Hcnt Hproc r p x d V), Hgd, off_org. unfold comb, shape_at.
      replace (position S r' p' q d - center s) with (IZR (org S r' p' d) + get3 (DepositProofs.place s (spacing S) (mp_x q)) d); [reflexivity|].
      unfold position, DepositProofs.place, spacing. rewrite !get3_gen3, off_org, Hgd. replace (offset_of s) with (center s) by (unfold center, offset_of; destruct s; lra). ring. }
    unfold share_at, weight. rewrite !X. reflexivity.
  Qed.

  Lemma place_bounds x d : (forall d, 0 <= get3 x d < IZR (get3 ld d) * (get3 (s_len S) d / IZR (get3 (dm_gdims dm) d))) ->
    (0 < get3 ld d /\ -1 <= fint (get3 (DepositProofs.place s (spacing S) x) d) < get3 ld d)%Z.
  Proof.
    intros H. specialize (H d). unfold DepositProofs.place. rewrite get3_gen3. pose proof (dx_pos S c np gdims per pr Hset Hg Hlen d) as Hp. rewrite Hgd, <- (dx_get S c np gdims per pr Hset d) in H.
    set (h := get3 (spacing S) d) in *. assert (A : 0 <= get3 x d / h < IZR (get3 ld d)).
    { unfold Rdiv. split; [apply Rmult_le_pos; [lra|apply Rlt_le, Rinv_0_lt_compat; exact Hp]|]. apply (Rmult_lt_reg_r h); [exact Hp|]. rewrite Rmult_assoc, Rinv_l, Rmult_1_r by lra. apply H. }
    assert (0 <= offset_of s <= / 2) by (destruct s; cbn; lra). split; [apply lt_IZR; lra|]. split; [apply fint_bounds|apply fint_bounds_hi]; lra.
  Qed.

  (** the points added to are stored: indices into the array *)
  Lemma within x v l : (forall d, 0 <= get3 x d < IZR (get3 ld d) * (get3 (s_len S) d / IZR (get3 (dm_gdims dm) d))) ->
    norm_dep s (s_dim S) (item_ib S) (gen3 (fun e => get3 x e * (1 / get3 (spacing S) e))) v = Some l ->
    forall i w, In (i, w) l -> forall d, (0 <= get3 i d < get3 ld d + 2 * get3 ibn d)%Z.
  Proof.
    intros H E.
    assert (A : forall d, 0 <= get3 x d * (1 / get3 (spacing S) d) < IZR (get3 ld d)).
    { intros d. specialize (H d). pose proof (dx_pos S c np gdims per pr Hset Hg Hlen d) as Hp. rewrite Hgd, <- (dx_get S c np gdims per pr Hset d) in H.
      set (h := get3 (spacing S) d) in *. unfold Rdiv. rewrite Rmult_1_l. split; [apply Rmult_le_pos; [lra|apply Rlt_le, Rinv_0_lt_compat; exact Hp]|].
      apply (Rmult_lt_reg_r h); [exact Hp|]. rewrite Rmult_assoc, Rinv_l, Rmult_1_r by lra. apply H. }
    set (y := fun e => get3 x e * (1 / get3 (spacing S) e)) in *. change (forall d, 0 <= y d < IZR (get3 ld d)) in A.
    assert (F1 : forall d, (0 <= fint (y d) < get3 ld d)%Z) by (intros d; specialize (A d); split; [apply fint_bounds|apply fint_bounds_hi]; lra).
    assert (F2 : forall d, (-1 <= fint (y d - / 2) < get3 ld d)%Z) by (intros d; specialize (A d); split; [apply fint_bounds|apply fint_bounds_hi]; lra).
    assert (F3 : forall d, (0 <= nint (y d) <= get3 ld d)%Z).
    { intros d. specialize (A d). pose proof (nint_spec (y d)) as N. apply Rabs_def2b in N. split.
      - assert (-1 < IZR (nint (y d))) as K by lra. apply lt_IZR in K. lia.
      - assert (IZR (nint (y d)) < IZR (get3 ld d + 1)) as K by (rewrite plus_IZR; lra). apply lt_IZR in K. lia. }
    pose proof Hinv as I1.
    assert (L1 : forall d, (0 < get3 ld d)%Z) by (intros d; specialize (F1 d); lia).
    clear H A.
    intros i w Hi d. pose proof (I1 D0) as J0. pose proof (I1 D1) as J1. pose proof (I1 D2) as J2. specialize (L1 d) as Ld.
    pose proof (F1 D0) as F10. pose proof (F1 D1) as F11. pose proof (F1 D2) as F12.
    pose proof (F2 D0) as F20. pose proof (F2 D1) as F21. pose proof (F2 D2) as F22.
    pose proof (F3 D0) as F30. pose proof (F3 D1) as F31. pose proof (F3 D2) as F32.
    unfold item_ib in E. clear F1 F2 F3 I1 L1.
    destruct s, (s_dim S); unfold norm_dep, norm_1st_nc, norm_1st_cc, norm_2nd_nc in E; cbn [norm_dep norm_1st_nc norm_1st_cc norm_2nd_nc deposit1st deposit2nd gen3 get3 c0 c1 c2] in E; try discriminate;
      injection E as <-; cbn [In] in Hi; cbn [invar_of get3 c0 c1 c2] in J0, J1, J2; unfold z3 in Hi;
      generalize dependent (fint (y D0)); generalize dependent (fint (y D1)); generalize dependent (fint (y D2));
      generalize dependent (fint (y D0 - / 2)); generalize dependent (fint (y D1 - / 2)); generalize dependent (fint (y D2 - / 2));
      generalize dependent (nint (y D0)); generalize dependent (nint (y D1)); generalize dependent (nint (y D2)); intros;
      repeat (destruct Hi as [Hi|Hi]; [injection Hi as <- _; destruct d; cbn [get3 c0 c1 c2] in *; lia|]); destruct Hi.
  Qed.

  Definition prts_of (r p : Z) : list mprt := match aget (P r) p with Some b => b | None => [] end.

  (** the deposited values, before the ghost points are added *)
  Lemma deposited_val nc (D : Z -> flds R) : (forall r p b, (0 <= r < size)%Z -> aget (P r) p = Some b -> exists f,
       moment_patch S s nc t ks b (fun _ _ => 0) = Some f /\ forall m i, D r p m i = f m (gen3 (fun d => get3 i d - get3 (item_ib S) d)%Z)) ->
    forall r p m y, val r p -> D r p m y = rsum (map (fun q => s_fnqs S * contrib t ks m q * share (shape_of s) inv (DepositProofs.place s (spacing S) (mp_x q)) y) (prts_of r p)).
  Proof.
    intros H r p m y [Hr Hp]. destruct (aget_some (P r) p) as [b Eb]; [rewrite (proj1 HP r Hr); exact Hp|]. destruct (H r p b Hr Eb) as (f & E1 & E2).
    rewrite E2, (moment_patch_val S s nc W t ks b _ f E1). unfold prts_of. rewrite Eb, Rplus_0_l. apply rsum_ext. intros q _. f_equal. f_equal.
    apply v3_ext. intros d. unfold node. rewrite !get3_gen3. lia.
  Qed.

  Lemma prts_in r p q : val r p -> In q (prts_of r p) -> (0 <= mp_kind q < alen ks)%Z /\ forall d, 0 <= get3 (mp_x q) d < IZR (get3 ld d) * (get3 (s_len S) d / IZR (get3 (dm_gdims dm) d)).
  Proof. intros V. unfold prts_of. destruct (aget (P r) p) as [b|] eqn:E; [|intros []]. intros Hq. exact (proj2 HP r p b q V E Hq). Qed.

  Lemma item_val D' : item_moment S s t ks P D' -> forall r p x m, val r p -> in_box ld x -> (0 <= m < n_comps t ks)%Z ->
    D' r p m x = at_point S s P (contrib t ks m) r p x.
  Proof.
    intros (D & H & HA) r p x m V I M. assert (NC : (0 <= n_comps t ks)%Z) by apply alen_nonneg.
    destruct (added_val S c np gdims per pr Hpos Hset Hcnt Hproc Hibn _ _ _ D D' HA) as [A _]; [lia|].
    rewrite (A r p x m V (proj2 (GhostProofs.interior_iff 0 _ _) I) M). unfold at_point, everyone. apply over_ext. intros r' p' V'.
    rewrite (all_points_box S c np gdims per pr Hpos Hset Hcnt Hproc r' p' V').
    rewrite (rsum_ext _ (fun y => rsum (map (fun q => if same_pointb dm (r, p, x) (r', p', y) then s_fnqs S * contrib t ks m q * share (shape_of s) inv (DepositProofs.place s (spacing S) (mp_x q)) y else 0) (prts_of r' p')))).
    - rewrite rsum_swap. apply rsum_ext. intros q Hq. rewrite (share_at_weight r p x r' p' q V).
      apply (share_folded S c np gdims per pr Hpos Hset Hcnt Hproc Hper Hg Hinv Hibn); [exact shape_compact|exact V'|].
      intros d. rewrite !get3_gen3. pose proof (place_bounds (mp_x q) d (proj2 (prts_in r' p' q V' Hq))) as B. pose proof (Hinv d) as I1. pose proof (Hibn d) as I2. clear - B I1 I2. destruct (get3 inv d); [destruct I1|]; lia.
    - intros y _. rewrite (deposited_val _ D H r' p' m y V'). destruct (same_pointb dm (r, p, x) (r', p', y)); [reflexivity|]. rewrite rsum_zero; [reflexivity|intros; reflexivity].
  Qed.

  Lemma item_total D' : item_moment S s t ks P D' -> forall m, (0 <= m < n_comps t ks)%Z ->
    all_own S (fun r p x => D' r p m x) = everyone S P (fun _ _ q => s_fnqs S * contrib t ks m q).
  Proof.
    intros (D & H & (msgs & pool & E1 & E2 & E3)) m M. assert (NC : (0 <= n_comps t ks)%Z) by apply alen_nonneg.
    destruct (C11_add c np gdims per pr size dm ibn (n_comps t ks) 0 (n_comps t ks) D Hpos Hset Hcnt Hproc (fitS S c np gdims per pr Hset Hibn)) as (msgs' & recvs & K1 & _ & _ & K2); [lia|].
    rewrite E1 in K1. injection K1 as <-. destruct (K2 pool E2) as (F'' & A & _ & _ & B). specialize (B m M Hper).
    transitivity (rsum (map (at_place D' m) (own_places dm size))).
    - unfold all_own, own_places. rewrite rsum_places. apply over_ext. intros r p V. rewrite <- rsum_box. unfold own_points, at_place. 
      replace (size_of dm (r, p, (v3 0 0 0)%Z)) with ld; [reflexivity|]. symmetry. exact (size_of_val c np gdims per pr size dm Hpos Hset Hcnt Hproc r p _ V).
    - transitivity (rsum (map (at_place D m) (all_places dm size ibn))).
      + rewrite <- B. apply rsum_ext. intros [[r p] x] Ha. apply (in_own c np gdims per pr size dm Hpos Hset Hcnt Hproc) in Ha. destruct Ha as [[Hr _] _]. cbn [at_place].
        pose proof (E3 r Hr) as X. rewrite (A r Hr) in X. congruence.
      + unfold all_places. rewrite rsum_places. apply over_ext. intros r p V. rewrite (all_points_box S c np gdims per pr Hpos Hset Hcnt Hproc r p V). cbn [at_place].
        rewrite (rsum_ext _ _ _ (fun y _ => deposited_val _ D H r p m y V)), rsum_swap. apply rsum_ext. intros q Hq. rewrite rsum_mul, rsum_box.
        rewrite (share_sum s inv); [ring|]. intros d. rewrite !get3_gen3. pose proof (prts_in r p q V Hq) as [_ HI].
        pose proof (place_bounds (mp_x q) d HI) as B1. pose proof (Hinv d) as I1. pose proof (Hibn d) as I2. destruct (get3 inv d) eqn:Ei; [destruct I1 as [_ I1]; clear - B1 I1; lia|].
        set (y := get3 (DepositProofs.place s (spacing S) (mp_x q)) d) in *. clear - B1 I1 I2. destruct s; cbn [covers]; [lia|lia|].
        pose proof (nint_spec y) as N. apply Rabs_def2b in N. pose proof (Zfloor_lb y) as L. pose proof (Zfloor_ub y) as U. fold (fint y) in L, U.
        assert (IZR (fint y) - 1 < IZR (nint y)) by lra. rewrite <- minus_IZR in H. apply lt_IZR in H. assert (IZR (nint y) < IZR (fint y) + 2) by lra. rewrite <- plus_IZR in H0. apply lt_IZR in H0. lia.
  Qed.

  Lemma item_exists : exists D', item_moment S s t ks P D'.
  Proof.
    assert (NC : (0 <= n_comps t ks)%Z) by apply alen_nonneg.
    set (dep r p := match aget (P r) p with Some b => match moment_patch S s (n_comps t ks) t ks b (fun _ _ => 0) with Some f => f | None => fun _ _ => 0 end | None => fun _ _ => 0 end).
    set (D := (fun r p m i => dep r p m (gen3 (fun d => get3 i d - get3 (item_ib S) d)%Z)) : Z -> flds R).
    destruct (added_exists S c np gdims per pr Hpos Hset Hcnt Hproc Hibn (n_comps t ks) 0 (n_comps t ks) D) as [D' H]; [clear - NC; lia|]. exists D', D. split; [|exact H].
    intros r p b Hr Eb. destruct (moment_patch_ok S s (n_comps t ks) Hdim t ks b (fun _ _ => 0)) as [f E].
    - intros q Hq. apply calls_ok; [exact Hks|]. pose proof (aget_bounds _ _ _ Eb) as B. rewrite (proj1 HP r Hr) in B. exact (proj1 (proj2 HP r p b q (conj Hr B) Eb Hq)).
    - exists f. split; [exact E|]. intros m i. unfold D, dep. rewrite Eb, E. reflexivity.
  Qed.
End Domain.

(** ** the same particles in another decomposition *)
Lemma everyone_world S P (g : V3 R -> V3 R * Z * R -> R) (f : Z -> Z -> mprt -> R) :
  (forall r p q, f r p q = g (gen3 (position S r p q)) (mp_u q, mp_kind q, mp_qw q)) -> everyone S P f = rsum (map (fun e => g (fst e) (snd e)) (world S P)).
Proof.
  intros H. unfold everyone, world. rewrite rsum_flat. apply rsum_ext. intros r _. rewrite rsum_flat. apply rsum_ext. intros p _. rewrite map_map. cbn [fst snd]. apply rsum_ext. intros q _. apply H.
Qed.

Lemma at_point_world S S' s P P' (h : V3 R * Z * R -> R) (f : mprt -> R) r p x r' p' x' :
  (forall q, f q = h (mp_u q, mp_kind q, mp_qw q)) ->
  dm_gdims (s_dm S) = dm_gdims (s_dm S') -> s_dim S = s_dim S' -> s_fnqs S = s_fnqs S' -> Permutation (world S P) (world S' P') ->
  (forall d, (patch_off S r p d + get3 x d)%Z = (patch_off S' r' p' d + get3 x' d)%Z) ->
  at_point S s P f r p x = at_point S' s P' f r' p' x'.
Proof.
  intros Hf H1 H2 H3 HP Hx. unfold at_point.
  rewrite (everyone_world S P (fun y e => s_fnqs S * h e * share_at S s (fun d => patch_off S r p d + get3 x d)%Z (get3 y))).
  2:{ intros r0 p0 q. rewrite Hf. reflexivity. }
  rewrite (everyone_world S' P' (fun y e => s_fnqs S' * h e * share_at S' s (fun d => patch_off S' r' p' d + get3 x' d)%Z (get3 y))).
  2:{ intros r0 p0 q. rewrite Hf. reflexivity. }
  rewrite (rsum_perm _ _ (Permutation_map _ HP)). apply rsum_ext. intros [y e] _. cbn [fst snd]. rewrite H3. f_equal. unfold share_at. rewrite H1, H2, !Hx. reflexivity.
Qed.
