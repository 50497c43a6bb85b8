(** C30: Gauss's law for the whole system, proofs. *)
From Coq Require Import Reals Lra Psatz.
From Flocq Require Import Core.
From Verif Require Import Base Arr BalanceModel RSum DomainModel DomainSpec DomainBoxProofs MpiModel BndPrtModel BndPrtExact DdcPrtModel DdcPrtSpec DdcPrtProofs DdcPrtGlobalSpec DdcPrtProps GhostModel GhostSpec GhostProofs GhostProps FieldModel FieldSpec FieldProofs FieldProps DepositModel DepositSpec DepositProofs DepositProps CurrentModel CurrentProofs PushModel PushSpec PushProofs EsirkModel EsirkProofs EsirkProps AvgSpec CudaCurrModel CudaCurrProofs AvgProps GaussModel.
Local Open Scope R_scope.

(** ** sums *)
Lemma rsum_supp {A} (f : A -> R) l l' : NoDup l -> NoDup l' -> (forall n, f n <> 0 -> (In n l <-> In n l')) -> rsum (map f l) = rsum (map f l').
Proof.
  intros N N' H. assert (E : forall l, rsum (map f l) = rsum (map f (filter (fun n => if Req_EM_T (f n) 0 then false else true) l))).
  { intros k. rewrite rsum_filter. apply rsum_ext. intros n _. destruct (Req_EM_T (f n) 0); congruence. }
  rewrite (E l), (E l'). apply rsum_perm. apply Permutation_map. apply NoDup_Permutation; try (apply NoDup_filter; assumption).
  intros n. rewrite !filter_In. destruct (Req_EM_T (f n) 0) as [Z|Z]; [split; intros [_ X]; discriminate|]. rewrite (H n Z). tauto.
Qed.

Lemma rsum_zshift (f : Z -> R) lo hi k : rsum (map (fun n => f (n + k)%Z) (zrange lo hi)) = rsum (map f (zrange (lo + k) (hi + k))).
Proof.
  replace (map (fun n => f (n + k)%Z) (zrange lo hi)) with (map f (map (fun n => n + k)%Z (zrange lo hi))) by (rewrite map_map; reflexivity).
  apply rsum_supp.
  - apply FinFun.Injective_map_NoDup; [intros a b; lia|apply NoDup_zrange].
  - apply NoDup_zrange.
  - intros n _. rewrite in_map_iff, in_zrange. split; [intros (x & <- & Hx); apply in_zrange in Hx; lia|].
    intros Hn. exists (n - k)%Z. rewrite in_zrange. lia.
Qed.

Lemma rsum_flat {A B} (f : B -> R) (g : A -> list B) l : rsum (map f (flat_map g l)) = rsum (map (fun a => rsum (map f (g a))) l).
Proof. induction l as [|a l IH]; [reflexivity|]. cbn [flat_map map]. rewrite map_app, rsum_app, IH. reflexivity. Qed.

Lemma rsum_box lo hi u : rsum (map u (box lo hi)) = sum_nodes lo hi u.
Proof.
  rewrite sum_nodes_rsum. unfold box. rewrite rsum_flat. apply rsum_ext. intros k _. rewrite rsum_flat. apply rsum_ext. intros j _. rewrite map_map. reflexivity.
Qed.

Lemma rsum_places dm size pts f : rsum (map f (places dm size pts)) =
  rsum (map (fun r => rsum (map (fun p => rsum (map (fun x => f (r, p, x)) (pts r p))) (zrange 0 (patches_of dm r)))) (zrange 0 size)).
Proof. unfold places. rewrite rsum_flat. apply rsum_ext. intros r _. rewrite rsum_flat. apply rsum_ext. intros p _. rewrite map_map. reflexivity. Qed.

(** ** one direction *)
Definition cong (G A N : Z) : bool := ((A - N) mod G =? 0)%Z.

Lemma cong_iff G A N : (0 < G)%Z -> cong G A N = true <-> exists k, A = (N + k * G)%Z.
Proof.
  intros HG. unfold cong. rewrite Z.eqb_eq, Z.mod_divide by lia. split; intros [k E]; exists k; lia.
Qed.

Lemma cong_shift G A N k : (0 < G)%Z -> cong G A (N + k * G) = cong G A N.
Proof. intros HG. unfold cong. replace (A - (N + k * G))%Z with (A - N + (- k) * G)%Z by ring. rewrite Z_mod_plus_full. reflexivity. Qed.

(** the shape functions end within 3/2 *)
Definition compact (sh : R -> R) : Prop := forall t, sh t <> 0 -> -(3 / 2) < t < 3 / 2.

Lemma hat_compact : compact hat.
Proof. intros t H. unfold hat in H. destruct (Rle_dec 1 (Rabs t)) as [L|L]; [exfalso; apply H; rewrite Rmax_left; lra|]. apply Rnot_le_lt in L. apply Rabs_def2 in L. lra. Qed.

Lemma spline2_compact : compact spline2.
Proof.
  intros t H. unfold spline2 in H. destruct (Rle_dec (Rabs t) (1 / 2)) as [L|L]; [apply Rabs_def2b in L; lra|].
  destruct (Rle_dec (Rabs t) (3 / 2)) as [L'|L']; [|lra]. assert (Rabs t < 3 / 2) by (destruct L' as [L'|E]; [exact L'|rewrite E in H; lra]). apply Rabs_def2 in H0. lra.
Qed.

Section Line.
  Variable G : Z.
  Hypothesis HG : (0 < G)%Z.
  Variable sh : R -> R.
  Hypothesis Hsh : compact sh.

  Definition comb (A : Z) (y : R) : R := rsum (map (fun N => if cong G A N then sh (y - IZR N) else 0) (zrange (fint y - 1) (fint y + 3))).

  Lemma comb_window A y lo hi : (lo <= fint y - 1)%Z -> (fint y + 3 <= hi)%Z ->
    rsum (map (fun N => if cong G A N then sh (y - IZR N) else 0) (zrange lo hi)) = comb A y.
  Proof.
    intros H1 H2. apply rsum_supp; [apply NoDup_zrange ..|]. intros n Hn. rewrite !in_zrange.
    destruct (cong G A n); [|congruence]. apply Hsh in Hn. pose proof (floor_spec y) as [F1 F2].
    assert (fint y - 1 <= n < fint y + 3)%Z; [|lia]. split.
    - assert (IZR (fint y - 2) < IZR n) by (rewrite minus_IZR; lra). apply lt_IZR in H. lia.
    - apply lt_IZR. rewrite plus_IZR. lra.
  Qed.

  Lemma fint_plus y k : fint (y + IZR k) = (fint y + k)%Z.
  Proof. apply fint_unique. pose proof (floor_spec y). rewrite plus_IZR. lra. Qed.

  Lemma comb_off A y o lo hi : (lo <= fint y - 1)%Z -> (fint y + 3 <= hi)%Z ->
    rsum (map (fun n => if cong G A (o + n) then sh (y - IZR n) else 0) (zrange lo hi)) = comb A (IZR o + y).
  Proof.
    intros H1 H2. rewrite <- (comb_window A (IZR o + y) (lo + o) (hi + o)).
    - rewrite <- rsum_zshift. apply rsum_ext. intros n _. rewrite (Z.add_comm n o), plus_IZR. replace (IZR o + y - (IZR o + IZR n)) with (y - IZR n) by ring. reflexivity.
    - rewrite Rplus_comm, fint_plus. lia.
    - rewrite Rplus_comm, fint_plus. lia.
  Qed.

  Lemma comb_period A y k : comb A (y + IZR (k * G)) = comb A y.
  Proof.
    rewrite <- (comb_window A (y + IZR (k * G)) (fint y - 1 + k * G) (fint y + 3 + k * G)) by (rewrite fint_plus; lia).
    rewrite <- rsum_zshift. unfold comb. apply rsum_ext. intros n _. rewrite cong_shift by exact HG. rewrite plus_IZR. replace (y + IZR (k * G) - (IZR n + IZR (k * G))) with (y - IZR n) by ring. reflexivity.
  Qed.
End Line.

Lemma gen3_forallb (f : dim3 -> bool) : forallb f dims3 = true <-> forall d, f d = true.
Proof. cbn. rewrite !andb_true_iff. split; [intros (A & B & C & _) []; assumption|]. intros H. repeat split; apply H. Qed.

(** ** the whole domain *)
Section System.
  Variables (S : setting) (c : curve) (np gdims : V3 Z) (per : V3 bool) (pr : option (list Z)).
  Local Notation dm := (s_dm S).
  Local Notation size := (s_size S).
  Local Notation ibn := (s_ibn S).
  Local Notation inv := (invar_of (s_dim S)).
  Local Notation ld := (grid_ldims (s_dm S)).
  Local Notation dx := (spacing S).
  Hypothesis Hpos : all_pos np.
  Hypothesis Hset : domain_setup c np gdims per pr size = Some dm.
  Hypothesis Hcnt : counts_valid pr (volume np) size.
  Hypothesis Hproc : processes pr size.
  Hypothesis Hper : forall d, get3 per d = true.
  Hypothesis Hg : forall d, (0 < get3 gdims d)%Z.
  Hypothesis Hinv : forall d, if get3 inv d then get3 gdims d = 1%Z /\ get3 ibn d = 0%Z else (2 <= get3 ibn d)%Z.
  Hypothesis Hibn : forall d, (0 <= get3 ibn d <= get3 ld d)%Z.

  Local Notation val := (valid size (patches_of dm)).

  Definition org (r p : Z) (d : dim3) : Z := global_idx dm (r, p, v3 0 0 0)%Z d.

  Lemma gidx r p n d : val r p -> global_idx dm (r, p, n) d = (org r p d + get3 n d)%Z.
  Proof.
    intros V. destruct (global_idx_val c np gdims per pr size dm Hpos Hset Hcnt Hproc r p V) as (idx & _ & _ & H). unfold org. rewrite !H.
    destruct d; cbn [get3 c0 c1 c2]; lia.
  Qed.

  Lemma sp_cong a r p n : val r p -> same_pointb dm a (r, p, n) = forallb (fun d => cong (get3 gdims d) (global_idx dm a d) (org r p d + get3 n d)) dims3.
  Proof.
    intros V. destruct (dm_parts c np gdims per pr size dm Hset) as (_ & E1 & E2). unfold same_pointb. rewrite E1, E2. cbn [forallb dims3].
    rewrite !Hper, !gidx by exact V. reflexivity.
  Qed.

  Lemma sp_shift r0 p0 x0 r p n e : val r0 p0 -> val r p -> same_pointb dm (r0, p0, x0) (r, p, shift n e 1) = same_pointb dm (r0, p0, shift x0 e (-1)) (r, p, n).
  Proof.
    intros V0 V. rewrite !sp_cong by exact V. cbn [forallb dims3]. rewrite !gidx by exact V0.
    assert (X : forall d, cong (get3 gdims d) (org r0 p0 d + get3 x0 d) (org r p d + get3 (shift n e 1) d) = cong (get3 gdims d) (org r0 p0 d + get3 (shift x0 e (-1)) d) (org r p d + get3 n d)).
    { intros d. unfold cong. f_equal. f_equal. unfold shift. destruct (dim3_eqb e d) eqn:E; [apply dim3_eqb_eq in E; subst d; rewrite !get3_set3_same; lia|].
      rewrite !get3_set3_other by (intros ->; rewrite dim3_eqb_refl in E; discriminate). reflexivity. }
    rewrite !X. reflexivity.
  Qed.

  (** the density of a particle, folded onto the domain *)
  Definition weight (sh : R -> R) (a : GhostSpec.place) (y : dim3 -> R) : R :=
    (if get3 inv D0 then 1 else comb (get3 gdims D0) sh (global_idx dm a D0) (y D0)) *
    (if get3 inv D1 then 1 else comb (get3 gdims D1) sh (global_idx dm a D1) (y D1)) *
    (if get3 inv D2 then 1 else comb (get3 gdims D2) sh (global_idx dm a D2) (y D2)).

  Lemma share_folded sh a r p x k lo hi : compact sh -> val r p ->
    (forall d, if get3 inv d then (get3 lo d <= 0 < get3 hi d)%Z else (get3 lo d <= fint (get3 x d) - 1 /\ fint (get3 x d) + 3 <= get3 hi d)%Z) ->
    rsum (map (fun n => if same_pointb dm a (r, p, n) then k * share sh inv x n else 0) (box lo hi)) = k * weight sh a (fun d => IZR (org r p d) + get3 x d).
  Proof.
    intros Hsh V HB.
    set (one := fun d n => if cong (get3 gdims d) (global_idx dm a d) (org r p d + n) then (if get3 inv d then delta n 0 else sh (get3 x d - IZR n)) else 0).
    rewrite (rsum_ext _ (fun n => k * (one D0 (c0 n) * one D1 (c1 n) * one D2 (c2 n)))).
    2:{ intros n _. rewrite sp_cong by exact V. rewrite share_get. cbn [forallb dims3 get3]. unfold one. cbn [get3].
        destruct (cong (c0 gdims) _ _), (cong (c1 gdims) _ _), (cong (c2 gdims) _ _); cbn [andb]; ring. }
    rewrite rsum_mul, rsum_box, (sum_nodes_prod lo hi (one D0) (one D1) (one D2)). f_equal. unfold weight.
    assert (X : forall d, rsum (map (one d) (zrange (get3 lo d) (get3 hi d))) = if get3 inv d then 1 else comb (get3 gdims d) sh (global_idx dm a d) (IZR (org r p d) + get3 x d)).
    { intros d. unfold one. specialize (HB d). pose proof (Hinv d) as I. destruct (get3 inv d) eqn:E.
      - destruct I as [I1 I2]. rewrite I1. rewrite (rsum_ext _ (fun n => (fun _ => 1) n * delta 0 n)).
        + rewrite rsum_delta. replace ((get3 lo d <=? 0)%Z && (0 <? get3 hi d)%Z) with true by lia. reflexivity.
        + intros n _. unfold cong. rewrite Z.mod_1_r. cbn. unfold delta. rewrite (Z.eqb_sym n 0). ring.
      - apply comb_off; try assumption; apply HB. }
    rewrite <- !X. reflexivity.
  Qed.

  (** *** the current *)
  Definition tot (a : GhostSpec.place) (r p : Z) (d : dim3) (l : list entry) : R :=
    rsum (map (fun e : entry => if dim3_eqb (fst (fst e)) d then (if same_pointb dm a (r, p, snd (fst e)) then snd e else 0) else 0) l).

  Lemma box_jcur a r p d l lo hi : (forall e, In e l -> In (snd (fst e)) (box lo hi)) ->
    rsum (map (fun n => if same_pointb dm a (r, p, n) then jcur l d n else 0) (box lo hi)) = tot a r p d l.
  Proof.
    induction l as [|[[d' i] v] l IH]; intros H.
    - unfold jcur, tot. cbn. apply rsum_zero. intros n _. match goal with |- (if ?b then _ else _) = _ => destruct b end; reflexivity.
    - unfold tot. cbn [map]. rewrite rsum_cons. fold (tot a r p d l). rewrite <- IH by (intros e He; apply H; right; exact He).
      rewrite (rsum_ext _ (fun n => (if v3_eqb i n then (if dim3_eqb d' d then (if same_pointb dm a (r, p, i) then v else 0) else 0) else 0) + (if same_pointb dm a (r, p, n) then jcur l d n else 0))).
      + rewrite rsum_plus. f_equal. cbn [fst snd]. apply (rsum_one (fun n => v3_eqb i n) _ _ i).
        * apply NoDup_box.
        * exact (H (d', i, v) (or_introl eq_refl)).
        * unfold v3_eqb. rewrite !Z.eqb_refl. reflexivity.
        * intros n _ E. unfold v3_eqb in E. destruct i as [i0 i1 i2], n as [n0 n1 n2]. cbn [c0 c1 c2] in E. f_equal; lia.
      + intros n _. unfold jcur. cbn [map]. rewrite rsum_cons. cbn [fst snd]. destruct (v3_eqb i n) eqn:E.
        * assert (i = n) as <- by (unfold v3_eqb in E; destruct i as [i0 i1 i2], n as [n0 n1 n2]; cbn [c0 c1 c2] in E; f_equal; lia).
          unfold delta3. rewrite !delta_same. destruct (same_pointb _ _ _), (dim3_eqb d' d); ring.
        * assert (delta3 i n = 0) as ->.
          { unfold delta3, delta. unfold v3_eqb in E. destruct (c0 i =? c0 n)%Z, (c1 i =? c1 n)%Z, (c2 i =? c2 n)%Z; try discriminate; ring. }
          destruct (same_pointb _ _ _), (dim3_eqb d' d); ring.
  Qed.

  Definition move (d : dim3) (l : list entry) : list entry := map (fun e : entry => (fst (fst e), shift (snd (fst e)) d 1, snd e)) l.

  Lemma delta3_shift i n d : delta3 (shift i d 1) n = delta3 i (shift n d (-1)).
  Proof.
    destruct i as [i0 i1 i2], n as [n0 n1 n2]. unfold delta3, shift, delta. destruct d; cbn [set3 get3 c0 c1 c2].
    - replace (i0 =? n0 + -1)%Z with (i0 + 1 =? n0)%Z by lia. reflexivity.
    - replace (i1 =? n1 + -1)%Z with (i1 + 1 =? n1)%Z by lia. reflexivity.
    - replace (i2 =? n2 + -1)%Z with (i2 + 1 =? n2)%Z by lia. reflexivity.
  Qed.

  Lemma jcur_move d e l n : jcur (move e l) d n = jcur l d (shift n e (-1)).
  Proof. unfold jcur, move. rewrite map_map. apply rsum_ext. intros [[d' i] v] _. cbn [fst snd]. rewrite delta3_shift. reflexivity. Qed.

  Lemma tot_move r0 p0 x0 r p d e l : val r0 p0 -> val r p -> tot (r0, p0, x0) r p d (move e l) = tot (r0, p0, shift x0 e (-1)) r p d l.
  Proof. intros V0 V. unfold tot, move. rewrite map_map. apply rsum_ext. intros [[d' i] v] _. cbn [fst snd]. rewrite sp_shift by assumption. reflexivity. Qed.

  Definition sp_ind a r p n (v : R) : R := if same_pointb dm a (r, p, n) then v else 0.

  (** the box with one more layer *)
  Definition blo : V3 Z := gen3 (fun d => - get3 ibn d - 1)%Z.
  Definition bhi : V3 Z := gen3 (fun d => get3 ld d + get3 ibn d + 1)%Z.

  Lemma in_big i : (forall d, - get3 ibn d - 1 <= get3 i d < get3 ld d + get3 ibn d + 1)%Z -> In i (box blo bhi).
  Proof. intros H. apply (in_spec_box 0%Z dm). apply in_boxb_iff. intros d. unfold blo, bhi. rewrite !get3_gen3. apply H. Qed.

  Lemma stored_entry e : entry_stored S e = true -> forall d, (- get3 ibn d <= get3 (snd (fst e)) d < get3 ld d + get3 ibn d)%Z.
  Proof. destruct e as [[d' i] v]. unfold entry_stored. intros H d. apply (proj1 (gen3_forallb _)) with (d := d) in H. cbn [fst snd]. lia. Qed.

  Lemma div_folded r0 p0 x0 r p l : val r0 p0 -> val r p -> forallb (entry_stored S) l = true ->
    rsum (map (fun n => if same_pointb dm (r0, p0, x0) (r, p, n) then div_minus inv dx (jcur l) n else 0) (box blo bhi)) =
    div_minus inv dx (fun d x => tot (r0, p0, x) r p d l) x0.
  Proof.
    intros V0 V Hl. rewrite forallb_forall in Hl. set (a := (r0, p0, x0)). set (X := fun d => if get3 inv d then 0 else / get3 dx d).
    assert (Y : forall d u i, dminus inv dx d u i = X d * u i + - X d * u (shift i d (-1))).
    { intros d u i. unfold dminus, X. destruct (get3 inv d); [ring|unfold Rdiv; ring]. }
    unfold div_minus. rewrite !Y.
    set (I := fun n (v : R) => if same_pointb dm a (r, p, n) then v else 0).
    rewrite (rsum_ext _ (fun n => X D0 * I n (jcur l D0 n) + - X D0 * I n (jcur (move D0 l) D0 n) + (X D1 * I n (jcur l D1 n) + - X D1 * I n (jcur (move D1 l) D1 n)) + (X D2 * I n (jcur l D2 n) + - X D2 * I n (jcur (move D2 l) D2 n)))).
    2:{ intros n _. unfold I. rewrite !Y, !jcur_move. destruct (same_pointb _ _ _); ring. }
    assert (B1 : forall e, In e l -> In (snd (fst e)) (box blo bhi)).
    { intros e He. apply in_big. intros d. pose proof (stored_entry e (Hl e He) d). lia. }
    assert (B2 : forall d e, In e (move d l) -> In (snd (fst e)) (box blo bhi)).
    { intros d e He. apply in_map_iff in He. destruct He as (e' & <- & He'). cbn [fst snd]. apply in_big. intros d'. pose proof (stored_entry e' (Hl e' He') d').
      unfold shift. destruct (dim3_eqb d d') eqn:E; [apply dim3_eqb_eq in E; subst d'; rewrite get3_set3_same; lia|].
      rewrite get3_set3_other by (intros ->; rewrite dim3_eqb_refl in E; discriminate). lia. }
    rewrite !rsum_plus, !rsum_mul. unfold I. rewrite !box_jcur by (first [exact B1|apply B2]). unfold a. rewrite !tot_move by assumption. reflexivity.
  Qed.

  (** *** one particle *)
  Hypothesis Hlen : forall d, 0 < get3 (s_len S) d.
  Hypothesis Hdim : dep_dim (s_dim S).
  Hypothesis Hdt : 0 < s_dt S.
  Hypothesis Hstep : forall d, if get3 inv d then match s_sch S with sch_split | sch_zigzag => 2 * s_dt S <= get3 dx d | _ => True end else s_dt S < get3 dx d.

  Definition sh_S : R -> R := shape_of (rho_scheme S).
  Lemma sh_S_compact : compact sh_S.
  Proof. unfold sh_S, rho_scheme. destruct (s_sch S) as [| | | |[]|]; cbn [shape_of]; first [exact hat_compact|exact spline2_compact]. Qed.

  Lemma dx_get d : get3 dx d = get3 (s_len S) d / IZR (get3 gdims d).
  Proof. unfold spacing. rewrite get3_gen3. destruct (dm_parts c np gdims per pr size dm Hset) as (_ & -> & _). reflexivity. Qed.

  Lemma dx_pos d : 0 < get3 dx d.
  Proof. rewrite dx_get. apply Rdiv_lt_0_compat; [apply Hlen|apply IZR_lt; apply Hg]. Qed.

  Lemma wf_cgS : wf_cg (cgrid_of S).
  Proof. intros e. cbn [cgrid_of cg_dx]. pose proof (dx_pos e). lra. Qed.

  Lemma speed1 u e : -1 < get3 (calc_v u) e < 1.
  Proof.
    pose proof (C28_speed u) as [_ H]. unfold dot in H. destruct (calc_v u) as [a b d]. cbn [c0 c1 c2] in H. destruct e; cbn [get3 c0 c1 c2]; nra.
  Qed.

  Lemma push_x_get x v e : get3 (push_x inv (s_dt S) 1 x v) e = if get3 inv e then get3 x e else get3 x e + s_dt S * get3 v e.
  Proof.
    unfold push_x. destruct inv as [i0 i1 i2], x as [x0 x1 x2], v as [v0 v1 v2]. cbn [c0 c1 c2]. destruct i0, i1, i2; destruct e; cbn [get3 c0 c1 c2]; ring.
  Qed.

  Definition scaled (x : V3 R) : V3 R := gen3 (fun e => get3 x e / get3 dx e).

  Lemma step_shorter x u : shorter_step inv (scaled x) (scaled (push_x inv (s_dt S) 1 x (calc_v u))).
  Proof.
    intros e E. unfold scaled. rewrite !get3_gen3, push_x_get, E. pose proof (speed1 u e). pose proof (Hstep e) as D. rewrite E in D. pose proof (dx_pos e).
    replace ((get3 x e + s_dt S * get3 (calc_v u) e) / get3 dx e - get3 x e / get3 dx e) with (s_dt S * get3 (calc_v u) e * / get3 dx e) by (field; lra).
    assert (0 < / get3 dx e) by (apply Rinv_0_lt_compat; lra). assert (s_dt S * / get3 dx e < 1).
    { apply (Rmult_lt_reg_r (get3 dx e)); [lra|]. rewrite Rmult_assoc, Rinv_l by lra. lra. }
    set (v := get3 (calc_v u) e) in *. set (k := s_dt S * / get3 dx e) in *. replace (s_dt S * v * / get3 dx e) with (k * v) by (unfold k; ring).
    assert (0 < k) by (apply Rmult_lt_0_compat; lra). apply Rabs_def1; nra.
  Qed.

  Lemma shorter_short xm xp : shorter_step inv xm xp -> short_step inv xm xp.
  Proof. intros H e He. left. apply H. exact He. Qed.

  Lemma slow_invariant u : match s_sch S with sch_split | sch_zigzag => True | _ => False end ->
    forall e, get3 inv e = true -> Rabs (invar_step (cgrid_of S) (calc_v u) e) < / 2.
  Proof.
    intros Hs e E. pose proof (Hstep e) as D. rewrite E in D. assert (D' : 2 * s_dt S <= get3 dx e) by (destruct (s_sch S); try contradiction; exact D).
    unfold invar_step. cbn [cgrid_of cg_dt cg_dx]. pose proof (speed1 u e). pose proof (dx_pos e). set (v := get3 (calc_v u) e) in *.
    assert (0 < / get3 dx e) by (apply Rinv_0_lt_compat; lra).
    assert (s_dt S * / get3 dx e <= / 2). { apply (Rmult_le_reg_r (get3 dx e)); [lra|]. rewrite Rmult_assoc, Rinv_l by lra. lra. }
    set (k := s_dt S * / get3 dx e) in *. replace (v * s_dt S / get3 dx e) with (k * v) by (unfold k, Rdiv; ring).
    assert (0 < k) by (apply Rmult_lt_0_compat; lra). apply Rabs_def1; nra.
  Qed.

  Lemma arrival_scaled x v : forall e, get3 inv e = false -> get3 (arrival (cgrid_of S) v (scaled x)) e = get3 (scaled (push_x inv (s_dt S) 1 x v)) e.
  Proof.
    intros e He. pose proof (push_x_get x v e) as PX. rewrite He in PX. unfold arrival, scaled. rewrite !get3_gen3, PX. cbn [cgrid_of cg_dt cg_dx]. pose proof (dx_pos e). field. lra.
  Qed.

  Lemma calc_j_conserves q x u l : calc_j (s_sch S) (s_dim S) (cgrid_of S) q (scaled x) (scaled (push_x inv (s_dt S) 1 x (calc_v u))) (calc_v u) = Some l ->
    forall n, s_fnqs S * q * share sh_S inv (scaled (push_x inv (s_dt S) 1 x (calc_v u))) n - s_fnqs S * q * share sh_S inv (scaled x) n + s_dt S * div_minus inv dx (jcur l) n = 0.
  Proof.
    pose proof (step_shorter x u) as HS. pose proof (shorter_short _ _ HS) as HS'. set (xm := scaled x) in *. set (xp := scaled (push_x inv (s_dt S) 1 x (calc_v u))) in *.
    pose proof wf_cgS as WF. pose proof (slow_invariant u) as SL. unfold sh_S, rho_scheme.
    assert (Z0 : forall n, div_minus inv dx (fun _ _ => 0) n = 0).
    { intros n. unfold div_minus, dminus, Rdiv. repeat match goal with |- context [if ?b then _ else _] => destruct b end; ring. }
    assert (A : forall l, conserves (cgrid_of S) q inv xm xp l -> forall n, s_fnqs S * q * share hat inv xp n - s_fnqs S * q * share hat inv xm n + s_dt S * div_minus inv dx (jcur l) n = 0).
    { intros l' C n. specialize (C (fun _ _ => 0) n). unfold charge in C. cbn [cgrid_of cg_dx cg_dt cg_fnqs] in C. rewrite Z0 in C.
      rewrite (div_minus_ext inv dx _ (jcur l')) in C by (intros; rewrite cadd_all_get; ring).
      apply (Rmult_eq_reg_l (/ s_dt S)); [|apply Rinv_neq_0_compat; lra]. rewrite Rmult_0_r, <- C. unfold Rdiv. field. lra. }
    assert (A' : forall o l, conserves_es o (cgrid_of S) q inv xm xp l -> forall n, s_fnqs S * q * share (sh_of o) inv xp n - s_fnqs S * q * share (sh_of o) inv xm n + s_dt S * div_minus inv dx (jcur l) n = 0).
    { intros o l' C n. specialize (C (fun _ _ => 0) n). unfold charge_es in C. cbn [cgrid_of cg_dx cg_dt cg_fnqs] in C. rewrite Z0 in C.
      rewrite (div_minus_ext inv dx _ (jcur l')) in C by (intros; rewrite cadd_all_get; ring).
      apply (Rmult_eq_reg_l (/ s_dt S)); [|apply Rinv_neq_0_compat; lra]. rewrite Rmult_0_r, <- C. unfold Rdiv. field. lra. }
    assert (CL : cells_of inv xm xp (gen3 (fun e => fint (get3 xp e))) (gen3 (fun e => fint (get3 xm e)))) by (intros e _; rewrite !get3_gen3; auto).
    pose proof (arrival_scaled x (calc_v u)) as AR. fold xm xp in AR.
    assert (HA : short_step inv xm (arrival (cgrid_of S) (calc_v u) xm)) by (intros e He; rewrite (AR e He); exact (HS' e He)).
    assert (CA : forall l, conserves (cgrid_of S) q inv xm (arrival (cgrid_of S) (calc_v u) xm) l -> conserves (cgrid_of S) q inv xm xp l).
    { intros l' C J n. specialize (C J n). unfold charge in *. rewrite (share_ext hat inv xp (arrival (cgrid_of S) (calc_v u) xm) n); [exact C|]. intros e He. symmetry. exact (AR e He). }
    destruct (s_sch S) as [| | | |o|dep bs] eqn:ES; unfold calc_j; cbv zeta; destruct Hdim as [E|E]; rewrite E in *; intros H; try discriminate;
      try (injection H as <-; apply A).
    - apply (C24_split_partial (cgrid_of S) vb_xyz q xm xp _ WF HS' (SL I)).
    - apply (C24_split_partial (cgrid_of S) vb_yz q xm xp _ WF HS' (SL I)).
    - apply (C24_zigzag_partial (cgrid_of S) vb_xyz q xm xp _ WF HS' (SL I)).
    - apply (C24_zigzag_partial (cgrid_of S) vb_yz q xm xp _ WF HS' (SL I)).
    - apply (C24_var1 (cgrid_of S) q xm xp _ _ _ WF HS' CL).
    - apply (C24_2d (cgrid_of S) q xm xp _ _ WF HS' CL).
    - assert (C : supported o dim_xyz) by (destruct o; [discriminate H|exact I]). destruct (C25_conserves o dim_xyz (cgrid_of S) q xm xp (calc_v u) C WF HS) as (l' & E1 & E2). rewrite H in E1. injection E1 as <-.
      destruct o; cbn [shape_of]; exact (A' _ _ E2).
    - assert (C : supported o dim_yz) by (destruct o; exact I). destruct (C25_conserves o dim_yz (cgrid_of S) q xm xp (calc_v u) C WF HS) as (l' & E1 & E2). rewrite H in E1. injection E1 as <-.
      destruct o; cbn [shape_of]; exact (A' _ _ E2).
    - destruct (C61_xyz 4 (cgrid_of S) (gen3 (fun e => get3 (gen3 (fun e => fint (get3 xm e))) e / get3 bs e * get3 bs e)%Z) q xm (calc_v u) (le_n 4) WF HA) as (l' & E1 & E2 & _). rewrite H in E1. injection E1 as <-. apply A, CA, E2.
    - apply CA. apply C61_continuity_yz; assumption.
  Qed.

  (** *** one patch *)
  Definition pw (a : GhostSpec.place) (r p : Z) (xq : V3 R * R) : R :=
    s_fnqs S * snd xq * weight sh_S a (fun d => IZR (org r p d) + get3 (scaled (fst xq)) d).
  Definition xq_of (q : particle R) : V3 R * R := (p_x q, p_t q).
  Definition inside_patch (x : V3 R) : Prop := forall d, 0 <= get3 x d < IZR (get3 ld d) * get3 dx d.

  Lemma scaled_inside x : inside_patch x -> forall d, (0 <= fint (get3 (scaled x) d) < get3 ld d)%Z.
  Proof.
    intros H d. specialize (H d). unfold scaled. rewrite get3_gen3. pose proof (dx_pos d). assert (0 < / get3 dx d) by (apply Rinv_0_lt_compat; lra).
    split; [apply fint_bounds|apply fint_bounds_hi].
    - unfold Rdiv. nra.
    - apply (Rmult_lt_reg_r (get3 dx d)); [lra|]. unfold Rdiv. rewrite Rmult_assoc, Rinv_l by lra. lra.
  Qed.

  Lemma inside_folded a r p x k lo hi : val r p -> inside_patch x ->
    (forall d, (get3 lo d <= - get3 ibn d)%Z /\ (get3 ld d + get3 ibn d <= get3 hi d)%Z) ->
    rsum (map (fun n => if same_pointb dm a (r, p, n) then k * share sh_S inv (scaled x) n else 0) (box lo hi)) =
    k * weight sh_S a (fun d => IZR (org r p d) + get3 (scaled x) d).
  Proof.
    intros V H B. apply share_folded; [exact sh_S_compact|exact V|]. intros d. pose proof (scaled_inside x H d). specialize (B d). pose proof (Hinv d) as I. pose proof (Hibn d). destruct (get3 inv d).
    - destruct I as [I1 I2]. lia.
    - lia.
  Qed.

  Lemma pushed_folded a r p x u k : val r p -> inside_patch x ->
    rsum (map (fun n => if same_pointb dm a (r, p, n) then k * share sh_S inv (scaled (push_x inv (s_dt S) 1 x (calc_v u))) n else 0) (box blo bhi)) =
    k * weight sh_S a (fun d => IZR (org r p d) + get3 (scaled (push_x inv (s_dt S) 1 x (calc_v u))) d).
  Proof.
    intros V H. apply share_folded; [exact sh_S_compact|exact V|]. intros d. unfold blo, bhi. rewrite !get3_gen3. pose proof (scaled_inside x H d). pose proof (Hinv d) as I. pose proof (Hibn d). destruct (get3 inv d) eqn:E.
    - destruct I as [I1 I2]. lia.
    - pose proof (short_near _ _ _ (shorter_short _ _ (step_shorter x u)) d E) as N. unfold near in N. lia.
  Qed.

  Lemma div_minus_sum {A} (f : A -> dim3 -> V3 Z -> R) l n :
    div_minus inv dx (fun d x => rsum (map (fun a => f a d x) l)) n = rsum (map (fun a => div_minus inv dx (f a) n) l).
  Proof.
    induction l as [|a l IH].
    - cbn. unfold div_minus, dminus, Rdiv. repeat match goal with |- context [if ?b then _ else _] => destruct b end; ring.
    - cbn [map]. rewrite rsum_cons, <- IH, <- div_minus_plus. apply div_minus_ext. intros. rewrite rsum_cons. reflexivity.
  Qed.

  Lemma push_one_folded r0 p0 x0 r p u q q' l : val r0 p0 -> val r p -> inside_patch (p_x q) -> push_one S u q = Some (q', l) -> forallb (entry_stored S) l = true ->
    pw (r0, p0, x0) r p (xq_of q') - pw (r0, p0, x0) r p (xq_of q) + s_dt S * div_minus inv dx (fun d x => tot (r0, p0, x) r p d l) x0 = 0.
  Proof.
    intros V0 V H E Hl. unfold push_one in E. cbv zeta in E.
    destruct (calc_j _ _ _ _ _ _ _) as [l'|] eqn:EJ; [|discriminate]. cbn [option_map] in E. injection E as <- <-.
    rewrite <- div_folded by assumption. unfold pw, xq_of. cbn [fst snd p_x p_t].
    rewrite <- pushed_folded by assumption. rewrite <- (inside_folded (r0, p0, x0) r p (p_x q) _ blo bhi) by
      (try assumption; intros d; unfold blo, bhi; rewrite !get3_gen3; lia).
    rewrite <- rsum_mul.
    match goal with |- rsum ?a - rsum ?b + ?k = 0 => replace (rsum a - rsum b + k) with (rsum a + (-1) * rsum b + k) by ring end.
    rewrite <- rsum_mul, <- !rsum_plus. apply rsum_zero. intros n _.
    destruct (same_pointb dm (r0, p0, x0) (r, p, n)); [|ring]. pose proof (calc_j_conserves (p_t q) (p_x q) u l' EJ n). lra.
  Qed.

  Lemma tot_app a r p d l l' : tot a r p d (l ++ l') = tot a r p d l + tot a r p d l'.
  Proof. unfold tot. rewrite map_app, rsum_app. reflexivity. Qed.

  Lemma push_patch_stored us : forall b b' l, push_patch S us b = Some (b', l) -> forallb (entry_stored S) l = true.
  Proof.
    induction us as [|u us IH]; intros [|q b] b' l E; cbn [push_patch] in E; try discriminate; [injection E as <- <-; reflexivity|].
    destruct (push_one S u q) as [[q' l1]|]; [|discriminate]. destruct (push_patch S us b) as [[b1 l2]|] eqn:E2; [|discriminate].
    destruct (forallb (entry_stored S) l1) eqn:E3; [|discriminate]. injection E as <- <-. rewrite forallb_app, E3. cbn [andb]. exact (IH _ _ _ E2).
  Qed.

  Lemma push_patch_folded r0 p0 x0 r p us : val r0 p0 -> val r p -> forall b b' l, (forall q, In q b -> inside_patch (p_x q)) -> push_patch S us b = Some (b', l) ->
    rsum (map (fun q => pw (r0, p0, x0) r p (xq_of q)) b') - rsum (map (fun q => pw (r0, p0, x0) r p (xq_of q)) b) + s_dt S * div_minus inv dx (fun d x => tot (r0, p0, x) r p d l) x0 = 0.
  Proof.
    intros V0 V. induction us as [|u us IH]; intros [|q b] b' l H E; cbn [push_patch] in E; try discriminate.
    - injection E as <- <-. cbn. unfold tot. cbn. unfold div_minus, dminus, Rdiv. repeat match goal with |- context [if ?b then _ else _] => destruct b end; ring.
    - destruct (push_one S u q) as [[q' l1]|] eqn:E1; [|discriminate]. destruct (push_patch S us b) as [[b1 l2]|] eqn:E2; [|discriminate].
      destruct (forallb (entry_stored S) l1) eqn:E3; [|discriminate]. injection E as <- <-. cbn [map]. rewrite !rsum_cons.
      rewrite (div_minus_ext inv dx _ (fun d x => tot (r0, p0, x) r p d l1 + tot (r0, p0, x) r p d l2)) by (intros; apply tot_app). rewrite div_minus_plus.
      pose proof (push_one_folded r0 p0 x0 r p u q q' l1 V0 V (H q (or_introl eq_refl)) E1 E3).
      pose proof (IH b b1 l2 (fun q0 Hq => H q0 (or_intror Hq)) E2). lra.
  Qed.

  (** *** all patches *)
  Definition over_patches (f : Z -> Z -> R) : R := rsum (map (fun r => rsum (map (fun p => f r p) (zrange 0 (patches_of dm r)))) (zrange 0 size)).

  Lemma over_ext f g : (forall r p, val r p -> f r p = g r p) -> over_patches f = over_patches g.
  Proof. intros H. apply rsum_ext. intros r Hr. apply rsum_ext. intros p Hp. apply in_zrange in Hr, Hp. apply H. split; assumption. Qed.
  Lemma over_plus f g : over_patches (fun r p => f r p + g r p) = over_patches f + over_patches g.
  Proof. unfold over_patches. rewrite <- rsum_plus. apply rsum_ext. intros r _. apply rsum_plus. Qed.
  Lemma over_mul k f : over_patches (fun r p => k * f r p) = k * over_patches f.
  Proof. unfold over_patches. rewrite <- rsum_mul. apply rsum_ext. intros r _. apply rsum_mul. Qed.
  Lemma over_zero f : (forall r p, val r p -> f r p = 0) -> over_patches f = 0.
  Proof. intros H. apply rsum_zero. intros r Hr. apply rsum_zero. intros p Hp. apply in_zrange in Hr, Hp. apply H. split; assumption. Qed.
  Lemma over_div (f : Z -> Z -> dim3 -> V3 Z -> R) n : div_minus inv dx (fun d x => over_patches (fun r p => f r p d x)) n = over_patches (fun r p => div_minus inv dx (f r p) n).
  Proof. unfold over_patches. rewrite (div_minus_sum (fun r d x => rsum (map (fun p => f r p d x) (zrange 0 (patches_of dm r))))). apply rsum_ext. intros r _. apply div_minus_sum. Qed.

  Definition patch_prts (P : Z -> list (list (particle R))) (r p : Z) : list (particle R) := match aget (P r) p with Some b => b | None => [] end.
  (** the density of all particles at a point *)
  Definition rho_at (P : Z -> list (list (particle R))) (a : GhostSpec.place) : R :=
    over_patches (fun r p => rsum (map (fun q => pw a r p (xq_of q)) (patch_prts P r p))).
  (** all particles are inside of their patches *)
  Definition all_inside (P : Z -> list (list (particle R))) : Prop := per_patch dm size P /\ forall r p q, val r p -> In q (patch_prts P r p) -> inside_patch (p_x q).

  Lemma pushed_continuity us F P F1 P1 : all_inside P -> pushed S us F P F1 P1 -> exists ls,
    (forall r, (0 <= r < size)%Z -> F1 r = with_current (ls r) (F r)) /\ (forall r p, val r p -> forallb (entry_stored S) (ls r p) = true) /\ per_patch dm size P1 /\ (forall r p q', val r p -> In q' (patch_prts P1 r p) -> exists q u, In q (patch_prts P r p) /\ p_x q' = push_x inv (s_dt S) 1 (p_x q) (calc_v u)) /\ forall r0 p0 x0, val r0 p0 -> rho_at P1 (r0, p0, x0) - rho_at P (r0, p0, x0) + s_dt S * div_minus inv dx (fun d x => over_patches (fun r p => tot (r0, p0, x) r p d (ls r p))) x0 = 0.
  Proof.
    intros [HP HI] (ls & H). exists ls.
    assert (G : forall r p, val r p -> exists b b', aget (P r) p = Some b /\ aget (P1 r) p = Some b' /\ push_patch S (us r p) b = Some (b', ls r p)).
    { intros r p [Hr Hp]. destruct (H r Hr) as (_ & _ & H2). destruct (aget_some (P r) p) as [b Eb]; [rewrite (HP r Hr); exact Hp|]. destruct (H2 p b Eb) as (b' & E1 & E2). eauto. }
    split; [intros r Hr; apply (H r Hr)|].
    split; [intros r p V; destruct (G r p V) as (b & b' & _ & _ & E); exact (push_patch_stored _ _ _ _ E)|].
    split; [intros r Hr; destruct (H r Hr) as (_ & E & _); rewrite E; apply HP; exact Hr|]. split.
    - intros r p q' V. destruct (G r p V) as (b & b' & Eb & Eb' & E). unfold patch_prts. rewrite Eb, Eb'. clear - E. revert b b' E. generalize (ls r p). induction (us r p) as [|u us' IH]; intros l [|q b] b' E; cbn [push_patch] in E; try discriminate.
      + injection E as <- _. intros [].
      + destruct (push_one S u q) as [[q1 l1]|] eqn:E1; [|discriminate]. destruct (push_patch S us' b) as [[b1 l2]|] eqn:E2; [|discriminate].
        destruct (forallb (entry_stored S) l1); [|discriminate]. injection E as <- _. intros [<-|Hq].
        * exists q, u. split; [left; reflexivity|]. unfold push_one in E1. cbv zeta in E1. destruct (calc_j _ _ _ _ _ _ _); [|discriminate]. injection E1 as <- _. reflexivity.
        * destruct (IH _ _ _ E2 Hq) as (q2 & u2 & A & B). exists q2, u2. split; [right; exact A|exact B].
    - intros r0 p0 x0 V0. rewrite (over_div (fun r p d x => tot (r0, p0, x) r p d (ls r p))). unfold rho_at.
      match goal with |- ?a - ?b + _ = 0 => replace (a - b) with (a + (-1) * b) by ring end. rewrite <- !over_mul, <- !over_plus. apply over_zero. intros r p V.
      destruct (G r p V) as (b & b' & Eb & Eb' & E). pose proof (HI r p) as HIb. unfold patch_prts in *. rewrite Eb in *. rewrite Eb'.
      pose proof (push_patch_folded r0 p0 x0 r p (us r p) V0 V b b' (ls r p) (fun q => HIb q V) E). lra.
  Qed.

  (** *** exchange of particles *)
  Hypothesis Hlo : forall d, get3 (s_lo S) d = PRT_PERIODIC.
  Hypothesis Hhi : forall d, get3 (s_hi S) d = PRT_PERIODIC.
  Hypothesis Hb1 : forall d, (get3 gdims d / get3 np d <= 2 ^ 30)%Z.
  Hypothesis Hb2 : (c0 gdims / c0 np * (c1 gdims / c1 np) * (c2 gdims / c2 np) < 2 ^ 31)%Z.

  Definition weight_of (a : GhostSpec.place) (w : V3 R * V3 R * R) : R :=
    s_fnqs S * snd w * weight sh_S a (fun d => (get3 (fst (fst w)) d - get3 (s_corner S) d) / get3 dx d).

  Lemma aget_nth {A} (l : list A) p : (0 <= p)%Z -> aget l p = nth_error l (Z.to_nat p).
  Proof. intros H. unfold aget. replace (p <? 0)%Z with false by lia. reflexivity. Qed.

  Lemma org_info r p info d : get_local_patch_info dm r p = Some info -> org r p d = get3 (pi_off info) d.
  Proof. intros E. unfold org, global_idx. rewrite E. destruct d; cbn [get3 c0 c1 c2]; lia. Qed.

  Lemma weight_ext sh a y z : (forall d, get3 inv d = false -> comb (get3 gdims d) sh (global_idx dm a d) (y d) = comb (get3 gdims d) sh (global_idx dm a d) (z d)) -> weight sh a y = weight sh a z.
  Proof. intros H. unfold weight. destruct (get3 inv D0) eqn:E0, (get3 inv D1) eqn:E1, (get3 inv D2) eqn:E2; rewrite ?(H D0), ?(H D1), ?(H D2) by assumption; reflexivity. Qed.

  Lemma pw_world a r p q : val r p -> pw a r p (xq_of q) = weight_of a (world_of dm (s_len S) (s_corner S) per r p q).
  Proof.
    intros V. destruct (info_of c np gdims per pr size dm Hpos Hset Hcnt Hproc r p V) as (info & EI & _). unfold pw, weight_of, world_of, world, xq_of. rewrite EI. cbn [fst snd].
    destruct (dm_parts c np gdims per pr size dm Hset) as (_ & -> & _). f_equal. apply weight_ext. intros d _. rewrite get3_gen3. unfold wrapped. rewrite Hper. unfold scaled. rewrite get3_gen3.
    set (y := global gdims (s_len S) (s_corner S) info (p_x q) d). set (k := Zfloor (y / get3 (s_len S) d)).
    rewrite <- (comb_period (get3 gdims d) (Hg d) sh_S sh_S_compact _ (IZR (org r p d) + get3 (p_x q) d / get3 dx d) (- k)). f_equal.
    unfold y, global. rewrite (org_info r p info d EI), mult_IZR, opp_IZR, !dx_get. pose proof (Hlen d). assert (IZR (get3 gdims d) <> 0) by (apply not_0_IZR; pose proof (Hg d); lia). field. split; [assumption|lra].
  Qed.

  Lemma rho_everything P a : rho_at P a = rsum (map (weight_of a) (everything dm size (s_len S) (s_corner S) per (patches_of dm) P)).
  Proof.
    unfold rho_at, over_patches, everything. rewrite rsum_flat. apply rsum_ext. intros r Hr. rewrite rsum_flat. apply rsum_ext. intros p Hp. apply in_zrange in Hr, Hp.
    unfold patch_prts. rewrite aget_nth by lia. destruct (nth_error (P r) (Z.to_nat p)) as [b|]; [|reflexivity]. rewrite map_map. apply rsum_ext. intros q _. apply pw_world. split; assumption.
  Qed.

  Lemma concat_ext {A B} (f g : A -> option (list B)) l : (forall x, In x l -> f x = g x) -> concat_option (map f l) = concat_option (map g l).
  Proof. intros H. f_equal. apply map_ext_in. exact H. Qed.

  Lemma width_eq r p info d : val r p -> get_local_patch_info dm r p = Some info -> width gdims (s_len S) info d = IZR (get3 ld d) * get3 dx d.
  Proof.
    intros V EI. destruct (info_of c np gdims per pr size dm Hpos Hset Hcnt Hproc r p V) as (info' & EI' & EL & _). rewrite EI in EI'. injection EI' as <-.
    unfold width. rewrite EL, dx_get. reflexivity.
  Qed.

  Lemma dx_width d : get3 dx d <= IZR (get3 ld d) * get3 dx d.
  Proof.
    pose proof (dx_pos d). assert (1 <= IZR (get3 ld d)); [|nra]. apply IZR_le.
    pose proof (gdims_ld c np gdims per pr size dm Hpos Hset d). pose proof (Hg d). pose proof (Hpos d). nia.
  Qed.

  Lemma travels_pushed r p info x u : val r p -> get_local_patch_info dm r p = Some info -> inside_patch x ->
    travels gdims (s_len S) per (s_lo S) (s_hi S) info (push_x inv (s_dt S) 1 x (calc_v u)).
  Proof.
    intros V EI H d. rewrite (width_eq r p info d V EI). specialize (H d). pose proof (dx_width d) as W. pose proof (dx_pos d). pose proof (Hstep d) as HS. pose proof (speed1 u d).
    set (y := get3 (push_x inv (s_dt S) 1 x (calc_v u)) d). assert (B : - get3 dx d < y - get3 x d < get3 dx d).
    { unfold y. rewrite push_x_get. destruct (get3 inv d); [lra|]. split; nra. }
    split; [lra|]. unfold only_passes. destruct (Rlt_le_dec y 0) as [L|L]; [right; left; split; [exact L|right; auto]|].
    destruct (Rlt_le_dec y (IZR (get3 ld d) * get3 dx d)) as [L'|L']; [left; auto|]. right; right. split; [exact L'|right; auto].
  Qed.

  (** particles that are where the push can take them *)
  Definition all_travel (P : Z -> list (list (particle R))) : Prop :=
    forall r p q, val r p -> In q (patch_prts P r p) -> exists q0 u, inside_patch (p_x q0) /\ p_x q = push_x inv (s_dt S) 1 (p_x (T := R) q0) (calc_v u).

  Lemma exchanged_rho P P' : per_patch dm size P -> all_travel P -> exchanged S P P' -> all_inside P' /\ forall a, rho_at P' a = rho_at P a.
  Proof.
    intros HP HT (kept & sb & em & cm & pm & epool & cpool & dpool & H1 & H2 & H3 & H4 & Pe & Pc & Pd & H5).
    destruct (C17_positions R c np gdims per pr size dm (s_len S) (s_corner S) (s_lo S) (s_hi S) P Hpos Hset Hcnt Hproc Hlen Hg Hb1 Hb2 HP) as (kept' & sb' & em' & cm' & pm' & K1 & K2 & K3 & K4 & K5).
    { intros r p info b q Hr EI Eb Hq. assert (V : val r p). { split; [exact Hr|]. rewrite <- (HP r Hr). exact (aget_bounds _ _ _ Eb). }
      destruct (HT r p q V) as (q0 & u & Hi & Eq); [unfold patch_prts; rewrite Eb; exact Hq|]. rewrite Eq. exact (travels_pushed r p info (p_x q0) u V EI Hi). }
    assert (KS : forall r, (0 <= r < size)%Z -> kept r = kept' r /\ sb r = sb' r).
    { intros r Hr. pose proof (H1 r Hr) as A. rewrite (K1 r Hr) in A. injection A as <- <-. auto. }
    assert (em' = em) as -> by congruence.
    assert (cm' = cm) as ->.
    { enough (Some cm' = Some cm) by congruence. rewrite <- H3, <- K3. apply concat_ext. intros r Hr. apply in_zrange in Hr. rewrite (proj2 (KS r Hr)). reflexivity. }
    assert (pm' = pm) as ->.
    { enough (Some pm' = Some pm) by congruence. rewrite <- H4, <- K4. apply concat_ext. intros r Hr. apply in_zrange in Hr. rewrite (proj2 (KS r Hr)). reflexivity. }
    destruct (K5 epool cpool dpool Pe Pc Pd) as (res & R1 & R0 & R2 & R3).
    assert (RP : forall r, (0 <= r < size)%Z -> res r = P' r).
    { intros r Hr. pose proof (H5 r Hr) as A. destruct (KS r Hr) as [-> ->] in A. rewrite (R1 r Hr) in A. congruence. }
    assert (PP : per_patch dm size P').
    { intros r Hr. rewrite <- RP by exact Hr. apply R0. exact Hr. }
    split.
    - split; [exact PP|]. intros r p q V Hq d. destruct (info_of c np gdims per pr size dm Hpos Hset Hcnt Hproc r p V) as (info & EI & _).
      unfold patch_prts in Hq. destruct (aget (P' r) p) as [b|] eqn:Eb; [|destruct Hq]. rewrite <- RP in Eb by apply V.
      pose proof (R3 r p info b q (proj1 V) (proj2 V) EI Eb Hq d) as I. rewrite (width_eq r p info d V EI) in I. exact I.
    - intros a. rewrite !rho_everything. rewrite <- (rsum_perm _ _ (Permutation_map (weight_of a) R2)). f_equal. f_equal. unfold everything.
      rewrite !flat_map_concat_map. f_equal. apply map_ext_in. intros r Hr. apply in_zrange in Hr. rewrite RP by exact Hr. reflexivity.
  Qed.

  (** *** ghost points *)
  Local Notation stp := (stored_pt dm ibn).
  Local Notation int := (GhostProofs.interior dm).

  Lemma sp_sym_b a b : same_pointb dm a b = same_pointb dm b a.
  Proof.
    pose proof (same_point_sym c np gdims per pr size dm Hset) as SY. unfold same_point in SY.
    destruct (same_pointb dm a b) eqn:E1, (same_pointb dm b a) eqn:E2; try reflexivity; [apply SY in E1|apply SY in E2]; congruence.
  Qed.

  Lemma sp_congr a b e : same_point dm a b -> same_pointb dm a e = same_pointb dm b e.
  Proof.
    intros H. pose proof (same_point_sym c np gdims per pr size dm Hset) as SY. pose proof (same_point_trans c np gdims per pr size dm Hset) as TR. unfold same_point in *.
    destruct (same_pointb dm a e) eqn:E1, (same_pointb dm b e) eqn:E2; try reflexivity.
    - apply SY in H. rewrite (TR _ _ _ H E1) in E2. discriminate.
    - rewrite (TR _ _ _ H E2) in E1. discriminate.
  Qed.

  Lemma fitS : ghosts_fit np gdims ibn.
  Proof. intros d. pose proof (Hibn d) as H. rewrite (ld_eq c np gdims per pr size dm Hset), get3_gen3 in H. exact H. Qed.

  Lemma added_val n mb me F F' : added S n mb me F F' -> (0 <= mb /\ mb <= me /\ me <= n)%Z ->
    (forall r p x m, val r p -> int x = true -> (mb <= m < me)%Z ->
       F' r p m x = over_patches (fun r' p' => rsum (map (fun y => if same_pointb dm (r, p, x) (r', p', y) then F r' p' m y else 0) (all_points dm ibn r' p')))) /\
    (forall r p x m, val r p -> stp x = true -> ~ (mb <= m < me)%Z -> F' r p m x = F r p m x).
  Proof.
    intros (msgs & pool & E1 & HP & E2) Hm.
    destruct (C11_add c np gdims per pr size dm ibn n mb me F Hpos Hset Hcnt Hproc fitS Hm) as (msgs' & recvs & K1 & _ & _ & K2). rewrite E1 in K1. injection K1 as <-.
    destruct (K2 pool HP) as (F'' & A & B & C & _).
    assert (EF : forall r, (0 <= r < size)%Z -> F' r = F'' r). { intros r Hr. pose proof (E2 r Hr) as X. rewrite (A r Hr) in X. congruence. }
    split.
    - intros r p x m V I M. rewrite (EF r (proj1 V)). assert (HO : In (r, p, x) (own_places dm size)) by (apply (in_own c np gdims per pr size dm Hpos Hset Hcnt Hproc); auto).
      pose proof (B (r, p, x) m HO M) as X. cbn [at_place] in X. rewrite X. clear X. unfold over_patches.
      transitivity (rsum (map (fun b => if same_pointb dm (r, p, x) b then at_place F m b else 0) (all_places dm size ibn))).
      + rewrite (rsum_perm _ _ (Permutation_map _ (own_all c np gdims per pr size dm Hpos Hset Hcnt Hproc ibn Hibn))), map_app, rsum_app, rsum_filter. f_equal.
        rewrite (rsum_ext _ (fun b => if same_pointb dm (r, p, x) b then F r p m x else 0)).
        * symmetry. apply (rsum_one (same_pointb dm (r, p, x)) _ _ (r, p, x)); [apply NoDup_places; intros; apply NoDup_box|exact HO|exact (same_point_refl c np gdims per pr size dm Hset _)|].
          intros b Hb Hs. symmetry. exact (C10_owner_unique c np gdims per pr size dm _ _ Hpos Hset Hcnt Hproc HO Hb Hs).
        * intros b Hb. destruct (same_pointb dm (r, p, x) b) eqn:Hs; [|reflexivity]. rewrite <- (C10_owner_unique c np gdims per pr size dm _ _ Hpos Hset Hcnt Hproc HO Hb Hs). reflexivity.
      + unfold all_places. rewrite rsum_places. reflexivity.
    - intros r p x m V I M. rewrite (EF r (proj1 V)). apply (C (r, p, x) m); [apply (in_all c np gdims per pr size dm Hpos Hset Hcnt Hproc); auto|auto].
  Qed.

  Lemma filled_val q F F' : filled S q F F' ->
    (forall r p x d, val r p -> stp x = true -> exists r1 p1 x1, val r1 p1 /\ int x1 = true /\ same_point dm (r, p, x) (r1, p1, x1) /\ F' r p (comp q d) x = F r1 p1 (comp q d) x1) /\
    (forall r p x d, val r p -> int x = true -> F' r p (comp q d) x = F r p (comp q d) x) /\
    (forall r p x q' d, val r p -> stp x = true -> q' <> q -> F' r p (comp q' d) x = F r p (comp q' d) x).
  Proof.
    intros (msgs & pool & E1 & HP & E2).
    assert (Hm : (0 <= comp q D0 /\ comp q D0 <= comp q D0 + 3 /\ comp q D0 + 3 <= NR_FIELDS)%Z) by (unfold NR_FIELDS; destruct q; cbn; lia).
    destruct (C10_fill R c np gdims per pr size dm ibn NR_FIELDS (comp q D0) (comp q D0 + 3) F Hpos Hset Hcnt Hproc fitS Hm) as (msgs' & recvs & K1 & _ & _ & K2). rewrite E1 in K1. injection K1 as <-.
    destruct (K2 pool HP) as (F'' & A & B).
    assert (EF : forall r, (0 <= r < size)%Z -> F' r = F'' r). { intros r Hr. pose proof (E2 r Hr) as X. rewrite (A r Hr) in X. congruence. }
    assert (M : forall d, (comp q D0 <= comp q d < comp q D0 + 3)%Z) by (intros d; destruct q, d; cbn; lia).
    split; [|split].
    - intros r p x d V I. destruct (owner_exists c np gdims per pr size dm Hpos Hset Hcnt Hproc ibn Hibn F r p x V I Hper) as (r1 & p1 & x1 & V1 & I1 & S1).
      exists r1, p1, x1. split; [exact V1|]. split; [exact I1|]. split; [exact S1|]. rewrite (EF r (proj1 V)).
      assert (HA : In (r, p, x) (all_places dm size ibn)) by (apply (in_all c np gdims per pr size dm Hpos Hset Hcnt Hproc); auto).
      destruct (B (r, p, x) (comp q d) HA) as [X _]. destruct (X (M d)) as [Y _]. apply (Y (r1, p1, x1)); [apply (in_own c np gdims per pr size dm Hpos Hset Hcnt Hproc); auto|exact S1].
    - intros r p x d V I. rewrite (EF r (proj1 V)). pose proof (own_stored size dm ibn Hibn x I) as I'.
      assert (HA : In (r, p, x) (all_places dm size ibn)) by (apply (in_all c np gdims per pr size dm Hpos Hset Hcnt Hproc); auto).
      destruct (B (r, p, x) (comp q d) HA) as [X _]. destruct (X (M d)) as [Y _]. apply (Y (r, p, x)); [apply (in_own c np gdims per pr size dm Hpos Hset Hcnt Hproc); auto|exact (same_point_refl c np gdims per pr size dm Hset _)].
    - intros r p x q' d V I N. rewrite (EF r (proj1 V)). assert (HA : In (r, p, x) (all_places dm size ibn)) by (apply (in_all c np gdims per pr size dm Hpos Hset Hcnt Hproc); auto).
      destruct (B (r, p, x) (comp q' d) HA) as [_ Y]. apply Y. intros Z. apply N. destruct q, q', d; cbn in Z; try reflexivity; lia.
  Qed.

  (** values at places that denote the same point agree *)
  Definition cons (q : qty) (F : Z -> flds R) : Prop :=
    forall r p x r' p' x' d, val r p -> stp x = true -> val r' p' -> stp x' = true -> same_point dm (r, p, x) (r', p', x') -> F r p (comp q d) x = F r' p' (comp q d) x'.

  Lemma filled_cons q F F' : filled S q F F' -> cons q F' /\ (forall q', q' <> q -> cons q' F -> cons q' F').
  Proof.
    intros H. destruct (filled_val q F F' H) as (A & _ & C). split.
    - intros r p x r' p' x' d V I V' I' HS. destruct (A r p x d V I) as (r1 & p1 & x1 & V1 & I1 & S1 & ->). destruct (A r' p' x' d V' I') as (r2 & p2 & x2 & V2 & I2 & S2 & ->).
      destruct (place_unique c np gdims per pr size dm Hpos Hset Hcnt Hproc r1 p1 x1 r2 p2 x2 V1 V2 I1 I2) as (-> & -> & ->); [|reflexivity].
      pose proof (same_point_sym c np gdims per pr size dm Hset) as SY. pose proof (same_point_trans c np gdims per pr size dm Hset) as TR. eapply TR; [apply SY; exact S1|]. eapply TR; [exact HS|exact S2].
    - intros q' N HC r p x r' p' x' d V I V' I' HS. rewrite !C by assumption. apply HC; assumption.
  Qed.

  (** *** the current *)
  Lemma comp_inv q d : qty_of (comp q d) = q /\ dim_of (comp q d) = d.
  Proof. destruct q, d; vm_compute; auto. Qed.

  Lemma with_current_comp ls F p q d i : with_current ls F p (comp q d) i = match q with QJ => jcur (ls p) d i | _ => F p (comp q d) i end.
  Proof. unfold with_current. destruct (comp_inv q d) as [-> ->]. destruct q; try reflexivity. rewrite cadd_all_get. ring. Qed.

  Lemma all_points_box r p : val r p -> all_points dm ibn r p = box (gen3 (fun d => - get3 ibn d)%Z) (gen3 (fun d => get3 ld d + get3 ibn d)%Z).
  Proof. intros V. unfold all_points. rewrite (size_of_val c np gdims per pr size dm Hpos Hset Hcnt Hproc r p _ V). reflexivity. Qed.

  Lemma tot_congr a b r p d l : same_point dm a b -> tot a r p d l = tot b r p d l.
  Proof. intros H. unfold tot. apply rsum_ext. intros e _. rewrite (sp_congr a b _ H). reflexivity. Qed.

  Lemma current_val F F1 F2 F3 ls : (forall r, (0 <= r < size)%Z -> F1 r = with_current (ls r) (F r)) -> (forall r p, val r p -> forallb (entry_stored S) (ls r p) = true) ->
    added S NR_FIELDS 0 3 F1 F2 -> filled S QJ F2 F3 ->
    (forall r p x d, val r p -> stp x = true -> F3 r p (comp QJ d) x = over_patches (fun r' p' => tot (r, p, x) r' p' d (ls r' p'))) /\
    (forall r p x q d, val r p -> stp x = true -> q <> QJ -> F3 r p (comp q d) x = F r p (comp q d) x).
  Proof.
    intros E1 HL HA HF. destruct (added_val NR_FIELDS 0 3 F1 F2 HA) as [A1 A2]; [unfold NR_FIELDS; lia|]. destruct (filled_val QJ F2 F3 HF) as (B1 & B2 & B3). split.
    - intros r p x d V I. destruct (B1 r p x d V I) as (r1 & p1 & x1 & V1 & I1 & S1 & ->). rewrite (A1 r1 p1 x1 (comp QJ d) V1 I1) by (destruct d; cbn; lia).
      apply over_ext. intros r' p' V'. rewrite (tot_congr _ _ _ _ _ _ S1). rewrite (E1 r' (proj1 V')), (all_points_box r' p' V').
      rewrite <- (box_jcur (r1, p1, x1) r' p' d (ls r' p') (gen3 (fun d => - get3 ibn d)%Z) (gen3 (fun d => get3 ld d + get3 ibn d)%Z)).
      + apply rsum_ext. intros n _. rewrite with_current_comp. reflexivity.
      + intros e He. apply (in_spec_box 0%Z dm). apply in_boxb_iff. intros d'. rewrite !get3_gen3. apply stored_entry. pose proof (HL r' p' V') as H. rewrite forallb_forall in H. apply H. exact He.
    - intros r p x q d V I N. rewrite B3 by assumption. rewrite A2; [|exact V|exact I|destruct q, d; cbn; try lia; congruence]. rewrite (E1 r (proj1 V)), with_current_comp. destruct q; congruence.
  Qed.

  (** *** the fields *)
  Local Notation g := (fgrid_of S).

  Lemma wf_gridS : wf_grid g.
  Proof.
    intros d. cbn [fgrid_of ldims FieldModel.dx invar FieldModel.ibn]. pose proof (gdims_ld c np gdims per pr size dm Hpos Hset d) as E. pose proof (Hg d) as G. pose proof (Hpos d) as N. pose proof (dx_pos d). pose proof (Hinv d) as I.
    split; [nia|]. split; [lra|]. destruct (get3 inv d); [|exact I]. destruct I as [I1 I2]. split; [nia|exact I2].
  Qed.

  Lemma on_comp u F p q d i : on_patches u F p (comp q d) i = u (patch_flds F p) q d i.
  Proof. unfold on_patches. destruct (comp_inv q d) as [-> ->]. reflexivity. Qed.

  Lemma fnorm_stored x : stp x = true -> fnorm inv x = x.
  Proof.
    intros I. apply v3_ext. intros d. unfold fnorm. rewrite get3_gen3. pose proof (wf_gridS d) as (_ & _ & W). cbn [fgrid_of ldims FieldModel.dx invar FieldModel.ibn] in W.
    pose proof (proj1 (stored_iff dm ibn x) I d) as J. clear - W J. destruct (get3 inv d); [lia|reflexivity].
  Qed.

  Lemma shift_other x e k d : d <> e -> get3 (shift x e k) d = get3 x d.
  Proof. intros N. unfold shift. apply get3_set3_other. congruence. Qed.
  Lemma shift_same x e k : get3 (shift x e k) e = (get3 x e + k)%Z.
  Proof. unfold shift. apply get3_set3_same. Qed.

  Lemma sp_shift2 r p x r1 p1 x1 e : val r p -> val r1 p1 -> same_point dm (r, p, x) (r1, p1, x1) -> same_point dm (r, p, shift x e (-1)) (r1, p1, shift x1 e (-1)).
  Proof.
    intros V V1 H. unfold same_point in *. rewrite <- sp_shift by assumption. replace (shift (shift x1 e (-1)) e 1) with x1; [exact H|].
    apply v3_ext. intros d. destruct (dim3_eqb d e) eqn:E; [apply dim3_eqb_eq in E; subst d; rewrite !shift_same; lia|]. rewrite !shift_other by (intros ->; rewrite dim3_eqb_refl in E; discriminate). reflexivity.
  Qed.

  Lemma within_stored x l r : (0 <= l <= 2)%Z -> (0 <= r <= 2)%Z -> within g l r x -> stp x = true.
  Proof.
    intros Hl Hr H. apply stored_iff. intros d. specialize (H d). pose proof (wf_gridS d) as (_ & _ & W). cbn [fgrid_of ldims FieldModel.dx invar FieldModel.ibn] in *.
    clear - H W Hl Hr. destruct (get3 inv d); lia.
  Qed.

  Lemma interior_within x : int x = true -> within g 0 0 x.
  Proof.
    intros H d. apply (GhostProofs.interior_iff size dm) in H. specialize (H d). pose proof (wf_gridS d) as (_ & _ & W). cbn [fgrid_of ldims FieldModel.dx invar FieldModel.ibn] in *.
    clear - H W. destruct (get3 inv d); lia.
  Qed.

  Lemma within_more x l r l' r' : within g l r x -> (l <= l')%Z -> (r <= r')%Z -> within g l' r' x.
  Proof. intros H A B d. specialize (H d). clear - H A B. destruct (get3 (invar g) d); lia. Qed.

  Lemma within_shift x e l r : within g l r x -> get3 inv e = false -> within g (l + 1) r (shift x e (-1)).
  Proof.
    intros H E d. specialize (H d). cbn [fgrid_of invar] in *. destruct (dim3_eqb d e) eqn:X.
    - apply dim3_eqb_eq in X. subst d. rewrite E in *. rewrite shift_same. clear - H. lia.
    - rewrite shift_other by (intros ->; rewrite dim3_eqb_refl in X; discriminate). clear - H. destruct (get3 inv d); lia.
  Qed.

  (** the update at a ghost point is that at the point's owner *)
  Lemma push_E_same k F r p x r1 p1 x1 d : cons QJ F -> cons QE F -> cons QH F -> val r p -> val r1 p1 -> within g 1 2 x -> within g 1 2 x1 -> same_point dm (r, p, x) (r1, p1, x1) ->
    push_E g k (patch_flds (F r) p) QE d x = push_E g k (patch_flds (F r1) p1) QE d x1.
  Proof.
    intros CJ CE CH V V1 W W1 HS. rewrite !push_E_in by (first [exact wf_gridS|assumption]).
    assert (I : stp x = true) by (apply (within_stored x 1 2); [lia|lia|exact W]). assert (I1 : stp x1 = true) by (apply (within_stored x1 1 2); [lia|lia|exact W1]).
    assert (VW : forall q d y y1, cons q F -> stp y = true -> stp y1 = true -> same_point dm (r, p, y) (r1, p1, y1) -> vw g (patch_flds (F r) p) q d y = vw g (patch_flds (F r1) p1) q d y1).
    { intros q d' y y1 C J J1 Y. unfold vw. cbn [fgrid_of invar]. rewrite !fnorm_stored by assumption. unfold patch_flds. apply C; assumption. }
    assert (DM : forall d' e, dminus inv dx e (vw g (patch_flds (F r) p) QH d') x = dminus inv dx e (vw g (patch_flds (F r1) p1) QH d') x1).
    { intros d' e. unfold dminus. destruct (get3 inv e) eqn:E; [reflexivity|]. rewrite (VW QH d' x x1 CH I I1 HS).
      rewrite (VW QH d' (shift x e (-1)) (shift x1 e (-1)) CH); [reflexivity| | |apply sp_shift2; assumption].
      - apply (within_stored _ 2 2); [lia|lia|]. apply (within_shift x e 1 2 W E).
      - apply (within_stored _ 2 2); [lia|lia|]. apply (within_shift x1 e 1 2 W1 E). }
    unfold deltaE, curl_minus. cbn [fgrid_of invar FieldModel.dx]. rewrite !DM, (VW QJ d x x1 CJ I I1 HS). f_equal. unfold patch_flds. apply CE; assumption.
  Qed.

  Lemma filled_E F F' : cons QJ F -> cons QE F -> cons QH F -> filled S QE (fun r => on_patches (push_E g 1) (F r)) F' ->
    (forall q, cons q F') /\ (forall r p x q d, val r p -> stp x = true -> q <> QE -> F' r p (comp q d) x = F r p (comp q d) x) /\
    forall r p x, val r p -> int x = true ->
      div_minus inv dx (fun d i => F' r p (comp QE d) i) x = div_minus inv dx (fun d i => F r p (comp QE d) i) x - s_dt S * div_minus inv dx (fun d i => F r p (comp QJ d) i) x.
  Proof.
    intros CJ CE CH HF. pose proof (filled_cons QE _ _ HF) as [K1 K2]. pose proof (filled_val QE _ _ HF) as (A & _ & C).
    assert (OT : forall r p x q d, val r p -> stp x = true -> q <> QE -> F' r p (comp q d) x = F r p (comp q d) x).
    { intros r p x q d V I N. rewrite C by assumption. rewrite on_comp. rewrite push_E_other; [reflexivity|exact wf_gridS|left; exact N]. }
    split; [|split; [exact OT|]].
    - intros q. destruct q; [|exact K1|].
      + intros r p x r' p' x' d V I V' I' HS. rewrite !OT by (first [assumption|discriminate]). apply CJ; assumption.
      + intros r p x r' p' x' d V I V' I' HS. rewrite !OT by (first [assumption|discriminate]). apply CH; assumption.
    - intros r p x V I. pose proof (interior_within x I) as W0.
      assert (PE : forall d y, within g 1 2 y -> F' r p (comp QE d) y = push_E g 1 (patch_flds (F r) p) QE d y).
      { intros d y W. assert (J : stp y = true) by (apply (within_stored y 1 2); [lia|lia|exact W]). destruct (A r p y d V J) as (r1 & p1 & y1 & V1 & I1 & S1 & ->). rewrite on_comp. symmetry.
        apply push_E_same; try assumption. apply (within_more y1 0 0); [apply interior_within; exact I1|lia|lia]. }
      transitivity (div_minus inv dx (push_E g 1 (patch_flds (F r) p) QE) x).
      + assert (DE : forall d, dminus inv dx d (fun i => F' r p (comp QE d) i) x = dminus inv dx d (push_E g 1 (patch_flds (F r) p) QE d) x).
        { intros d. unfold dminus. destruct (get3 inv d) eqn:E; [reflexivity|]. rewrite !PE; [reflexivity| |apply (within_more x 0 0); [exact W0|lia|lia]].
          apply (within_more _ 1 0); [apply (within_shift x d 0 0 W0 E)|lia|lia]. }
        unfold div_minus. rewrite !DE. reflexivity.
      + pose proof (C30_one_push g 1 (patch_flds (F r) p) x wf_gridS (within_more x 0 0 0 2 W0 ltac:(lia) ltac:(lia))) as X. cbn [fgrid_of invar FieldModel.dx dt] in X. rewrite Rmult_1_l in X. exact X.
  Qed.

  Lemma filled_H k F F' : filled S QH (fun r => on_patches (push_H g k) (F r)) F' -> (forall q, q <> QH -> cons q F) ->
    (forall q, cons q F') /\ (forall r p x q d, val r p -> stp x = true -> q <> QH -> F' r p (comp q d) x = F r p (comp q d) x).
  Proof.
    intros HF HC. pose proof (filled_cons QH _ _ HF) as [K1 K2]. pose proof (filled_val QH _ _ HF) as (A & _ & C).
    assert (OT : forall r p x q d, val r p -> stp x = true -> q <> QH -> F' r p (comp q d) x = F r p (comp q d) x).
    { intros r p x q d V I N. rewrite C by assumption. rewrite on_comp. rewrite push_H_other; [reflexivity|exact wf_gridS|left; exact N]. }
    split; [|exact OT]. intros q. assert (q = QH \/ q <> QH) as [->|N] by (destruct q; [right|right|left]; congruence); [exact K1|].
    intros r p x r' p' x' d V I V' I' HS. rewrite !OT by assumption. apply (HC q N); assumption.
  Qed.

  Definition divE (F : Z -> flds R) (r p : Z) (x : V3 Z) : R := div_minus inv dx (fun d i => F r p (comp QE d) i) x.
  Definition divJ (F : Z -> flds R) (r p : Z) (x : V3 Z) : R := div_minus inv dx (fun d i => F r p (comp QJ d) i) x.

  Lemma div_eq F F' q r p x : val r p -> int x = true -> (forall d y, stp y = true -> F' r p (comp q d) y = F r p (comp q d) y) ->
    div_minus inv dx (fun d i => F' r p (comp q d) i) x = div_minus inv dx (fun d i => F r p (comp q d) i) x.
  Proof.
    intros V I H. pose proof (interior_within x I) as W0.
    assert (D : forall d, dminus inv dx d (fun i => F' r p (comp q d) i) x = dminus inv dx d (fun i => F r p (comp q d) i) x).
    { intros d. unfold dminus. destruct (get3 inv d) eqn:E; [reflexivity|]. rewrite !H; [reflexivity| |].
      - apply (within_stored _ 1 0); [lia|lia|]. apply (within_shift x d 0 0 W0 E).
      - apply (within_stored _ 0 0); [lia|lia|exact W0]. }
    unfold div_minus. rewrite !D. reflexivity.
  Qed.

  (** *** one step *)
  Definition good (F : Z -> flds R) (P : Z -> list (list (particle R))) : Prop := cons QE F /\ all_inside P.

  Lemma step_gauss us F P F' P' : good F P -> step S us F P F' P' ->
    good F' P' /\ forall r p x, val r p -> int x = true ->
      divE F' r p x - rho_at P' (r, p, x) = divE F r p x - rho_at P (r, p, x) /\
      rho_at P' (r, p, x) - rho_at P (r, p, x) + s_dt S * divJ F' r p x = 0.
  Proof.
    intros [CE HI] (F1 & P1 & F2 & F3 & F4 & F5 & H1 & H2 & H3 & H4 & H5 & H6 & H7).
    destruct (pushed_continuity us F P F1 P1 HI H1) as (ls & L1 & L2 & L3 & L4 & L5).
    destruct (exchanged_rho P1 P' L3) as [X1 X2]; [|exact H2|].
    { intros r p q V Hq. destruct (L4 r p q V Hq) as (q0 & u & A & B). exists q0, u. split; [exact (proj2 HI r p q0 V A)|exact B]. }
    destruct (current_val F F1 F2 F3 ls L1 L2 H3 H4) as [J1 J2].
    assert (CE3 : cons QE F3). { intros r p x r' p' x' d V I V' I' HS. rewrite !J2 by (first [assumption|discriminate]). apply CE; assumption. }
    pose proof (filled_cons QJ _ _ H4) as [CJ3 _].
    destruct (filled_H (1 / 2) F3 F4 H5) as [C4 O4]. { intros [| |] N; [exact CJ3|exact CE3|congruence]. }
    destruct (filled_E F4 F5 (C4 QJ) (C4 QE) (C4 QH) H6) as (C5 & O5 & D5).
    destruct (filled_H (1 / 2) F5 F' H7) as [C6 O6]. { intros q _. apply C5. }
    split; [split; [apply C6|exact X1]|]. intros r p x V I.
    assert (EJ : divJ F' r p x = div_minus inv dx (fun d y => over_patches (fun r' p' => tot (r, p, y) r' p' d (ls r' p'))) x).
    { unfold divJ. rewrite (div_eq F3 F' QJ r p x V I).
      - assert (D : forall d, dminus inv dx d (fun i => F3 r p (comp QJ d) i) x = dminus inv dx d (fun y => over_patches (fun r' p' => tot (r, p, y) r' p' d (ls r' p'))) x).
        { intros d. unfold dminus. destruct (get3 inv d) eqn:E; [reflexivity|]. pose proof (interior_within x I) as W0. rewrite !J1; [reflexivity|exact V| |exact V|].
          - apply (within_stored _ 1 0); [lia|lia|]. apply (within_shift x d 0 0 W0 E).
          - apply (within_stored _ 0 0); [lia|lia|exact W0]. }
        unfold div_minus. rewrite !D. reflexivity.
      - intros d y Hy. rewrite O6, O5, O4 by (first [assumption|discriminate]). reflexivity. }
    pose proof (L5 r p x V) as K. rewrite <- EJ in K. rewrite (X2 (r, p, x)). split; [|exact K].
    assert (E4 : divE F4 r p x = divE F r p x). { apply div_eq; [exact V|exact I|]. intros d y Hy. rewrite O4, J2 by (first [assumption|discriminate]). reflexivity. }
    assert (E6 : divE F' r p x = divE F5 r p x). { apply div_eq; [exact V|exact I|]. intros d y Hy. rewrite O6 by (first [assumption|discriminate]). reflexivity. }
    assert (J6 : divJ F' r p x = divJ F4 r p x). { apply div_eq; [exact V|exact I|]. intros d y Hy. rewrite O6, O5 by (first [assumption|discriminate]). reflexivity. }
    rewrite E6, <- E4. pose proof (D5 r p x V I) as D. fold (divE F5 r p x) in D. fold (divE F4 r p x) in D. fold (divJ F4 r p x) in D. rewrite D, <- J6. lra.
  Qed.

  Lemma shuffled_rho P P' : all_inside P -> shuffled S P P' -> all_inside P' /\ forall a, rho_at P' a = rho_at P a.
  Proof.
    intros [HP HI] H.
    assert (G : forall r p, val r p -> Permutation (map xq_of (patch_prts P r p)) (map xq_of (patch_prts P' r p))).
    { intros r p [Hr Hp]. destruct (H r Hr) as (_ & H2). destruct (aget_some (P r) p) as [b Eb]; [rewrite (HP r Hr); exact Hp|]. destruct (H2 p b Eb) as (b' & E1 & E2). unfold patch_prts. rewrite Eb, E1. exact E2. }
    split; [split|].
    - intros r Hr. destruct (H r Hr) as (-> & _). apply HP. exact Hr.
    - intros r p q V Hq. pose proof (in_map xq_of _ _ Hq) as X. apply (Permutation_in _ (Permutation_sym (G r p V))) in X. apply in_map_iff in X. destruct X as (q0 & E & Hq0).
      injection E as E _. rewrite <- E. exact (HI r p q0 V Hq0).
    - intros a. apply over_ext. intros r p V. rewrite <- !(map_map xq_of (pw a r p)). apply rsum_perm. apply Permutation_map. symmetry. exact (G r p V).
  Qed.

  Lemma run_gauss_law F P F' P' : good F P -> run S F P F' P' ->
    good F' P' /\ forall r p x, val r p -> int x = true -> divE F' r p x - rho_at P' (r, p, x) = divE F r p x - rho_at P (r, p, x).
  Proof.
    intros G H. induction H as [F P|us F P F1 P1 F2 P2 _ IH HS|F P F1 P1 P2 _ IH HS].
    - split; [exact G|]. reflexivity.
    - destruct (IH G) as [G1 E1]. destruct (step_gauss us F1 P1 F2 P2 G1 HS) as [G2 E2]. split; [exact G2|]. intros r p x V I. rewrite (proj1 (E2 r p x V I)). apply E1; assumption.
    - destruct (IH G) as [[G1 G1'] E1]. destruct (shuffled_rho P1 P2 G1' HS) as [G2 E2]. split; [split; assumption|]. intros r p x V I. rewrite E2. apply E1; assumption.
  Qed.

  (** *** the density computed by the code *)
  Lemma dep_particles_share s f0 : forall prts f, wf_ib (s_dim S) (gen3 (fun d => - get3 ibn d)%Z) ->
    dep_particles s (s_dim S) dx (s_fnqs S) (gen3 (fun d => - get3 ibn d)%Z) prts f0 = Some f ->
    forall m, f m = f0 m + rsum (map (fun xq => s_fnqs S * snd xq * share (shape_of s) inv (DepositProofs.place s dx (fst xq)) (node (gen3 (fun d => - get3 ibn d)%Z) m)) prts).
  Proof.
    intros prts. revert f0. induction prts as [|[x q] prts IH]; intros f0 f W E m; cbn [dep_particles] in E.
    - injection E as <-. cbn. ring.
    - destruct (code_dep _ _ _ _ _ _ _ _) as [f1|] eqn:E1; [|discriminate]. rewrite (IH f1 f W E m), (code_dep_share _ _ _ _ _ _ _ _ _ m W E1). cbn [map]. rewrite rsum_cons. cbn [fst snd]. ring.
  Qed.

  Lemma density_val P rho : all_inside P -> density S P rho -> forall r p x, val r p -> int x = true -> rho r p x = rho_at P (r, p, x).
  Proof.
    intros [HP HI] (D & D' & H1 & H2 & H3) r p x V I. rewrite H3. destruct (added_val 1 0 1 D D' H2) as [A _]; [lia|]. rewrite (A r p x 0%Z V I) by lia.
    apply over_ext. intros r' p' V'. destruct (aget_some (P r') p') as [b Eb]; [rewrite (HP r' (proj1 V')); exact (proj2 V')|].
    destruct (H1 r' p' b (proj1 V') Eb) as (f & E1 & E2). unfold patch_prts. rewrite Eb.
    assert (W : wf_ib (s_dim S) (gen3 (fun d => - get3 ibn d)%Z)). { intros e E. rewrite get3_gen3. pose proof (Hinv e) as Y. rewrite E in Y. destruct Y as [_ Y]. lia. }
    rewrite (all_points_box r' p' V').
    rewrite (rsum_ext _ (fun y => rsum (map (fun q => if same_pointb dm (r, p, x) (r', p', y) then s_fnqs S * p_t q * share sh_S inv (scaled (p_x q)) y else 0) b))).
    - rewrite rsum_swap. apply rsum_ext. intros q Hq. unfold pw, xq_of. cbn [fst snd]. apply inside_folded; [exact V'| |intros d; rewrite !get3_gen3; lia].
      apply (HI r' p' q V'). unfold patch_prts. rewrite Eb. exact Hq.
    - intros y _. rewrite E2, (dep_particles_share _ _ _ _ W E1). destruct (same_pointb dm (r, p, x) (r', p', y)); [|rewrite rsum_zero; [reflexivity|intros; reflexivity]].
      rewrite map_map, Rplus_0_l. apply rsum_ext. intros q _. cbn [fst snd]. unfold sh_S. f_equal. f_equal.
      + apply v3_ext. intros d. unfold DepositProofs.place, scaled. rewrite !get3_gen3. replace (offset_of (rho_scheme S)) with 0 by (unfold rho_scheme; destruct (s_sch S) as [| | | |[]|]; reflexivity). ring.
      + apply v3_ext. intros d. unfold node. rewrite !get3_gen3. lia.
  Qed.

  (** *** a step can be made *)
  Hypothesis Hcode : match s_sch S with sch_split | sch_zigzag => True | sch_var1 | sch_2d | sch_esirk o1st => s_dim S = dim_yz | sch_esirk o2nd => True
    | sch_cuda _ _ => True end.
  Hypothesis Hroom : match s_sch S with sch_esirk o2nd => forall d, get3 inv d = false -> (3 <= get3 ibn d)%Z \/ 2 * s_dt S <= get3 dx d | _ => True end.

  Lemma reaches_stored l : Forall (reaches inv ld) l -> forallb (entry_stored S) l = true.
  Proof.
    intros H. rewrite forallb_forall. intros [[d i] v] He. rewrite Forall_forall in H. specialize (H _ He). unfold entry_stored. rewrite forallb_forall. intros e _.
    specialize (H e). cbn [fst snd] in H. pose proof (wf_gridS e) as (W1 & _ & W). cbn [fgrid_of ldims FieldModel.dx invar FieldModel.ibn] in *. clear - H W W1.
    apply andb_true_intro. split; [apply Z.leb_le|apply Z.ltb_lt]; destruct (get3 inv e); lia.
  Qed.

  Lemma in_ghosts_stored (k : Z) l : (forall d, get3 inv d = false -> (k <= get3 ibn d)%Z) -> Forall (in_ghosts inv k ld) l -> forallb (entry_stored S) l = true.
  Proof.
    intros Hk H. rewrite forallb_forall. intros [[d i] v] He. rewrite Forall_forall in H. specialize (H _ He). unfold entry_stored. rewrite forallb_forall. intros e _.
    specialize (H e). cbn [fst snd] in H. specialize (Hk e). pose proof (wf_gridS e) as (W1 & _ & W). cbn [fgrid_of ldims FieldModel.dx invar FieldModel.ibn] in *. clear - H W W1 Hk.
    apply andb_true_intro. split; [apply Z.leb_le|apply Z.ltb_lt]; destruct (get3 inv e); try lia; specialize (Hk eq_refl); lia.
  Qed.

  Lemma forallb_and {A} (f h : A -> bool) l : forallb f l = true -> (forall x, In x l -> f x = true -> h x = true) -> forallb h l = true.
  Proof. intros H K. rewrite forallb_forall in *. intros x Hx. apply K; [exact Hx|apply H; exact Hx]. Qed.

  (** second order: each direction has room for itself *)
  Lemma esirk_2nd_stored xm xp v q l : starts_inside inv ld xm -> shorter_step inv xm xp ->
    (forall e, get3 inv e = false -> (3 <= get3 ibn e)%Z \/ Rabs (get3 xp e - get3 xm e) <= / 2) ->
    calc_esirk o2nd (s_dim S) (cgrid_of S) q xm xp v = Some l -> forallb (entry_stored S) l = true.
  Proof.
    intros Hin Hs Hr E. pose proof (shorter_closes o2nd _ _ _ Hs) as C. destruct (calc_esirk_run o2nd (s_dim S) (cgrid_of S) q xm xp v l wf_cgS C E) as [_ T].
    rewrite forallb_forall. intros [[d i] w] He. rewrite Forall_forall in T. specialize (T _ He). unfold entry_stored. rewrite forallb_forall. intros k _. specialize (T k). cbv zeta in T. cbn [fst snd] in T.
    pose proof (wf_gridS k) as (W1 & _ & W). cbn [fgrid_of ldims FieldModel.dx invar FieldModel.ibn] in *. destruct (get3 inv k) eqn:Ek.
    { clear - T W W1. apply andb_true_intro. split; [apply Z.leb_le|apply Z.ltb_lt]; lia. }
    pose proof (C k Ek) as N. unfold close in N. cbn [coeff_l s_off] in *. pose proof (Hin k Ek) as I.
    assert (N0 : (0 <= nint (get3 xm k) <= get3 ld k)%Z) by (split; [apply nint_bounds; apply I|apply nint_bounds_hi; left; apply I]).
    assert (N1 : (nint (get3 xp k) <= get3 ld k + 1)%Z) by (clear - N N0; lia).
    assert (N2 : (3 <= get3 ibn k)%Z \/ (nint (get3 xp k) <= get3 ld k)%Z).
    { destruct (Hr k Ek) as [L|L]; [left; exact L|right]. apply Rabs_def2b in L.
      assert (U : get3 xp k < IZR (get3 ld k) + / 2) by lra. pose proof (Rabs_def2b _ _ (nint_spec (get3 xp k))) as [B1 B2].
      destruct (Z_le_gt_dec (nint (get3 xp k)) (get3 ld k)) as [L'|L']; [exact L'|].
      assert (IZR (get3 ld k + 1) <= IZR (nint (get3 xp k))) by (apply IZR_le; lia). rewrite plus_IZR in *. lra. }
    clear - T W W1 N N0 N1 N2. apply andb_true_intro. split; [apply Z.leb_le|apply Z.ltb_lt]; lia.
  Qed.

  Lemma touches_stored xm xp v l : starts_inside inv ld xm -> short_step inv xm xp ->
    (forall e, get3 inv e = false -> get3 (arrival (cgrid_of S) v xm) e = get3 xp e) ->
    Forall (touches inv xm (cu_xp (cgrid_of S) xm v)) l -> forallb (entry_stored S) l = true.
  Proof.
    intros Hin Hs Ha H. rewrite <- cu_xp_arrival in H. rewrite forallb_forall. intros [[d i] w] He. rewrite Forall_forall in H. specialize (H _ He). unfold entry_stored. rewrite forallb_forall. intros k _. specialize (H k). cbv zeta in H. cbn [fst snd] in H.
    pose proof (wf_gridS k) as (W1 & _ & W). cbn [fgrid_of ldims FieldModel.dx invar FieldModel.ibn] in *. destruct (get3 inv k) eqn:Ek.
    { clear - H W W1. apply andb_true_intro. split; [apply Z.leb_le|apply Z.ltb_lt]; lia. }
    pose proof (Hin k Ek) as I. pose proof (short_near _ _ _ Hs k Ek) as N. unfold near in N. rewrite (Ha k Ek) in H.
    assert (I1 : (0 <= fint (get3 xm k))%Z) by (apply fint_bounds; apply I). assert (I2 : (fint (get3 xm k) < get3 ld k)%Z) by (apply fint_bounds_hi; apply I).
    clear - H W W1 N I1 I2. generalize dependent (fint (get3 xm k)). generalize dependent (fint (get3 xp k)). intros a N b. intros.
    apply andb_true_intro. split; [apply Z.leb_le|apply Z.ltb_lt]; lia.
  Qed.

  Lemma starts_scaled x : inside_patch x -> starts_inside inv ld (scaled x).
  Proof.
    intros H d _. specialize (H d). unfold scaled. rewrite get3_gen3. pose proof (dx_pos d). assert (0 < / get3 dx d) by (apply Rinv_0_lt_compat; lra).
    unfold Rdiv. split; [apply Rmult_le_pos; lra|]. apply (Rmult_lt_reg_r (get3 dx d)); [lra|]. rewrite Rmult_assoc, Rinv_l by lra. lra.
  Qed.

  Lemma push_one_ok u q : inside_patch (p_x q) -> exists q' l, push_one S u q = Some (q', l) /\ p_u q' = u /\ forallb (entry_stored S) l = true.
  Proof.
    intros H. unfold push_one. cbv zeta. change (gen3 (fun e => get3 (p_x q) e / get3 dx e)) with (scaled (p_x q)).
    set (x' := push_x inv (s_dt S) 1 (p_x q) (calc_v u)). change (gen3 (fun e => get3 x' e / get3 dx e)) with (scaled x').
    enough (exists l, calc_j (s_sch S) (s_dim S) (cgrid_of S) (p_t q) (scaled (p_x q)) (scaled x') (calc_v u) = Some l /\ forallb (entry_stored S) l = true) as (l & -> & Hl).
    { cbn [option_map]. exists (mkP x' u (p_t q)), l. auto. }
    pose proof (step_shorter (p_x q) u) as HS. fold x' in HS. pose proof (shorter_short _ _ HS) as HS'. pose proof (starts_scaled (p_x q) H) as HI. pose proof wf_cgS as WF. pose proof (slow_invariant u) as SL.
    assert (HH : forall e, get3 inv e = false -> match s_sch S with sch_esirk o2nd => (3 <= get3 ibn e)%Z \/ Rabs (get3 (scaled x') e - get3 (scaled (p_x q)) e) <= / 2 | _ => True end).
    { intros e E. pose proof (push_x_get (p_x q) (calc_v u) e) as PX. pose proof (speed1 u e). pose proof (dx_pos e). pose proof Hroom as HR.
      destruct (s_sch S) as [| | | |[]|]; try exact I. destruct (HR e E) as [L|L]; [left; exact L|right].
      unfold scaled, x'. rewrite !get3_gen3, PX, E.
      replace ((get3 (p_x q) e + s_dt S * get3 (calc_v u) e) / get3 dx e - get3 (p_x q) e / get3 dx e) with (s_dt S * / get3 dx e * get3 (calc_v u) e) by (field; lra).
      assert (0 < / get3 dx e) by (apply Rinv_0_lt_compat; lra). assert (s_dt S * / get3 dx e <= / 2). { apply (Rmult_le_reg_r (get3 dx e)); [lra|]. rewrite Rmult_assoc, Rinv_l by lra. lra. }
      set (k := s_dt S * / get3 dx e) in *. assert (0 < k) by (apply Rmult_lt_0_compat; lra). set (v := get3 (calc_v u) e) in *. apply Rabs_le. split; nra. }
    pose proof (arrival_scaled (p_x q) (calc_v u)) as AR. fold x' in AR.
    set (xm := scaled (p_x q)) in *. set (xp := scaled x') in *. clearbody xm xp x'.
    assert (HA : short_step inv xm (arrival (cgrid_of S) (calc_v u) xm)) by (intros e He; rewrite (AR e He); exact (HS' e He)).
    pose proof (fun l => touches_stored xm xp (calc_v u) l) as TS.
    assert (CL : cells_of inv xm xp (gen3 (fun e => fint (get3 xp e))) (gen3 (fun e => fint (get3 xm e)))) by (intros e _; rewrite !get3_gen3; auto).
    pose proof reaches_stored as RS. pose proof (in_ghosts_stored 2) as GS. pose proof (esirk_2nd_stored xm xp (calc_v u) (p_t q)) as ES2.
    assert (I2 : forall d, get3 inv d = false -> (2 <= get3 ibn d)%Z). { intros d E. pose proof (Hinv d) as X. rewrite E in X. exact X. }
    pose proof (C24_in_bounds (cgrid_of S) (p_t q) ld xm xp (calc_v u) (gen3 (fun e => fint (get3 xp e))) (gen3 (fun e => fint (get3 xm e))) WF) as [B1 B2].
    pose proof (proj2 (proj2 (C52_first_order (cgrid_of S) (p_t q) ld xm xp (calc_v u) WF)) (s_dim S)) as B3.
    destruct (s_sch S) as [| | | |[]|dep bs] eqn:ES; unfold calc_j; cbv zeta; destruct Hdim as [E|E]; rewrite E in *; try discriminate Hcode.
    1: eexists; split; [reflexivity|apply RS; apply (B1 vb_xyz (conj HI HS') (SL I))].
    1: eexists; split; [reflexivity|apply RS; apply (B1 vb_yz (conj HI HS') (SL I))].
    1: eexists; split; [reflexivity|apply RS; apply (B1 vb_xyz (conj HI HS') (SL I))].
    1: eexists; split; [reflexivity|apply RS; apply (B1 vb_yz (conj HI HS') (SL I))].
    1: eexists; split; [reflexivity|apply RS; apply (B2 (conj HI HS') CL)].
    1: eexists; split; [reflexivity|apply RS; apply (B2 (conj HI HS') CL)].
    - destruct (calc_esirk_total o1st dim_yz (cgrid_of S) (p_t q) xm xp (calc_v u) I (shorter_closes _ _ _ _ HS)) as [l El]. exists l. split; [exact El|]. apply (GS l I2). exact (B3 l HI HS El).
    - destruct (calc_esirk_total o2nd dim_xyz (cgrid_of S) (p_t q) xm xp (calc_v u) I (shorter_closes _ _ _ _ HS)) as [l El]. exists l. split; [exact El|]. exact (ES2 l HI HS HH El).
    - destruct (calc_esirk_total o2nd dim_yz (cgrid_of S) (p_t q) xm xp (calc_v u) I (shorter_closes _ _ _ _ HS)) as [l El]. exists l. split; [exact El|]. exact (ES2 l HI HS HH El).
    - destruct (C61_xyz 4 (cgrid_of S) (gen3 (fun e => get3 (gen3 (fun e => fint (get3 xm e))) e / get3 bs e * get3 bs e)%Z) (p_t q) xm (calc_v u) (le_n 4) WF HA) as (l & El & _).
      exists l. split; [exact El|]. apply (TS l HI HS' AR). destruct (cu_calc_j_xyz_ok (cgrid_of S) (gen3 (fun e => get3 (gen3 (fun e => fint (get3 xm e))) e / get3 bs e * get3 bs e)%Z) (p_t q) xm (calc_v u) 0 WF) as (l' & El' & _ & _ & T).
      + intros e. rewrite <- cu_xp_arrival. apply HA. destruct e; reflexivity.
      + change (4 + 0)%nat with 4%nat in El'. rewrite El in El'. injection El' as <-. exact T.
    - eexists. split; [reflexivity|]. apply (TS _ HI HS' AR). apply cu_yz_touches.
  Qed.

  Lemma push_patch_ok : forall us b, length us = length b -> (forall q, In q b -> inside_patch (p_x q)) -> exists b' l, push_patch S us b = Some (b', l).
  Proof.
    induction us as [|u us IH]; intros [|q b] HL HI; cbn [length] in HL; try discriminate; cbn [push_patch]; [eauto|].
    destruct (push_one_ok u q (HI q (or_introl eq_refl))) as (q' & l & -> & _ & ->). destruct (IH b) as (b' & l' & ->); [clear - HL; lia|intros q0 H0; apply HI; right; exact H0|]. eauto.
  Qed.

  Definition momenta_for (us : Z -> Z -> list (V3 R)) (P : Z -> list (list (particle R))) : Prop :=
    forall r p b, aget (P r) p = Some b -> length (us r p) = length b.

  Lemma pushed_exists us F P : all_inside P -> momenta_for us P -> exists F1 P1, pushed S us F P F1 P1.
  Proof.
    intros [HP HI] HU. set (res r p b := match push_patch S (us r p) b with Some x => x | None => ([], []) end).
    set (ls r p := match aget (P r) p with Some b => snd (res r p b) | None => [] end).
    set (P1 r := map (fun p => match aget (P r) p with Some b => fst (res r p b) | None => [] end) (zrange 0 (alen (P r)))).
    assert (PA : forall r p b, aget (P r) p = Some b -> aget (P1 r) p = Some (fst (res r p b))).
    { intros r p b Eb. pose proof (aget_bounds _ _ _ Eb) as B. unfold P1. rewrite aget_map, aget_zrange. replace ((0 <=? p)%Z && (p <? alen (P r) - 0)%Z) with true by (clear - B; lia). rewrite Z.add_0_l. cbn [option_map]. rewrite Eb. reflexivity. }
    exists (fun r => with_current (ls r) (F r)), P1, ls. intros r Hr. split; [reflexivity|]. split.
    - unfold P1. unfold alen. rewrite map_length, zrange_length. unfold alen. clear. lia.
    - intros p b Eb. exists (fst (res r p b)). split; [apply PA; exact Eb|].
      assert (V : val r p). { split; [exact Hr|]. rewrite <- (HP r Hr). exact (aget_bounds _ _ _ Eb). }
      destruct (push_patch_ok (us r p) b (HU r p b Eb)) as (b' & l & E). { intros q Hq. apply (HI r p q V). unfold patch_prts. rewrite Eb. exact Hq. }
      unfold ls. rewrite Eb. unfold res. rewrite E. reflexivity.
  Qed.

  Lemma exchanged_exists P : per_patch dm size P -> all_travel P -> exists P', exchanged S P P'.
  Proof.
    intros HP HT.
    destruct (C17_positions R c np gdims per pr size dm (s_len S) (s_corner S) (s_lo S) (s_hi S) P Hpos Hset Hcnt Hproc Hlen Hg Hb1 Hb2 HP) as (kept' & sb' & em' & cm' & pm' & K1 & K2 & K3 & K4 & K5).
    { intros r p info b q Hr EI Eb Hq. assert (V : val r p). { split; [exact Hr|]. rewrite <- (HP r Hr). exact (aget_bounds _ _ _ Eb). }
      destruct (HT r p q V) as (q0 & u & Hi & Eq); [unfold patch_prts; rewrite Eb; exact Hq|]. rewrite Eq. exact (travels_pushed r p info (p_x q0) u V EI Hi). }
    destruct (K5 em' cm' pm' (Permutation_refl _) (Permutation_refl _) (Permutation_refl _)) as (res & R1 & _).
    exists res, kept', sb', em', cm', pm', em', cm', pm'. repeat (split; [first [assumption|apply Permutation_refl]|]). exact R1.
  Qed.

  Lemma filled_exists q F : exists F', filled S q F F'.
  Proof.
    destruct (C10_fill R c np gdims per pr size dm ibn NR_FIELDS (comp q D0) (comp q D0 + 3) F Hpos Hset Hcnt Hproc fitS) as (msgs & recvs & E1 & _ & _ & H); [clear; unfold NR_FIELDS, comp; destruct q; lia|].
    destruct (H msgs (Permutation_refl _)) as (F' & H1 & _). exists F', msgs, msgs. auto.
  Qed.

  Lemma added_exists n mb me F : (0 <= mb /\ mb <= me /\ me <= n)%Z -> exists F', added S n mb me F F'.
  Proof.
    intros Hm. destruct (C11_add c np gdims per pr size dm ibn n mb me F Hpos Hset Hcnt Hproc fitS Hm) as (msgs & recvs & E1 & _ & _ & H).
    destruct (H msgs (Permutation_refl _)) as (F' & H1 & _). exists F', msgs, msgs. auto.
  Qed.

  Lemma rest_exists us F P F1 P1 : all_inside P -> pushed S us F P F1 P1 -> exists F' P' F2 F3 F4 F5, exchanged S P1 P' /\ added S NR_FIELDS 0 3 F1 F2 /\ filled S QJ F2 F3 /\
    filled S QH (fun r => on_patches (push_H g (1 / 2)) (F3 r)) F4 /\ filled S QE (fun r => on_patches (push_E g 1) (F4 r)) F5 /\ filled S QH (fun r => on_patches (push_H g (1 / 2)) (F5 r)) F'.
  Proof.
    intros HI H1. destruct (pushed_continuity us F P F1 P1 HI H1) as (ls & L1 & L2 & L3 & L4 & L5).
    destruct (exchanged_exists P1 L3) as [P' H2].
    { intros r p q V Hq. destruct (L4 r p q V Hq) as (q0 & u & A & B). exists q0, u. split; [exact (proj2 HI r p q0 V A)|exact B]. }
    destruct (added_exists NR_FIELDS 0 3 F1) as [F2 H3]; [clear; unfold NR_FIELDS; lia|]. destruct (filled_exists QJ F2) as [F3 H4].
    destruct (filled_exists QH (fun r => on_patches (push_H g (1 / 2)) (F3 r))) as [F4 H5].
    destruct (filled_exists QE (fun r => on_patches (push_E g 1) (F4 r))) as [F5 H6].
    destruct (filled_exists QH (fun r => on_patches (push_H g (1 / 2)) (F5 r))) as [F' H7].
    exists F', P', F2, F3, F4, F5. auto 8.
  Qed.

  Lemma step_exists us F P : good F P -> momenta_for us P -> exists F' P', step S us F P F' P'.
  Proof.
    intros [_ HI] HU. destruct (pushed_exists us F P HI HU) as (F1 & P1 & H1). destruct (rest_exists us F P F1 P1 HI H1) as (F' & P' & F2 & F3 & F4 & F5 & H).
    exists F', P', F1, P1, F2, F3, F4, F5. auto.
  Qed.

  Lemma density_exists P : all_inside P -> exists rho, density S P rho.
  Proof.
    intros [HP HI].
    set (dep r p := match aget (P r) p with Some b => match dep_particles (rho_scheme S) (s_dim S) dx (s_fnqs S) (gen3 (fun d => - get3 ibn d)%Z) (map (fun q => (p_x q, p_t q)) b) (fun _ => 0) with Some f => f | None => fun _ => 0 end | None => fun _ => 0 end).
    set (D := (fun r p _ i => dep r p (gen3 (fun d => get3 i d - - get3 ibn d)%Z)) : Z -> flds R).
    destruct (added_exists 1 0 1 D) as [D' H]; [clear; lia|]. exists (fun r p i => D' r p 0%Z i), D, D'. split; [|split; [exact H|reflexivity]].
    intros r p b Hr Eb. destruct (dep_particles_total (rho_scheme S) (s_dim S) dx (s_fnqs S) (gen3 (fun d => - get3 ibn d)%Z) Hdim (map (fun q => (p_x q, p_t q)) b) (fun _ => 0)) as [f E].
    exists f. split; [exact E|]. intros i. unfold D, dep. rewrite Eb, E. reflexivity.
  Qed.
End System.
