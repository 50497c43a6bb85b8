(** Proofs for C67. *)
From Coq Require Import Reals Permutation Lra.
From Flocq Require Import Core.
From Verif Require Import Base Arr FieldModel DepositModel DepositProofs InterpModel PushModel PushProofs MomentModel SetupProofs BalanceCommProofs CudaPrtModel CudaPrtSpec CudaPrtProofs CudaLaunchModel CudaLaunchSpec CudaLaunchProofs CudaMomModel CudaMomProofs CudaFldModel CudaFldSpec.
Local Open Scope Z_scope.

Lemma NoDup_app_disj {A} (l m : list A) : NoDup (l ++ m) -> forall x, In x l -> In x m -> False.
Proof.
  induction l as [|y l IH]; cbn [app In]; [tauto|]. intros N x [->|Hx] Hm; inversion N as [|? ? Hn N']; subst.
  - apply Hn, in_or_app. now right.
  - exact (IH N' x Hx Hm).
Qed.

Lemma slots_by {A B} (L : list A) (l : list B) (f : A -> B) : alen l = alen L ->
  (forall i w, aget L i = Some w -> aget l i = Some (f w)) -> l = map f L.
Proof.
  intros E H. apply alist_ext; [rewrite alen_map; lia|]. intros i Hi. rewrite aget_map.
  destruct (aget_some L i ltac:(lia)) as [w Ew]. rewrite Ew. cbn. apply H. exact Ew.
Qed.

(** a number and its digits *)
Lemma digits3 t a b c : 0 < a -> 0 < b -> 0 < c -> 0 <= t < a * b * c ->
  0 <= t mod a < a /\ 0 <= t / a mod b < b /\ 0 <= t / a / b < c /\ t = (t / a / b * b + t / a mod b) * a + t mod a.
Proof.
  intros Ha Hb Hc Ht. pose proof (Z.mod_pos_bound t a Ha). pose proof (Z.mod_pos_bound (t / a) b Hb).
  pose proof (Z.div_mod t a ltac:(lia)). pose proof (Z.div_mod (t / a) b ltac:(lia)).
  assert (0 <= t / a) by (apply Z.div_pos; lia). assert (0 <= t / a / b) by (apply Z.div_pos; lia).
  repeat split; try lia; try nia. apply Z.div_lt_upper_bound; [lia|]. apply Z.div_lt_upper_bound; [lia|]. nia.
Qed.

Lemma digits3_of x y z a b c : 0 <= x < a -> 0 <= y < b -> 0 <= z < c -> let t := (z * b + y) * a + x in
  0 <= t < a * b * c /\ t mod a = x /\ t / a mod b = y /\ t / a / b = z.
Proof.
  intros Hx Hy Hz t. assert (E : t / a = z * b + y) by (symmetry; apply Z.div_unique with x; [lia|unfold t; ring]).
  assert (0 <= z * b) by (apply Z.mul_nonneg_nonneg; lia). assert (z * b <= (c - 1) * b) by (apply Z.mul_le_mono_nonneg_r; lia).
  assert (0 <= (z * b + y) * a) by (apply Z.mul_nonneg_nonneg; lia). assert ((z * b + y) * a <= (c * b - 1) * a) by (apply Z.mul_le_mono_nonneg_r; lia).
  split; [unfold t; lia|]. split; [symmetry; apply Z.mod_unique with (z * b + y); [lia|unfold t; ring]|].
  rewrite E. split; [symmetry; apply Z.mod_unique with z; [lia|ring]|symmetry; apply Z.div_unique with y; [lia|ring]].
Qed.

Section Cache.
Context (g : geom) (ok : geom_ok g) (ibn : V3 Z) (sok : setup_ok g ibn) (F : emfield).
Let N := fc_n g.

Lemma fc_size_n : fc_size g = 6 * N.
Proof. unfold fc_size, N, fc_n. destruct (g_yz g) eqn:Y; [rewrite (so_bs _ _ sok Y)|]; ring. Qed.

Lemma fc_n_pos : 0 < N.
Proof.
  pose proof (go_bs g ok D0). pose proof (go_bs g ok D1). pose proof (go_bs g ok D2). cbn [get3] in *.
  unfold N, fc_n. destruct (g_yz g); nia.
Qed.

Lemma point_index ci0 m c ti : 0 <= ti < N -> fc_index g ci0 m c (fc_point g ci0 ti) = comp_no m c * N + ti.
Proof.
  intros H. pose proof (go_bs g ok D0). pose proof (go_bs g ok D1). pose proof (go_bs g ok D2). cbn [get3] in *.
  unfold fc_index, fc_point, N, fc_n, fc_off in *. destruct (g_yz g) eqn:Y; cbv zeta; cbn [c0 c1 c2].
  - rewrite (so_bs _ _ sok Y) in H |- *. destruct (digits3 ti (c1 (g_bs g) + 4) (c2 (g_bs g) + 4) 1) as (A & B & C & E); lia.
  - destruct (digits3 ti (c0 (g_bs g) + 4) (c1 (g_bs g) + 4) (c2 (g_bs g) + 4)) as (A & B & C & E); [lia|lia|lia|lia|].
    rewrite (Z.mod_small (_ / _ / _)) by exact C. clear - E. revert E. generalize (ti / (c0 (g_bs g) + 4) / (c1 (g_bs g) + 4)) ((ti / (c0 (g_bs g) + 4)) mod (c1 (g_bs g) + 4)) (ti mod (c0 (g_bs g) + 4)).
    intros u v w ->. ring.
Qed.

Lemma point_cached ci0 ti : 0 <= ti < N -> cached g ci0 (fc_point g ci0 ti).
Proof.
  intros H d. pose proof (go_bs g ok D0). pose proof (go_bs g ok D1). pose proof (go_bs g ok D2). cbn [get3] in *.
  unfold fc_point, dim_of. destruct (g_yz g); cbv zeta.
  - pose proof (Z.mod_pos_bound ti (c1 (g_bs g) + 4) ltac:(lia)). pose proof (Z.mod_pos_bound (ti / (c1 (g_bs g) + 4)) (c2 (g_bs g) + 4) ltac:(lia)).
    destruct d; cbn [invar_of get3 c0 c1 c2]; lia.
  - pose proof (Z.mod_pos_bound ti (c0 (g_bs g) + 4) ltac:(lia)). pose proof (Z.mod_pos_bound (ti / (c0 (g_bs g) + 4)) (c1 (g_bs g) + 4) ltac:(lia)).
    pose proof (Z.mod_pos_bound (ti / (c0 (g_bs g) + 4) / (c1 (g_bs g) + 4)) (c2 (g_bs g) + 4) ltac:(lia)).
    destruct d; cbn [invar_of get3 c0 c1 c2]; lia.
Qed.

Lemma cached_point ci0 n : cached g ci0 n -> exists ti, 0 <= ti < N /\ fc_point g ci0 ti = n.
Proof.
  intros H. pose proof (H D0) as H0. pose proof (H D1) as H1. pose proof (H D2) as H2.
  pose proof (go_bs g ok D0) as B0. pose proof (go_bs g ok D1) as B1. pose proof (go_bs g ok D2) as B2. cbn [get3] in *.
  unfold dim_of in *. unfold N, fc_n, fc_point. destruct n as [n0 n1 n2]. destruct (g_yz g) eqn:Y; cbv zeta; cbn [invar_of get3 c0 c1 c2] in *.
  - destruct (digits3_of (n1 - c1 ci0 + 2) (n2 - c2 ci0 + 2) 0 (c1 (g_bs g) + 4) (c2 (g_bs g) + 4) 1) as (A & E1 & E2 & _); try lia.
    eexists. split; [rewrite (so_bs _ _ sok Y); split; [apply A|eapply Z.lt_le_trans; [apply A|lia]]|]. rewrite E1, E2. subst n0. f_equal; lia.
  - destruct (digits3_of (n0 - c0 ci0 + 2) (n1 - c1 ci0 + 2) (n2 - c2 ci0 + 2) (c0 (g_bs g) + 4) (c1 (g_bs g) + 4) (c2 (g_bs g) + 4)) as (A & E1 & E2 & E3); try lia.
    eexists. split; [exact A|]. rewrite E1, E2, E3, Z.mod_small by lia. f_equal; lia.
Qed.

(** ** Loading *)

Variables (p : Z) (pos : V3 Z).
Hypothesis HP : is_pos g p pos.
Let b := block_at g p pos.

Lemma cached_inside n : cached g (k_ci0 b) n -> forall d, - get3 ibn d <= get3 n d < get3 (g_ldims g) d + get3 ibn d.
Proof.
  intros H d. specialize (H d). pose proof (so_ibn _ _ sok d) as [I0 I1]. pose proof (go_ld g ok d) as L. pose proof (go_bs g ok d) as B.
  destruct (get3 (invar_of (dim_of g)) d); [lia|]. specialize (I1 eq_refl). destruct HP as [_ Hp]. specialize (Hp d).
  unfold b, block_at in H. cbn [k_ci0] in H. rewrite get3_gen3 in H. unfold nblk in Hp. destruct (go_div g ok d) as [q Eq]. rewrite Eq in *.
  rewrite Z.div_mul in Hp by lia. nia.
Qed.

Lemma em_read_ok m c n : cached g (k_ci0 b) n -> em_read g ibn F p m c n = Some (F p m c n).
Proof.
  intros H. unfold em_read. replace (_ && _) with true; [reflexivity|]. symmetry. destruct HP as [Hp _].
  rewrite !Bool.andb_true_iff, forallb_forall, Z.leb_le, Z.ltb_lt. repeat split; try lia.
  intros d _. pose proof (cached_inside n H d). rewrite Bool.andb_true_iff, Z.leb_le, Z.ltb_lt. lia.
Qed.

Let val (i : Z) : R := let e := nth (Z.to_nat (i / N)) em_comps (QE, D0) in F p (fst e) (snd e) (fc_point g (k_ci0 b) (i mod N)).

Lemma val_at m c ti : In (m, c) em_comps -> 0 <= ti < N -> val (comp_no m c * N + ti) = F p m c (fc_point g (k_ci0 b) ti).
Proof.
  intros Hm Ht. unfold val. rewrite Z.add_comm, Z.div_add, Z.mod_add, Z.div_small, Z.mod_small by lia. rewrite Z.add_0_l.
  cbn [In em_comps] in Hm. repeat (destruct Hm as [Hm|Hm]; [injection Hm as <- <-; reflexivity|]). destruct Hm.
Qed.

Lemma comp_no_range m c : 0 <= comp_no m c < 6.
Proof. destruct m, c; cbn; lia. Qed.

Let loads (ti : Z) : list (Z * R) := map (fun e => (comp_no (fst e) (snd e) * N + ti, F p (fst e) (snd e) (fc_point g (k_ci0 b) ti))) em_comps.

Lemma thread_loads_ok tid : 0 <= tid < tpb -> thread_loads g ibn F b tid = Some (flat_map loads (strided tid N tpb)).
Proof.
  intros Ht. unfold thread_loads. cbv zeta. fold N.
  rewrite (flat_map_ext_in' _ (fun ti => map Some (loads ti))).
  - rewrite <- map_flat_map. apply all_some_map.
  - intros ti Hi. apply in_strided in Hi; [|unfold tpb; lia]. assert (Hr : 0 <= ti < N) by lia. unfold loads. rewrite map_map. apply map_ext_in. intros e _.
    change (k_p b) with p. rewrite em_read_ok by (apply point_cached; exact Hr). cbn [option_map]. rewrite point_index by exact Hr. reflexivity.
Qed.

Definition right_cache (data : list R) : Prop :=
  forall m c n, In (m, c) em_comps -> cached g (k_ci0 b) n -> fc_read g data (k_ci0 b) m c n = Some (F p m c n).

Lemma load_ok : (exists data, load_runs g ibn F b (Some data)) /\ forall r, load_runs g ibn F b r -> exists data, r = Some data /\ right_cache data.
Proof.
  unfold load_runs. rewrite (all_some_ext _ _ (fun tid => flat_map loads (strided tid N tpb))) by (intros tid Ht; apply in_zrange in Ht; apply thread_loads_ok; exact Ht).
  cbn [option_map]. rewrite concat_map_flat. set (ws := flat_map _ (zrange 0 tpb)).
  assert (IN : forall w, In w ws <-> exists ti e, 0 <= ti < N /\ In e em_comps /\ w = (comp_no (fst e) (snd e) * N + ti, F p (fst e) (snd e) (fc_point g (k_ci0 b) ti))).
  { intros w. unfold ws. rewrite <- flat_map_flat_map. rewrite in_flat_map. split.
    - intros (ti & H1 & H2). apply (in_threads 0 tpb N ti) in H1; [|reflexivity]. unfold loads in H2. apply in_map_iff in H2. destruct H2 as (e & <- & He). eauto.
    - intros (ti & e & H1 & H2 & ->). exists ti. split; [apply (in_threads 0 tpb N ti); [reflexivity|exact H1]|]. unfold loads. apply in_map_iff. eauto. }
  assert (K : forall data ws', alen data = fc_size g -> Permutation ws ws' -> exists l, run_writes ws' data = Some l /\ right_cache l).
  { intros data ws' El Pw. destruct (run_writes_h (fun _ : unit => v3 0 0 0) tt (fun u => u) g val ws' data) as (l & E & _ & G & _).
    { intros w Hw. apply (Permutation_in _ (Permutation_sym Pw)) in Hw. apply IN in Hw. destruct Hw as (ti & [m c] & Ht & He & ->). cbn [fst snd].
      split; [symmetry; apply val_at; assumption|]. rewrite El, fc_size_n. pose proof (comp_no_range m c). nia. }
    exists l. split; [exact E|]. intros m c n Hm Hn. destruct (cached_point _ _ Hn) as (ti & Ht & <-). unfold fc_read. rewrite point_index by exact Ht.
    rewrite G; [rewrite val_at by assumption; reflexivity|]. apply in_map_iff. exists (comp_no m c * N + ti, F p m c (fc_point g (k_ci0 b) ti)). split; [reflexivity|].
    apply (Permutation_in _ Pw), IN. exists ti, (m, c). auto. }
  split.
  - destruct (K (repeat 0%R (Z.to_nat (fc_size g))) ws) as (l & E & _).
    + rewrite alen_repeat. pose proof fc_n_pos. rewrite fc_size_n. lia.
    + reflexivity.
    + exists l, (repeat 0%R (Z.to_nat (fc_size g))), ws. split; [|split; [reflexivity|symmetry; exact E]]. rewrite alen_repeat. pose proof fc_n_pos. rewrite fc_size_n. lia.
  - intros r (data & ws' & El & Pw & ->). apply K; assumption.
Qed.
End Cache.

(** ** One particle *)

Section Push.
Context (g : geom) (ok : geom_ok g) (ibn : V3 Z) (sok : setup_ok g ibn) (F : emfield).
Context (dx : V3 R) (dt eta : R) (ks : list kind).
Hypothesis Hst : step_ok g dx dt.
Hypothesis Hks : alen ks <= 4.
Notation cell := (cell_by dx).

Definition at_unit (x : mprt) : V3 R := gen3 (fun d => get3 (mp_x x) d / get3 dx d)%R.

(** the push of the CPU, as a function *)
Definition field_at (p : Z) (x : mprt) (m : qty) : V3 R :=
  gen3 (fun c => match interp ip_1st_ec (dim_of g) (at_unit x) (F p) m c with Some v => v | None => 0%R end).

Definition push1 (p : Z) (x : mprt) : mprt :=
  match aget ks (mp_kind x) with
  | None => x
  | Some k =>
      let u := push_p (mp_u x) (field_at p x QE) (field_at p x QH) (dq_kind eta dt (k_q k) (k_m k)) in
      MPrt (push_x (invar_of (dim_of g)) dt 1 (mp_x x) (calc_v u)) u (mp_kind x) (mp_qw x)
  end.

Lemma field_at_ok p x m c : interp ip_1st_ec (dim_of g) (at_unit x) (F p) m c = Some (get3 (field_at p x m) c).
Proof. unfold field_at. rewrite get3_gen3. unfold interp, dim_of. destruct (g_yz g); reflexivity. Qed.

Lemma push1_ok p x : 0 <= mp_kind x < alen ks -> pushed_by (dim_of g) dx dt eta ks (F p) x (push1 p x).
Proof.
  intros Hk. destruct (aget_some ks (mp_kind x) Hk) as [k Ek]. exists k, (field_at p x QE), (field_at p x QH).
  split; [exact Ek|]. split; [intros c; apply field_at_ok|]. split; [intros c; apply field_at_ok|]. unfold push1. rewrite Ek. cbv zeta. cbn [mp_x mp_u mp_kind mp_qw]. auto.
Qed.

Lemma fl_cell_by x : fl_cell dx x = cell x.
Proof. unfold fl_cell, cell_by, fl_dxi. apply v3_ext. intros d. rewrite !get3_gen3. unfold fint, Rdiv. rewrite Rmult_1_l. reflexivity. Qed.

Lemma scale_unit x d : (get3 (invar_of (dim_of g)) d = false -> get3 (scale_pos g dx (mp_x x)) d = get3 (at_unit x) d).
Proof.
  unfold scale_pos, at_unit, fl_dxi, dim_of. rewrite get3_gen3. unfold gen3. destruct (g_yz g), d; cbn [invar_of get3 c0 c1 c2]; intros H; try discriminate; unfold Rdiv; rewrite Rmult_1_l; reflexivity.
Qed.

Section Block.
Variables (p : Z) (pos : V3 Z).
Hypothesis HP : is_pos g p pos.
Let b := block_at g p pos.

Lemma cu_ip_ok data x m c : In (m, c) em_comps -> right_cache g F p pos data ->
  (forall d, get3 (k_ci0 b) d <= get3 (cell x) d < get3 (k_ci0 b) d + get3 (g_bs g) d) ->
  cu_ip g data (k_ci0 b) (scale_pos g dx (mp_x x)) m c = Some (get3 (field_at p x m) c).
Proof.
  intros Hm Rc Hc. rewrite <- field_at_ok.
  assert (Fl : forall d, get3 (invar_of (dim_of g)) d = false -> get3 (k_ci0 b) d <= fint (get3 (at_unit x) d) < get3 (k_ci0 b) d + get3 (g_bs g) d).
  { intros d _. specialize (Hc d). unfold cell_by in Hc. unfold at_unit, fint. revert Hc. generalize (k_ci0 b). intros ci Hc. rewrite !get3_gen3 in *. exact Hc. }
  pose proof (scale_unit x) as Sc. unfold right_cache in Rc. fold b in Rc. unfold cu_ip, cu_dim. fold (dim_of g).
  set (xm := scale_pos g dx (mp_x x)) in *. set (xu := at_unit x) in *. clearbody xm xu.
  assert (Rd : forall n, cached g (k_ci0 b) n -> fc_read g data (k_ci0 b) m c n = Some (F p m c n)) by (intros n Hn; apply Rc; assumption).
  destruct xm as [m0 m1 m2], xu as [u0 u1 u2]. pose proof (Sc D0) as S0. pose proof (Sc D1) as S1. pose proof (Sc D2) as S2. pose proof (Fl D0) as F0. pose proof (Fl D1) as F1. pose proof (Fl D2) as F2.
  clear Sc Fl Rc Hc. unfold gen3. cbn [get3 c0 c1 c2] in *. unfold cached, dim_of, ec_points, interp in *.
  destruct (g_yz g) eqn:Y; cbn [invar_of get3 c0 c1 c2] in *.
  - specialize (S1 eq_refl). specialize (S2 eq_refl). specialize (F1 eq_refl). specialize (F2 eq_refl). subst m1 m2.
    assert (Q : forall j k, fint u1 <= j <= fint u1 + 1 -> fint u2 <= k <= fint u2 + 1 -> fc_read g data (k_ci0 b) m c (v3 0 j k) = Some (F p m c (v3 0 j k))).
    { intros j k Hj Hk. apply Rd. intros d; destruct d; cbn [get3 c0 c1 c2]; lia. }
    cbn [em_comps In] in Hm. repeat (destruct Hm as [Hm|Hm]; [injection Hm as <- <-; cbn [map all_some]; rewrite ?Q by lia; unfold ec_yz, set1, z3; cbn [k1_l k1_v0 k1_v1]; rewrite ?Q by lia; reflexivity|]). destruct Hm.
  - specialize (S0 eq_refl). specialize (F0 eq_refl). specialize (S1 eq_refl). specialize (S2 eq_refl). specialize (F1 eq_refl). specialize (F2 eq_refl). subst m0 m1 m2.
    assert (Q : forall i j k, fint u0 <= i <= fint u0 + 1 -> fint u1 <= j <= fint u1 + 1 -> fint u2 <= k <= fint u2 + 1 -> fc_read g data (k_ci0 b) m c (v3 i j k) = Some (F p m c (v3 i j k))).
    { intros i j k Hi Hj Hk. apply Rd. intros d; destruct d; cbn [get3 c0 c1 c2]; lia. }
    cbn [em_comps In] in Hm. repeat (destruct Hm as [Hm|Hm]; [injection Hm as <- <-; cbn [map all_some]; rewrite ?Q by lia; unfold ec_xyz, set1, z3; cbn [k1_l k1_v0 k1_v1]; rewrite ?Q by lia; reflexivity|]). destruct Hm.
Qed.

Lemma cu_push_one_ok data x : 0 <= mp_kind x < alen ks -> right_cache g F p pos data ->
  (forall d, get3 (k_ci0 b) d <= get3 (cell x) d < get3 (k_ci0 b) d + get3 (g_bs g) d) ->
  cu_push_one g dx dt eta ks data (k_ci0 b) x = Some (push1 p x).
Proof.
  intros Hk Rc Hc. unfold cu_push_one. cbv zeta.
  assert (I : forall m, m = QE \/ m = QH -> cu_ip3 g data (k_ci0 b) (scale_pos g dx (mp_x x)) m = Some (field_at p x m)).
  { intros m Hm. unfold cu_ip3. rewrite !cu_ip_ok; try assumption; try (destruct Hm; subst m; cbn; tauto). }
  rewrite !I by auto. unfold cu_dq. replace (alen ks <=? 4) with true by (symmetry; lia).
  destruct (aget_some ks (mp_kind x) Hk) as [k Ek]. unfold push1. rewrite Ek. cbn [option_map]. unfold cu_dim. fold (dim_of g). reflexivity.
Qed.
End Block.

Lemma push1_push_ok : push_ok cell g push1.
Proof.
  intros p x Hc. destruct Hst as [T0 T1].
  assert (A : forall d, (get3 (mp_x (push1 p x)) d = get3 (mp_x x) d \/ get3 (invar_of (dim_of g)) d = false /\ Rabs (get3 (mp_x (push1 p x)) d - get3 (mp_x x) d) <= dt)%R).
  { intros d. unfold push1. destruct (aget ks (mp_kind x)) as [k|]; [|now left]. cbv zeta. cbn [mp_x]. set (u := push_p _ _ _ _). unfold push_x.
    destruct (get3 (invar_of (dim_of g)) d) eqn:I.
    - left. unfold dim_of in *. destruct (g_yz g), d; cbn [invar_of c0 c1 c2 get3] in *; try discriminate; reflexivity.
    - right. split; [reflexivity|]. pose proof (calc_v_comp u d) as V.
      replace (get3 _ d - get3 (mp_x x) d)%R with (dt * get3 (calc_v u) d)%R by (unfold dim_of in *; destruct (g_yz g), d; cbn [invar_of c0 c1 c2 get3] in *; try discriminate; ring).
      rewrite Rabs_mult, (Rabs_pos_eq dt) by exact T0. pose proof (Rabs_pos (get3 (calc_v u) d)). nra. }
  split.
  - intros d. specialize (A d). specialize (Hc d). unfold cell_by in *. rewrite get3_gen3 in *. destruct (T1 d) as [X0 X1]. pose proof (go_ld g ok d) as Ld.
    destruct A as [->|[I A]]; [lia|]. specialize (X1 I). set (x0 := get3 (mp_x x) d) in *. set (x1 := get3 (mp_x (push1 p x)) d) in *. set (h := get3 dx d) in *.
    pose proof (Zfloor_lb (x0 / h)) as L1. pose proof (Zfloor_ub (x0 / h)) as L2.
    assert (B : (x0 / h - 1 <= x1 / h <= x0 / h + 1)%R).
    { apply Rabs_le_inv in A. replace (x1 / h)%R with (x0 / h + (x1 - x0) * / h)%R by (unfold Rdiv; ring).
      assert (0 < / h)%R by (apply Rinv_0_lt_compat; exact X0). assert (h * / h = 1)%R by (apply Rinv_r; lra). nra. }
    assert (B1 : -1 <= Zfloor (x1 / h)). { apply Zfloor_lub. assert (0 <= IZR (Zfloor (x0 / h)))%R by (apply IZR_le; lia). lra. }
    assert (B2 : Zfloor (x1 / h) < Zfloor (x0 / h) + 2).
    { apply lt_IZR. eapply Rle_lt_trans; [apply Zfloor_lb|]. rewrite plus_IZR. lra. }
    lia.
  - intros Y. unfold cell_by. unfold gen3. cbn [c0 get3]. destruct (A D0) as [E|[I _]]; [cbn [get3] in E; rewrite E; reflexivity|]. unfold dim_of in I. rewrite Y in I. discriminate.
Qed.

(** ** Slots, blocks, launches *)

Section Store.
Variables (c0' : cm mprt) (L : list (Z * mprt)).
Hypothesis I0 : inv cell g c0' L.
Hypothesis N0 : c_n c0' <> 0.
Hypothesis HK : forall w, In w L -> 0 <= mp_kind (snd w) < alen ks.
Let nb := n_blocks g.
Let h := cnt L.
Let np := n_blocks_per_patch g.

(** what is to be in slot [n] afterwards *)
Let W (n : Z) : mprt * Z :=
  match aget L n with
  | Some w => let y := push1 (fst w / np) (snd w) in (y, if cell_inb g (cell y) then key g (fst w / np) (cell y) else nb + fst w / np)
  | None => (mp_zero, 0)
  end.

Lemma cell_in_block p pos x : cell_in g (cell x) -> key g p (cell x) = block_no g p pos -> is_pos g p pos ->
  forall d, get3 (k_ci0 (block_at g p pos)) d <= get3 (cell x) d < get3 (k_ci0 (block_at g p pos)) d + get3 (g_bs g) d.
Proof.
  intros Hc E [Hp Hpos] d. unfold key in E. apply (block_no_inj g ok) in E; [|exact Hp|exact Hp|apply (blkpos_range g ok); exact Hc|exact Hpos]. destruct E as [_ E].
  cbn [block_at k_ci0]. rewrite get3_gen3. rewrite <- E. unfold blkpos. rewrite get3_gen3. pose proof (go_bs g ok d) as B.
  pose proof (Z.div_mod (get3 (cell x) d) (get3 (g_bs g) d) ltac:(lia)). pose proof (Z.mod_pos_bound (get3 (cell x) d) (get3 (g_bs g) d) B). nia.
Qed.

Lemma slot_key b n : all_blocks g b -> h (k_bid b) <= n < h (k_bid b + 1) -> exists w, aget L n = Some w /\ fst w = k_bid b.
Proof.
  intros _ Hn. pose proof (cnt_bounds L (k_bid b)). pose proof (cnt_bounds L (k_bid b + 1)). unfold h in Hn.
  destruct (aget_some L n ltac:(lia)) as [w Ew]. exists w. split; [exact Ew|]. apply (cnt_key L (k_bid b) n w (i_sorted _ _ _ _ I0) Ew). exact Hn.
Qed.

Lemma all_blocks_range b : all_blocks g b -> 0 <= k_bid b < nb.
Proof. intros (p & pos & [Hp Hpos] & ->). apply (block_no_lt g ok); assumption. Qed.

Definition same (c : cm mprt) : Prop := c_off c = c_off c0' /\ c_id c = c_id c0' /\ c_n c = c_n c0' /\ c_re c = c_re c0'.
Definition reads (c : cm mprt) (n : Z) : Prop := forall w, aget L n = Some w -> read_slot c n = Some (snd w).

Lemma slot_push_ok c p pos data n : is_pos g p pos -> right_cache g F p pos data -> h (block_no g p pos) <= n < h (block_no g p pos + 1) -> reads c n ->
  slot_push g dx dt eta ks c data (block_at g p pos) n = Some [(n, W n)].
Proof.
  intros HP Rc Hn Rd. destruct (slot_key (block_at g p pos) n) as (w & Ew & Kw); [exists p, pos; auto|exact Hn|]. cbn [block_at k_bid] in Kw.
  unfold slot_push, W. rewrite (Rd w Ew), Ew. pose proof (i_good _ _ _ _ I0 w (aget_In _ _ _ Ew)) as G. destruct (good_patch cell g ok w G) as (Gp & Gc & Gk). fold np in Gp, Gk |- *.
  assert (Ep : fst w / np = p /\ blkpos g (cell (snd w)) = pos).
  { destruct HP as [Hp Hpos]. rewrite Kw in Gk at 1. unfold key in Gk. symmetry in Gk. apply (block_no_inj g ok) in Gk; try assumption. apply (blkpos_range g ok). exact Gc. }
  destruct Ep as [Ep Eb].
  assert (C : forall d, get3 (k_ci0 (block_at g p pos)) d <= get3 (cell (snd w)) d < get3 (k_ci0 (block_at g p pos)) d + get3 (g_bs g) d).
  { apply cell_in_block; [exact Gc| |exact HP]. unfold key. rewrite Eb. reflexivity. }
  rewrite (cu_push_one_ok p pos data (snd w) (HK w (aget_In _ _ _ Ew)) Rc C). rewrite fl_cell_by, Ep. cbv zeta.
  pose proof (push_reach cell g ok push1 w push1_push_ok G) as PR. fold np in PR. rewrite Ep in PR. cbn [block_at k_p].
  rewrite (pushed_index_ok g ok p _ PR). reflexivity.
Qed.

Definition slots (bl : list blk) : list Z := flat_map (fun b => zrange (h (k_bid b)) (h (k_bid b + 1))) bl.

Lemma in_slots bl n : In n (slots bl) <-> exists b, In b bl /\ h (k_bid b) <= n < h (k_bid b + 1).
Proof. unfold slots. rewrite in_flat_map. split; intros (b & Hb & H); exists b; split; try assumption; apply in_zrange; assumption. Qed.

Lemma block_slots_ok c p pos data : is_pos g p pos -> right_cache g F p pos data -> same c -> (forall n, h (block_no g p pos) <= n < h (block_no g p pos + 1) -> reads c n) ->
  exists ws, launch_slots [block_at g p pos] tpb c (slot_push g dx dt eta ks c data) = Some ws /\ Permutation ws (map (fun n => (n, W n)) (zrange (h (block_no g p pos)) (h (block_no g p pos + 1)))).
Proof.
  intros HP Rc (So & _) Rd. pose proof (all_blocks_range (block_at g p pos) ltac:(exists p, pos; auto)) as Hk. cbn [block_at k_bid] in Hk.
  set (k := block_no g p pos) in *. unfold launch_slots. cbn [map all_some]. change (k_bid (block_at g p pos)) with k.
  rewrite So, (off_get cell mp_zero (fun x => x) g c0' L I0 k) by (unfold nb in Hk; lia). rewrite (off_get cell mp_zero (fun x => x) g c0' L I0 (k + 1)) by (unfold nb in Hk; lia). fold h.
  rewrite (all_some_ext _ _ (fun tid => map (fun n => (n, W n)) (in_block_loop tpb (h k) (h (k + 1)) tid))).
  - cbn [option_map concat]. rewrite concat_map_flat, app_nil_r. eexists. split; [reflexivity|]. rewrite <- map_flat_map. apply Permutation_map. apply in_block_loop_perm; [reflexivity|]. apply cnt_bounds.
  - intros tid Ht. apply in_zrange in Ht. rewrite (all_some_ext _ _ (fun n => [(n, W n)])).
    + cbn [option_map]. rewrite concat_map_flat. reflexivity.
    + intros n Hn. assert (B0 : h k <= n < h (k + 1)).
      { unfold in_block_loop in Hn. apply filter_In in Hn. destruct Hn as [Hn Q]. apply in_strided in Hn; [|reflexivity]. apply Bool.negb_true_iff, Z.ltb_ge in Q. lia. }
      apply slot_push_ok; auto.
Qed.

Lemma blocks_push_ok c bl : (forall b, In b bl -> all_blocks g b) -> same c -> (forall n, In n (slots bl) -> reads c n) ->
  (exists ws, blocks_push g ibn F dx dt eta ks c bl (Some ws)) /\
  forall r, blocks_push g ibn F dx dt eta ks c bl r -> exists ws, r = Some ws /\ Permutation ws (map (fun n => (n, W n)) (slots bl)).
Proof.
  induction bl as [|b bl IH]; intros A Sm Rd; cbn [blocks_push slots flat_map].
  - split; [eexists; reflexivity|]. intros r ->. exists []. split; [reflexivity|constructor].
  - destruct (A b (or_introl eq_refl)) as (p & pos & HP & ->). change (k_bid (block_at g p pos)) with (block_no g p pos).
    destruct IH as ((ws2 & E2) & IH); [intros; apply A; now right|exact Sm|intros n Hn; apply Rd; cbn [slots flat_map]; apply in_or_app; now right|].
    destruct (load_ok g ok ibn sok F p pos HP) as ((data & Ld) & LO).
    assert (RB : forall n, h (block_no g p pos) <= n < h (block_no g p pos + 1) -> reads c n).
    { intros n Hn. apply Rd. apply in_slots. exists (block_at g p pos). split; [now left|exact Hn]. }
    split.
    + destruct (LO _ Ld) as (data' & Ed & Rc). injection Ed as <-. destruct (block_slots_ok c p pos data HP Rc Sm RB) as (ws1 & E1 & P1).
      exists (ws1 ++ ws2), (Some data). split; [exact Ld|]. rewrite E1. exists (Some ws2). split; [exact E2|reflexivity].
    + intros r (d & Hd & Hr). destruct (LO _ Hd) as (data' & -> & Rc). destruct (block_slots_ok c p pos data' HP Rc Sm RB) as (ws1 & E1 & P1). rewrite E1 in Hr.
      destruct Hr as (rr & Hrr & ->). destruct (IH rr Hrr) as (w2 & -> & P2). exists (ws1 ++ w2). split; [reflexivity|]. rewrite map_app. apply Permutation_app; assumption.
Qed.

Definition target (c : cm mprt) : list mprt := if c_re c then c_alt c else c_st c.
Definition source_kept (c : cm mprt) : Prop := if c_re c0' then c_st c = c_st c0' else c_alt c = c_alt c0'.

(** the state between launches, [todo] the blocks still to come *)
Record between (c : cm mprt) (todo : list blk) : Prop := {
  bt_same : same c;
  bt_kept : source_kept c;
  bt_tgt : alen (target c) = c_n c0';
  bt_idx : alen (c_idx c) = c_n c0';
  bt_rd : forall n, In n (slots todo) -> reads c n;
  bt_done : forall n, 0 <= n < c_n c0' -> ~ In n (slots todo) -> aget (target c) n = Some (fst (W n)) /\ aget (c_idx c) n = Some (snd (W n))
}.

Lemma store_ok c bl rest ws : (forall b, In b bl -> all_blocks g b) -> (forall b, In b rest -> all_blocks g b) -> NoDup (bl ++ rest) -> between c (bl ++ rest) ->
  Permutation ws (map (fun n => (n, W n)) (slots bl)) -> exists c', store_pushed c ws = Some c' /\ between c' rest.
Proof.
  intros A A' ND B P.
  assert (IN : forall w, In w ws -> exists n, In n (slots bl) /\ w = (n, W n)).
  { intros w Hw. apply (Permutation_in _ P) in Hw. apply in_map_iff in Hw. destruct Hw as (n & <- & Hn). eauto. }
  assert (RG : forall n, In n (slots bl) -> 0 <= n < c_n c0').
  { intros n Hn. apply in_slots in Hn. destruct Hn as (b & Hb & Hn). destruct (slot_key b n (A b Hb) Hn) as (w & Ew & _). pose proof (aget_bounds _ _ _ Ew). rewrite (i_n _ _ _ _ I0). lia. }
  assert (MF : forall n, In n (slots bl) <-> In n (map fst ws)).
  { intros n. split; intros Hn.
    - apply in_map_iff. exists (n, W n). split; [reflexivity|]. apply (Permutation_in _ (Permutation_sym P)), in_map_iff. eauto.
    - apply in_map_iff in Hn. destruct Hn as (w & <- & Hw). destruct (IN w Hw) as (n & Hn & ->). exact Hn. }
  assert (DJ : forall n, In n (slots bl) -> In n (slots rest) -> False).
  { intros n H1 H2. apply in_slots in H1. apply in_slots in H2. destruct H1 as (b1 & B1 & R1), H2 as (b2 & B2 & R2).
    destruct (slot_key b1 n (A b1 B1) R1) as (w & Ew & K1). destruct (slot_key b2 n (A' b2 B2) R2) as (w' & Ew' & K2). rewrite Ew in Ew'. injection Ew' as <-.
    destruct (A b1 B1) as (p1 & q1 & P1 & E1), (A' b2 B2) as (p2 & q2 & P2 & E2). destruct (block_at_inj g ok p1 q1 p2 q2 P1 P2) as [-> ->]; [rewrite <- E1, <- E2; congruence|].
    rewrite E1 in B1. rewrite E2 in B2. exact (NoDup_app_disj _ _ ND _ B1 B2). }
  assert (Ta : forall a, alen a = c_n c0' -> exists a', run_writes (map (fun w => (fst w, fst (snd w))) ws) a = Some a' /\ alen a' = c_n c0' /\ (forall n, In n (slots bl) -> aget a' n = Some (fst (W n))) /\ forall n, ~ In n (slots bl) -> aget a' n = aget a n).
  { intros a Ea. destruct (run_writes_h (fun _ : unit => v3 0 0 0) tt (fun u => u) g (fun n => fst (W n)) (map (fun w => (fst w, fst (snd w))) ws) a) as (a' & E & El & G & K).
    { intros w Hw. apply in_map_iff in Hw. destruct Hw as (v & <- & Hv). destruct (IN v Hv) as (n & Hn & ->). cbn [fst snd]. split; [reflexivity|]. rewrite Ea. apply RG, Hn. }
    exists a'. split; [exact E|]. split; [lia|]. rewrite map_map in G, K. cbn [fst] in G, K. split; intros n Hn; [apply G|apply K]; rewrite <- MF; exact Hn. }
  assert (Ti : forall a, alen a = c_n c0' -> exists a', run_writes (map (fun w => (fst w, snd (snd w))) ws) a = Some a' /\ alen a' = c_n c0' /\ (forall n, In n (slots bl) -> aget a' n = Some (snd (W n))) /\ forall n, ~ In n (slots bl) -> aget a' n = aget a n).
  { intros a Ea. destruct (run_writes_h (fun _ : unit => v3 0 0 0) tt (fun u => u) g (fun n => snd (W n)) (map (fun w => (fst w, snd (snd w))) ws) a) as (a' & E & El & G & K).
    { intros w Hw. apply in_map_iff in Hw. destruct Hw as (v & <- & Hv). destruct (IN v Hv) as (n & Hn & ->). cbn [fst snd]. split; [reflexivity|]. rewrite Ea. apply RG, Hn. }
    exists a'. split; [exact E|]. split; [lia|]. rewrite map_map in G, K. cbn [fst] in G, K. split; intros n Hn; [apply G|apply K]; rewrite <- MF; exact Hn. }
  destruct B as [(S1 & S2 & S3 & S4) Kp Tl Il Rd Dn]. destruct (Ta (target c) Tl) as (t' & Et & Lt & Gt & Ht). destruct (Ti (c_idx c) Il) as (i' & Ei & Li & Gi & Hi).
  unfold store_pushed. fold (target c). rewrite Et, Ei. eexists. split; [reflexivity|].
  assert (SA : forall n, In n (slots (bl ++ rest)) <-> In n (slots bl) \/ In n (slots rest)) by (intros n; unfold slots; rewrite flat_map_app; apply in_app_iff).
  unfold source_kept in Kp. destruct (c_re c) eqn:Re.
  - constructor.
    + unfold same. cbn. auto.
    + unfold source_kept. cbn. rewrite <- S4 in *. exact Kp.
    + unfold target. cbn. exact Lt.
    + cbn. exact Li.
    + intros n Hn w Ew. unfold reads, read_slot in *. cbn [c_re c_id c_st]. pose proof (Rd n (proj2 (SA n) (or_intror Hn)) w Ew) as Q. rewrite Re in Q. exact Q.
    + intros n Hn Hs. unfold target. cbn [c_re c_alt c_idx]. destruct (in_dec Z.eq_dec n (slots bl)) as [Y|Y]; [split; auto|]. rewrite (Ht n Y), (Hi n Y). apply Dn; [exact Hn|]. rewrite SA. tauto.
  - constructor.
    + unfold same. cbn. auto.
    + unfold source_kept. cbn. rewrite <- S4 in *. exact Kp.
    + unfold target. cbn. exact Lt.
    + cbn. exact Li.
    + intros n Hn w Ew. unfold reads, read_slot in *. cbn [c_re c_id c_st]. pose proof (Rd n (proj2 (SA n) (or_intror Hn)) w Ew) as Q. rewrite Re in Q. unfold target in Ht. rewrite Re in Ht. rewrite Ht by (intros Y; exact (DJ n Y Hn)). exact Q.
    + intros n Hn Hs. unfold target. cbn [c_re c_st c_idx]. destruct (in_dec Z.eq_dec n (slots bl)) as [Y|Y]; [split; auto|]. rewrite (Ht n Y), (Hi n Y). apply Dn; [exact Hn|]. rewrite SA. tauto.
Qed.

Lemma launches_ok ls : forall c, (forall b, In b (concat ls) -> all_blocks g b) -> NoDup (concat ls) -> between c (concat ls) ->
  (exists r, launches_push g ibn F dx dt eta ks c ls r) /\ forall r, launches_push g ibn F dx dt eta ks c ls r -> exists c', r = Some c' /\ between c' [].
Proof.
  induction ls as [|bl ls IH]; intros c A ND B; cbn [launches_push concat] in *.
  - split; [eexists; reflexivity|]. intros r ->. eauto.
  - assert (A1 : forall b, In b bl -> all_blocks g b) by (intros b Hb; apply A, in_or_app; now left).
    assert (A2 : forall b, In b (concat ls) -> all_blocks g b) by (intros b Hb; apply A, in_or_app; now right).
    destruct (blocks_push_ok c bl A1 (bt_same _ _ B)) as ((ws & E) & U); [intros n Hn; apply (bt_rd _ _ B); unfold slots; rewrite flat_map_app; apply in_or_app; now left|].
    assert (ND2 : NoDup (concat ls)) by (revert ND; clear; induction bl; cbn; [auto|]; intros H; inversion H; auto).
    split.
    + destruct (U _ E) as (ws0 & Ew & Pw). injection Ew as <-. destruct (store_ok c bl (concat ls) ws A1 A2 ND B Pw) as (c' & Es & B').
      destruct (IH c' A2 ND2 B') as ((r & Hr) & _). exists r, (Some ws). split; [exact E|]. exists ws. split; [reflexivity|]. rewrite Es. exact Hr.
    + intros r (rws & Hrw & Hr). destruct (U _ Hrw) as (ws1 & -> & Pw). destruct Hr as (ws' & P' & Hr).
      destruct (store_ok c bl (concat ls) ws' A1 A2 ND B) as (c' & Es & B'); [rewrite <- P'; exact Pw|]. rewrite Es in Hr. exact (proj2 (IH c' A2 ND2 B') r Hr).
Qed.

Lemma push_launches_once : each_once (all_blocks g) (concat (push_launches g)).
Proof.
  unfold push_launches. destruct (g_yz g) eqn:Y; [rewrite concat_map_flat; exact (q_all_once g ok Y)|]. cbn [concat]. rewrite app_nil_r. exact (simple_once g ok).
Qed.

Lemma fpush_ok : (exists r, fpush_runs g ibn F dx dt eta ks c0' r) /\ forall r, fpush_runs g ibn F dx dt eta ks c0' r -> r = push_mprts cell mp_zero g push1 c0'.
Proof.
  unfold fpush_runs. replace (c_n c0' =? 0) with false by (symmetry; apply Z.eqb_neq; exact N0). cbv zeta.
  set (c1 := if c_re c0' then _ else c0').
  destruct push_launches_once as [ND IFF]. pose proof (i_n _ _ _ _ I0) as En. pose proof (alen_nonneg L) as NN.
  assert (AL : forall n, 0 <= n < c_n c0' -> In n (slots (concat (push_launches g)))).
  { intros n Hn. destruct (aget_some L n ltac:(lia)) as [w Ew]. pose proof (i_good _ _ _ _ I0 w (aget_In _ _ _ Ew)) as G. destruct (good_patch cell g ok w G) as (Gp & Gc & Gk).
    apply in_slots. exists (block_at g (fst w / n_blocks_per_patch g) (blkpos g (cell (snd w)))). split.
    - apply IFF. eexists _, _. split; [|reflexivity]. split; [exact Gp|]. apply (blkpos_range g ok). exact Gc.
    - cbn [block_at k_bid]. unfold key in Gk. rewrite <- Gk. apply (cnt_key L (fst w) n w (i_sorted _ _ _ _ I0) Ew). reflexivity. }
  assert (B : between c1 (concat (push_launches g))).
  { unfold c1. destruct (c_re c0') eqn:Re.
    - constructor; try (unfold target, source_kept; cbn; rewrite ?Re; first [reflexivity|apply vresize_length; lia]).
      + unfold same. cbn. auto.
      + intros n Hn w Ew. unfold read_slot. cbn [c_re c_id c_st]. pose proof (i_slot _ _ _ _ I0 n w Ew) as Q. rewrite Re in Q. destruct Q as (j & -> & ->). reflexivity.
      + intros n Hn Hs. destruct Hs. apply AL. exact Hn.
    - destruct (i_tidy _ _ _ _ I0 (or_introl Re)) as [T1 T2]. constructor; try assumption.
      + unfold same. auto.
      + unfold source_kept. rewrite Re. reflexivity.
      + unfold target. rewrite Re. exact T1.
      + intros n Hn w Ew. unfold read_slot. rewrite Re. pose proof (i_slot _ _ _ _ I0 n w Ew) as Q. rewrite Re in Q. exact Q.
      + intros n Hn Hs. destruct Hs. apply AL. exact Hn. }
  destruct (launches_ok (push_launches g) c1 (fun b Hb => proj1 (IFF b) Hb) ND B) as ((r0 & Hr0) & U).
  split; [eexists; exists r0; split; [exact Hr0|reflexivity]|].
  intros r (r1 & Hr1 & ->). destruct (U r1 Hr1) as (c2 & -> & B2). cbn [option_map].
  destruct (push_step cell mp_zero (fun x => x) g ok c0' L push1 I0 push1_push_ok) as (c' & E' & Es & Ei & Enn & Eo). rewrite E'. f_equal.
  unfold push_mprts in E'. replace (c_n c0' =? 0) with false in E' by (symmetry; apply Z.eqb_neq; exact N0).
  destruct (push_reads cell g push1 c0') as [ws|]; [|discriminate]. cbv zeta in E'.
  destruct B2 as [(S1 & S2 & S3 & S4) Kp Tl Il _ Dn].
  assert (T : target c2 = c_st c' /\ c_idx c2 = c_idx c').
  { rewrite Es, Ei. split; (apply slots_by; [rewrite ?alen_map; lia|]); intros i w Ew; rewrite aget_map in Ew; destruct (aget L i) as [v|] eqn:Ev; try discriminate; cbn [option_map] in Ew; injection Ew as <-;
      pose proof (aget_bounds _ _ _ Ev) as Bi; destruct (Dn i ltac:(lia) ltac:(intros Q; exact Q)) as [D1 D2]; unfold W in D1, D2; rewrite Ev in D1, D2; [rewrite D1|rewrite D2]; reflexivity. }
  destruct T as [T1 T2]. unfold target in T1. unfold source_kept in Kp. rewrite S4. destruct c2 as [st alt idx id off n re]. cbn in *. subst.
  destruct (c_re c0').
  - destruct (run_writes _ _) as [a|] in E'; [|discriminate]. destruct (run_writes _ _) as [i|] in E'; [|discriminate]. injection E' as <-. cbn in *. congruence.
  - destruct (run_writes _ _) as [a|] in E'; [|discriminate]. destruct (run_writes _ _) as [i|] in E'; [|discriminate]. injection E' as <-. cbn in *. congruence.
Qed.
End Store.
End Push.

(** ** The stores that can be reached *)

Lemma run_inv_perm {P} (cpos : P -> V3 Z) dP moved g (ok : geom_ok g) acts : forall c L S c' outs, inv cpos g c L -> Permutation S (untag g L) -> allowed_run cpos g S acts ->
  exec_run cpos dP moved g c acts = Some (c', outs) -> exists L', inv cpos g c' L' /\ Permutation (fold_left (after cpos g) acts S) (untag g L').
Proof.
  induction acts as [|a acts IH]; intros c L S c' outs I PS A E.
  - injection E as <- _. exists L. auto.
  - destruct A as [A1 A2]. destruct (exec_ok cpos dP moved g ok c L S a I PS A1) as [c1 [o [L1 [E1 [I1 [P1 R1]]]]]].
    cbn [exec_run] in E. rewrite E1 in E. destruct (exec_run cpos dP moved g c1 acts) as [[c2 os]|] eqn:E2; [|discriminate].
    injection E as <- _. exact (IH c1 L1 _ c2 os I1 P1 A2 E2).
Qed.

Section Reached.
Context (g : geom) (ok : geom_ok g) (ibn : V3 Z) (sok : setup_ok g ibn) (F : emfield).
Context (dx : V3 R) (dt eta : R) (ks : list kind).
Hypothesis Hst : step_ok g dx dt.
Hypothesis Hks : alen ks <= 4.
Variables (c : cm mprt) (L : list (Z * mprt)).
Hypothesis I0 : inv (cell_by dx) g c L.
Hypothesis HK : forall w, In w L -> 0 <= mp_kind (snd w) < alen ks.
Let f := push1 g F dx dt eta ks.

Lemma fpush_all : (exists r, fpush_runs g ibn F dx dt eta ks c r) /\ forall r, fpush_runs g ibn F dx dt eta ks c r -> r = push_mprts (cell_by dx) mp_zero g f c.
Proof.
  destruct (Z.eq_dec (c_n c) 0) as [E|E]; [|apply (fpush_ok g ok ibn sok F dx dt eta ks Hst Hks c L I0 E HK)].
  unfold fpush_runs, push_mprts. replace (c_n c =? 0) with true by (symmetry; apply Z.eqb_eq; exact E). split; [eexists; reflexivity|]. intros r ->. reflexivity.
Qed.

Lemma push_blocks c' : push_mprts (cell_by dx) mp_zero g f c = Some c' -> c_n c' = c_n c /\
  forall p b, is_pos g p b -> exists l l', stored c (block_no g p b) l /\ stored c' (block_no g p b) l' /\ Forall2 (pushed_by (dim_of g) dx dt eta ks (F p)) l l'.
Proof.
  intros E. destruct (push_step (cell_by dx) mp_zero (fun x => x) g ok c L f I0 (push1_push_ok g ok F dx dt eta ks Hst)) as (c1 & E1 & Es & Ei & En & Eo).
  rewrite E in E1. injection E1 as <-. pose proof (i_n _ _ _ _ I0) as EN. split; [lia|]. intros p b [Hp Hb]. set (k := block_no g p b).
  assert (Hk : 0 <= k < n_blocks g) by (apply (block_no_lt g ok); assumption).
  pose proof (cnt_mono L k (k + 1) ltac:(lia)) as M. pose proof (cnt_bounds L k) as B0. pose proof (cnt_bounds L (k + 1)) as B1.
  set (l := filter (fun w => fst w =? k) L). exists (map snd l), (map (fun w => f p (snd w)) l).
  assert (Al : alen l = cnt L (k + 1) - cnt L k) by (rewrite cnt_succ; unfold l; lia).
  assert (SK : forall i, 0 <= i < cnt L (k + 1) - cnt L k -> exists w, aget L (cnt L k + i) = Some w /\ aget l i = Some w /\ fst w / n_blocks_per_patch g = p).
  { intros i Hi. pose proof (slice_key L k (i_sorted _ _ _ _ I0) i Hi) as Q. destruct (aget_some L (cnt L k + i) ltac:(lia)) as [w Ew]. rewrite Ew in Q. exists w. split; [exact Ew|]. split; [symmetry; exact Q|].
    assert (Kw : fst w = k) by (apply (cnt_key L k _ w (i_sorted _ _ _ _ I0) Ew); lia).
    destruct (good_patch _ g ok w (i_good _ _ _ _ I0 w (aget_In _ _ _ Ew))) as (Hq & Hc & Ek). rewrite Kw in Ek at 1. unfold k, key in Ek. apply (block_no_inj g ok) in Ek; try assumption; [symmetry; apply Ek|apply (blkpos_range g ok), Hc]. }
  split; [|split].
  - exists (cnt L k), (cnt L (k + 1)). rewrite !(off_get _ mp_zero (fun x => x) g c L I0) by lia. split; [reflexivity|]. split; [reflexivity|]. split; [lia|]. split; [lia|]. split; [rewrite alen_map; exact Al|].
    intros i Hi. destruct (SK i Hi) as (w & E1 & E2 & _). rewrite aget_map, E2. cbn [option_map]. pose proof (i_slot _ _ _ _ I0 _ w E1) as Q. destruct (c_re c); exact Q.
  - exists (cnt L k), (cnt L (k + 1)). rewrite Eo, !(off_get _ mp_zero (fun x => x) g c L I0) by lia. split; [reflexivity|]. split; [reflexivity|]. split; [lia|]. split; [lia|]. split; [rewrite alen_map; exact Al|].
    intros i Hi. assert (Re : c_re c' = false).
    { unfold push_mprts in E. destruct (Z.eqb_spec (c_n c) 0); [lia|]. destruct (push_reads _ _ _ _); [|discriminate]. cbv zeta in E. destruct (c_re c); destruct (run_writes _ _) in E; try discriminate; destruct (run_writes _ _) in E; try discriminate; injection E as <-; reflexivity. }
    rewrite Re, Es. destruct (SK i Hi) as (w & E1 & E2 & E3). rewrite !aget_map, E1, E2. cbn [option_map]. unfold pk. cbv zeta. cbn [snd]. rewrite E3. reflexivity.
  - assert (Q : forall m, (forall w, In w m -> In w L) -> Forall2 (pushed_by (dim_of g) dx dt eta ks (F p)) (map snd m) (map (fun w => f p (snd w)) m)).
    { induction m as [|w m IH]; intros H; cbn [map]; constructor; [apply push1_ok, HK, H; now left|apply IH; intros v Hv; apply H; now right]. }
    apply Q. intros w Hw. apply filter_In in Hw. apply Hw.
Qed.
End Reached.
