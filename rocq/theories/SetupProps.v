(** The theorems about the initial particles (properties C43, C44, C53). *)
From Coq Require Import Reals Lra.
From Flocq Require Import Core.
From Verif Require Import Base Arr RSum IndexerModel RangeModel RangeProofs SetupModel SetupSpec SetupProofs.
Local Open Scope R_scope.

(** C43: full claim -- (1) with real weights the charge put into each cell is that of the density asked for, (2) otherwise
    the number of particles is the density asked for, rounded; (3) with a neutralizing population the charge of every cell
    is zero.  (1) and (2) hold; (3) is false in general and holds under the conditions of [C43_neutral_partial]. *)
Theorem C43_density : forall s init g u off prts, wf_geom g -> offsets_ok s off -> st_frac s = false -> ~ (0 <= st_neutral s < st_npop s)%Z ->
  setup_patch s init g u off = Some prts ->
  forall c k, is_cell g c -> charge_of (of_kind k (prts_in g c prts)) = q_of s k * st_ppud s * density_of s init g c k.
Proof. exact density. Qed.
Print Assumptions C43_density.

Theorem C43_counts : forall s init g u off prts, wf_geom g -> offsets_ok s off -> ~ (0 <= st_neutral s < st_npop s)%Z -> 0 <= st_ppud s ->
  (forall c pop, is_cell g c -> (0 <= pop < st_npop s)%Z -> 0 <= fst (asked s init g c pop) /\ 0 <= u c pop < 1) ->
  setup_patch s init g u off = Some prts ->
  exists n, forall c, is_cell g c ->
    (forall pop, (0 <= pop < st_npop s)%Z -> count_ok s (u c pop) (fst (asked s init g c pop)) (n c pop)) /\
    (forall k, let l := of_kind k (prts_in g c prts) in
      alen l = zsum (map (fun pop => if (snd (asked s init g c pop) =? k)%Z then n c pop else 0%Z) (zrange 0 (st_npop s))) /\
      (st_frac s = true -> charge_of l = IZR (alen l) * q_of s k)).
Proof. exact counts. Qed.
Print Assumptions C43_counts.

(** none of the conversions and asserts fails if the numbers are not too large, so the theorems are not about nothing *)
Theorem C43_succeeds : forall s init g u off, wf_geom g -> offsets_ok s off -> 0 <= st_ppud s ->
  (forall c pop, is_cell g c -> (0 <= pop < st_npop s)%Z ->
     0 <= fst (asked s init g c pop) /\ 0 <= u c pop < 1 /\ (exists q, aget (st_q s) (snd (asked s init g c pop)) = Some q) /\
     (pop = st_neutral s -> st_neutral s = (st_npop s - 1)%Z /\ 1 <= Rabs (q_of s (snd (asked s init g c pop))))) ->
  (forall c, is_cell g c -> rsum (map (fun pop => bound s (asked s init g c pop)) (zrange 0 (st_npop s))) < 2 ^ 31) ->
  exists prts, setup_patch s init g u off = Some prts.
Proof. exact succeeds. Qed.
Print Assumptions C43_succeeds.

(** with a neutralizing population: its charge number divides the others' and has the opposite sign.  Then the numbers of
    particles balance, and the charges if all weights are 1.  Missing: other charges, and real weights. *)
Theorem C43_neutral_partial : forall s init g u off prts z, wf_geom g -> offsets_ok s off -> 0 <= st_ppud s -> integer_charges s z ->
  (0 <= st_neutral s)%Z -> st_neutral s = (st_npop s - 1)%Z ->
  setup_patch s init g u off = Some prts ->
  forall c, is_cell g c -> let zl := z (snd (asked s init g c (st_neutral s))) in
  (forall pop, (0 <= pop < st_neutral s)%Z -> 0 <= fst (asked s init g c pop) /\ 0 <= u c pop < 1 /\
      (zl | z (snd (asked s init g c pop)))%Z /\ (zl * z (snd (asked s init g c pop)) <= 0)%Z) ->
  rsum (map (fun p => q_of s (sp_kind p)) (prts_in g c prts)) = 0 /\
  (st_frac s = true -> charge_of (prts_in g c prts) = 0).
Proof. exact neutral. Qed.
Print Assumptions C43_neutral_partial.

(** ** examples *)

(** a patch of 2 x 1 x 3 cells, invariant in the second direction; electrons and ions; the density changes from cell to cell *)
Definition g_ex : sgeom := {| sg_ld := v3 2%Z 1%Z 3%Z; sg_inv := v3 false true false; sg_dx := v3 (/ 2) 1 (/ 4); sg_xb := v3 1 0 2; sg_xe := v3 2 1 (11 / 4) |}.
Definition s_ex (neutral : Z) (frac : bool) : setup_prm :=
  {| st_q := [-1; 1]; st_ppud := 10; st_npop := 2; st_neutral := neutral; st_frac := frac; st_center := CC; st_random := true |}.
Definition init_ex : init_t := fun pop pos index kind => (IZR (c0 index) + / 3, kind).
Definition off_ex : V3 Z -> Z -> Z -> dim3 -> R := fun _ _ n _ => / (IZR (2 + Z.abs n)) - / 2.
Definition u_ex : V3 Z -> Z -> R := fun _ _ => / 2.

Lemma g_ex_wf : wf_geom g_ex.
Proof. intros []; cbn; repeat split; try lia; lra. Qed.

Lemma off_ex_ok n f : offsets_ok (s_ex n f) off_ex.
Proof.
  intros c k m d. cbn. unfold off_ex. assert (B : 2 <= IZR (2 + Z.abs m)) by (apply IZR_le; lia).
  assert (0 < / IZR (2 + Z.abs m)) by (apply Rinv_0_lt_compat; lra).
  assert (/ IZR (2 + Z.abs m) <= / 2) by (apply Rinv_le; lra). split; lra.
Qed.

Lemma asked_ex n f c pop : (0 <= pop < 2)%Z -> asked (s_ex n f) init_ex g_ex c pop = (IZR (c0 c) + / 3, pop).
Proof. intros H. unfold asked, init_ex, s_ex. cbn [st_q]. destruct (Z.ltb_spec pop (alen [-1; 1])); [reflexivity|]. unfold alen in *. cbn in *. lia. Qed.

Lemma c_ex c : is_cell g_ex c -> 0 <= IZR (c0 c) <= 1.
Proof. intros C. specialize (C D0). cbn in C. split; [apply (IZR_le 0)|apply (IZR_le _ 1)]; lia. Qed.

Lemma q_ex n f pop : (0 <= pop < 2)%Z -> aget (st_q (s_ex n f)) pop = Some (if (pop =? 0)%Z then -1 else 1).
Proof. intros H. assert (pop = 0 \/ pop = 1)%Z as [->| ->] by lia; reflexivity. Qed.

Lemma ex_succeeds n f : (n < 0)%Z \/ n = 1%Z -> exists prts, setup_patch (s_ex n f) init_ex g_ex u_ex off_ex = Some prts.
Proof.
  intros Hn. apply C43_succeeds; [apply g_ex_wf|apply off_ex_ok|cbn; lra| |].
  - intros c pop C Hpop. cbn [st_npop s_ex] in Hpop. rewrite asked_ex by exact Hpop. cbn [fst snd]. pose proof (c_ex c C). unfold u_ex.
    rewrite q_ex by exact Hpop. repeat split; try lra; [eexists; reflexivity| |]; cbn [st_neutral st_npop s_ex] in *; intros; subst; [lia|].
    unfold q_of. rewrite q_ex by exact Hpop. destruct (Z.eqb_spec n 0); [lia|]. rewrite Rabs_R1. lra.
  - intros c C. change (zrange 0 (st_npop (s_ex n f))) with [0; 1]%Z. cbn [map]. rewrite !rsum_cons. cbn [rsum fold_right]. rewrite !asked_ex by lia.
    unfold bound, q_of. cbn [fst snd]. rewrite !q_ex by lia. cbn [Z.eqb st_ppud s_ex]. pose proof (c_ex c C).
    replace (-1) with (- (1)) by lra. rewrite Rabs_Ropp, Rabs_R1. lra.
Qed.

Example ex_C43_density : wf_geom g_ex /\ offsets_ok (s_ex (-1) false) off_ex /\ ~ (0 <= st_neutral (s_ex (-1) false) < st_npop (s_ex (-1) false))%Z /\
  (exists prts, setup_patch (s_ex (-1) false) init_ex g_ex u_ex off_ex = Some prts) /\ is_cell g_ex (v3 1 0 2)%Z /\
  q_of (s_ex (-1) false) 1 * 10 * density_of (s_ex (-1) false) init_ex g_ex (v3 1 0 2)%Z 1 = 40 / 3.
Proof.
  split; [apply g_ex_wf|]. split; [apply off_ex_ok|]. split; [cbn; lia|]. split; [apply ex_succeeds; lia|]. split; [intros []; cbn; lia|].
  unfold density_of. change (zrange 0 (st_npop (s_ex (-1) false))) with [0; 1]%Z. cbn [map]. rewrite !asked_ex by lia. rewrite !rsum_cons.
  cbn [fst snd Z.eqb Pos.eqb rsum fold_right]. unfold q_of. rewrite q_ex by lia. cbn. lra.
Qed.

Example ex_C43_counts : (forall c pop, is_cell g_ex c -> (0 <= pop < 2)%Z -> 0 <= fst (asked (s_ex (-1) true) init_ex g_ex c pop) /\ 0 <= u_ex c pop < 1) /\
  (exists prts, setup_patch (s_ex (-1) true) init_ex g_ex u_ex off_ex = Some prts) /\ 0 <= st_ppud (s_ex (-1) true).
Proof.
  split; [|split; [apply ex_succeeds; lia|cbn; lra]]. intros c pop C Hp. rewrite asked_ex by exact Hp. cbn [fst]. pose proof (c_ex c C). unfold u_ex. lra.
Qed.

Example ex_C43_succeeds : exists prts, setup_patch (s_ex 1 true) init_ex g_ex u_ex off_ex = Some prts.
Proof. apply ex_succeeds. lia. Qed.

Example ex_C43_neutral : let z := fun k => (2 * k - 1)%Z in
  integer_charges (s_ex 1 true) z /\ st_neutral (s_ex 1 true) = (st_npop (s_ex 1 true) - 1)%Z /\
  (exists prts, setup_patch (s_ex 1 true) init_ex g_ex u_ex off_ex = Some prts) /\ is_cell g_ex (v3 1 0 2)%Z /\
  (z (snd (asked (s_ex 1 true) init_ex g_ex (v3 1 0 2)%Z 1)) | z (snd (asked (s_ex 1 true) init_ex g_ex (v3 1 0 2)%Z 0)))%Z /\
  (z (snd (asked (s_ex 1 true) init_ex g_ex (v3 1 0 2)%Z 1)) * z (snd (asked (s_ex 1 true) init_ex g_ex (v3 1 0 2)%Z 0)) <= 0)%Z.
Proof.
  cbv zeta. split.
  - intros k q Q. assert (K : (0 <= k < 2)%Z) by (pose proof (aget_bounds _ _ _ Q) as B; unfold alen in B; cbn in B; lia).
    rewrite q_ex in Q by exact K. injection Q as <-. assert (k = 0 \/ k = 1)%Z as [->| ->] by lia; cbn; lra.
  - split; [reflexivity|]. split; [apply ex_succeeds; lia|]. split; [intros []; cbn; lia|]. rewrite !asked_ex by lia. cbn. split; [apply Z.divide_1_l|lia].
Qed.

(** ** where neutrality fails *)

(** one cell, constant density d of every population, charges qs *)
Definition g_1 : sgeom := {| sg_ld := v3 1%Z 1%Z 1%Z; sg_inv := v3 false false false; sg_dx := v3 1 1 1; sg_xb := v3 0 0 0; sg_xe := v3 1 1 1 |}.
Definition s_1 (qs : list R) (neutral : Z) (frac : bool) : setup_prm :=
  {| st_q := qs; st_ppud := 10; st_npop := alen qs; st_neutral := neutral; st_frac := frac; st_center := CC; st_random := false |}.
Definition init_1 (ds : list R) : init_t := fun pop pos index kind => (match aget ds pop with Some d => d | None => 0 end, kind).
Definition zero_off : V3 Z -> Z -> Z -> dim3 -> R := fun _ _ _ _ => 0.

Lemma g_1_wf : wf_geom g_1.
Proof. intros []; cbn; repeat split; try lia; lra. Qed.

Lemma zero_off_ok qs n f : offsets_ok (s_1 qs n f) zero_off.
Proof. intros c k m d. cbn. unfold zero_off. lra. Qed.

Lemma to_int_val x k : x = IZR k -> is_int k = true -> to_int x = Some k.
Proof. intros -> H. unfold to_int, int_op. rewrite Ztrunc_IZR, H. reflexivity. Qed.

Lemma to_int_pos x k : IZR k <= x < IZR k + 1 -> 0 <= x -> is_int k = true -> to_int x = Some k.
Proof. intros H P I. unfold to_int, int_op. rewrite Ztrunc_floor by exact P. rewrite (Zfloor_imp k) by (rewrite plus_IZR; exact H). rewrite I. reflexivity. Qed.

Lemma one_cell s init u ps : cell_pops s init g_1 u (v3 0 0 0)%Z = Some ps ->
  op_cellwise s init g_1 u = Some (map (pair (v3 0 0 0)%Z) ps).
Proof.
  intros H. unfold op_cellwise. change (cells_of (sg_ld g_1)) with (Some [[0; 0; 0]%Z]). cbn [map all_some idx3 nth].
  change (idx3 [0; 0; 0]%Z) with (v3 0 0 0)%Z. rewrite H. cbn. rewrite app_nil_r. reflexivity.
Qed.

Lemma one_cell_prts s init u off ps : offsets_ok s off -> cell_pops s init g_1 u (v3 0 0 0)%Z = Some ps ->
  setup_patch s init g_1 u off = Some (made_all s g_1 off (v3 0 0 0)%Z ps) /\
  prts_in g_1 (v3 0 0 0)%Z (made_all s g_1 off (v3 0 0 0)%Z ps) = made_all s g_1 off (v3 0 0 0)%Z ps.
Proof.
  intros O H. assert (C : is_cell g_1 (v3 0 0 0)%Z) by (intros []; cbn; lia).
  destruct (setup_patch_made s init g_1 u off g_1_wf O _ (one_cell s init u ps H)) as [qs [Q E]].
  change (cell_list (sg_ld g_1)) with [v3 0 0 0]%Z in E. cbn [flat_map] in E. rewrite app_nil_r in E.
  rewrite (Q _ C) in H. injection H as <-. split; [exact E|].
  destruct (setup_cells s init g_1 u off _ g_1_wf O E) as [ps' [Q' [K _]]]. rewrite (K _ C). f_equal. specialize (Q' _ C). rewrite (Q _ C) in Q'. injection Q' as <-. reflexivity.
Qed.

Lemma n_in_cell_frac d x n : d <> 0 -> d * x = IZR n -> is_int n = true -> n_in_cell d x true 0 = Some n.
Proof. intros D E I. unfold n_in_cell. destruct (Req_EM_T d 0); [contradiction|]. apply to_int_val; [lra|exact I]. Qed.

Lemma n_in_cell_real d x u n : d <> 0 -> d * x = IZR n -> (1 <= n)%Z -> is_int n = true -> n_in_cell d x false u = Some n.
Proof.
  intros D E P I. unfold n_in_cell. destruct (Req_EM_T d 0); [contradiction|]. pose proof (IZR_le _ _ P).
  rewrite (to_int_pos _ n) by (exact I || lra). cbn [option_map]. f_equal. lia.
Qed.

Lemma step_plain s init pos c u n_q pop d k n q m : init pop pos c (if (pop <? alen (st_q s))%Z then pop else 0%Z) = (d, k) ->
  (pop =? st_neutral s)%Z = false -> n_in_cell d (st_ppud s) (st_frac s) (u pop) = Some n -> aget (st_q s) k = Some q ->
  IZR n_q + q * IZR n = IZR m -> is_int m = true -> pop_step s init pos c u n_q pop = Some ({| po_n := n; po_density := d; po_kind := k |}, m).
Proof. intros E N H Q M I. unfold pop_step. rewrite E, N, H, Q. cbn [negb]. rewrite (to_int_val _ m M I). reflexivity. Qed.

Lemma step_neutral s init pos c u n_q pop d k q n : init pop pos c (if (pop <? alen (st_q s))%Z then pop else 0%Z) = (d, k) ->
  (pop =? st_neutral s)%Z = true -> (st_neutral s =? st_npop s - 1)%Z = true -> aget (st_q s) k = Some q -> q <> 0 ->
  to_int (IZR (- n_q) / q) = Some n -> pop_step s init pos c u n_q pop = Some ({| po_n := n; po_density := d; po_kind := k |}, n_q).
Proof. intros E N L Q Q0 T. unfold pop_step. rewrite E, N, L, Q. cbn [negb]. destruct (Req_EM_T q 0); [contradiction|]. rewrite T. reflexivity. Qed.

(** weights 1; ten electrons of charge -1, neutralized by ions of charge 3: only three of them are created.  And real
    weights, where the neutralizing ions are given their density *)
Theorem C43_neutral_refuted :
  (exists s init g u off prts c, wf_geom g /\ offsets_ok s off /\ (0 <= st_neutral s)%Z /\ st_neutral s = (st_npop s - 1)%Z /\ st_frac s = true /\
     is_cell g c /\ setup_patch s init g u off = Some prts /\ charge_of (prts_in g c prts) = -1) /\
  (exists s init g u off prts c, wf_geom g /\ offsets_ok s off /\ (0 <= st_neutral s)%Z /\ st_neutral s = (st_npop s - 1)%Z /\ st_frac s = false /\
     is_cell g c /\ setup_patch s init g u off = Some prts /\ charge_of (prts_in g c prts) = 10).
Proof.
  split.
  - assert (P : cell_pops (s_1 [-1; 3] 1 true) (init_1 [1; 1]) g_1 (fun _ _ => 0) (v3 0 0 0)%Z =
       Some [ {| po_n := 10; po_density := 1; po_kind := 0 |}; {| po_n := 3; po_density := 1; po_kind := 1 |} ]).
    { unfold cell_pops. change (zrange 0 (st_npop (s_1 [-1; 3] 1 true))) with [0; 1]%Z. cbn [pops_loop].
      rewrite (step_plain _ _ _ _ _ 0 0 1 0 10 (-1) (-10)) by (reflexivity || lra || (apply n_in_cell_frac; [lra|cbn; lra|reflexivity])).
      rewrite (step_neutral _ _ _ _ _ (-10) 1 1 1 3 3) by (reflexivity || lra || (apply to_int_pos; [cbn; lra|cbn; lra|reflexivity])). reflexivity. }
    destruct (one_cell_prts _ _ _ _ _ (zero_off_ok _ _ _) P) as [S I].
    do 6 eexists. exists (v3 0 0 0)%Z. split; [exact g_1_wf|]. split; [|split; [|split; [|split; [|split; [|split; [exact S|]]]]]];
      [apply zero_off_ok|cbn; lia|reflexivity|reflexivity|intros []; cbn; lia|].
    rewrite I, charge_made_all. cbn. change (q_of (s_1 [-1; 3] 1 true) 1) with 3. lra.
  - assert (P : cell_pops (s_1 [-1; 1] 1 false) (init_1 [1; 2]) g_1 (fun _ _ => 0) (v3 0 0 0)%Z =
       Some [ {| po_n := 10; po_density := 1; po_kind := 0 |}; {| po_n := 10; po_density := 2; po_kind := 1 |} ]).
    { unfold cell_pops. change (zrange 0 (st_npop (s_1 [-1; 1] 1 false))) with [0; 1]%Z. cbn [pops_loop].
      rewrite (step_plain _ _ _ _ _ 0 0 1 0 10 (-1) (-10)) by (reflexivity || lra || (apply n_in_cell_real; [lra|cbn; lra|lia|reflexivity])).
      rewrite (step_neutral _ _ _ _ _ (-10) 1 2 1 1 10) by (reflexivity || lra || (apply to_int_pos; [cbn; lra|cbn; lra|reflexivity])). reflexivity. }
    destruct (one_cell_prts _ _ _ _ _ (zero_off_ok _ _ _) P) as [S I].
    do 6 eexists. exists (v3 0 0 0)%Z. split; [exact g_1_wf|]. split; [|split; [|split; [|split; [|split; [|split; [exact S|]]]]]];
      [apply zero_off_ok|cbn; lia|reflexivity|reflexivity|intros []; cbn; lia|].
    rewrite I, charge_made_all. cbn. change (q_of (s_1 [-1; 1] 1 false) 1) with 1. lra.
Qed.
Print Assumptions C43_neutral_refuted.

(** C44: full claim -- without random rounding, the estimate used for balancing is the number of particles created.  It
    holds if there is no neutralizing population, or its charge is opposite to that of all others (then none of the
    numbers is negative); ql is the neutralizing charge.  The random numbers drawn play no role. *)
Theorem C44_estimate_partial : forall s init g u u' off prts, wf_geom g -> offsets_ok s off -> 0 <= st_ppud s -> st_frac s = false ->
  (forall c, is_cell g c -> exists ql, forall pop, (0 <= pop < st_npop s)%Z ->
      (pop <> st_neutral s -> 0 <= fst (asked s init g c pop) /\ ql * q_of s (snd (asked s init g c pop)) <= 0) /\
      (pop = st_neutral s -> ql = q_of s (snd (asked s init g c pop)))) ->
  setup_patch s init g u off = Some prts -> (alen prts < 2 ^ 32)%Z ->
  partition_patch s init g u' = Some (alen prts).
Proof. exact estimate. Qed.
Print Assumptions C44_estimate_partial.

Example ex_C44 : (exists prts, setup_patch (s_ex 1 false) init_ex g_ex u_ex off_ex = Some prts) /\
  (forall c, is_cell g_ex c -> exists ql, forall pop, (0 <= pop < st_npop (s_ex 1 false))%Z ->
      (pop <> 1%Z -> 0 <= fst (asked (s_ex 1 false) init_ex g_ex c pop) /\ ql * q_of (s_ex 1 false) (snd (asked (s_ex 1 false) init_ex g_ex c pop)) <= 0) /\
      (pop = 1%Z -> ql = q_of (s_ex 1 false) (snd (asked (s_ex 1 false) init_ex g_ex c pop)))).
Proof.
  split; [apply ex_succeeds; lia|]. intros c C. exists 1. intros pop Hp. cbn [st_npop s_ex] in Hp. rewrite asked_ex by exact Hp. cbn [fst snd].
  unfold q_of. rewrite q_ex by exact Hp. pose proof (c_ex c C). destruct (Z.eqb_spec pop 0); split; intros; try lia; lra.
Qed.

(** electrons (density 2), ions (density 1) and an electron population that is to neutralize: its number comes out as
    -10.  No such particles are created, but the estimate is lower by 10. *)
Theorem C44_estimate_refuted : exists s init g u off prts n, wf_geom g /\ offsets_ok s off /\ 0 <= st_ppud s /\ st_frac s = false /\
  (forall c pop, 0 <= fst (asked s init g c pop)) /\
  setup_patch s init g u off = Some prts /\ (alen prts < 2 ^ 32)%Z /\ partition_patch s init g u = Some n /\ n <> alen prts.
Proof.
  assert (P : cell_pops (s_1 [-1; 1; -1] 2 false) (init_1 [2; 1; 1]) g_1 (fun _ _ => 0) (v3 0 0 0)%Z =
     Some [ {| po_n := 20; po_density := 2; po_kind := 0 |}; {| po_n := 10; po_density := 1; po_kind := 1 |}; {| po_n := -10; po_density := 1; po_kind := 2 |} ]).
  { unfold cell_pops. change (zrange 0 (st_npop (s_1 [-1; 1; -1] 2 false))) with [0; 1; 2]%Z. cbn [pops_loop].
    rewrite (step_plain _ _ _ _ _ 0 0 2 0 20 (-1) (-20)) by (reflexivity || lra || (apply n_in_cell_real; [lra|cbn; lra|lia|reflexivity])).
    rewrite (step_plain _ _ _ _ _ (-20) 1 1 1 10 1 (-10)) by (reflexivity || lra || (apply n_in_cell_real; [lra|cbn; lra|lia|reflexivity])).
    rewrite (step_neutral _ _ _ _ _ (-10) 2 1 2 (-1) (-10)) by (reflexivity || lra || (apply to_int_val; [cbn; lra|reflexivity])). reflexivity. }
  destruct (one_cell_prts _ _ _ _ _ (zero_off_ok _ _ _) P) as [S I].
  exists (s_1 [-1; 1; -1] 2 false), (init_1 [2; 1; 1]), g_1, (fun _ _ => 0), zero_off. do 2 eexists.
  split; [exact g_1_wf|]. split; [apply zero_off_ok|]. split; [cbn; lra|]. split; [reflexivity|].
  split; [intros c pop; unfold asked, init_1; cbn [fst]; destruct (aget [2; 1; 1] pop) as [d|] eqn:A; [|lra]; apply aget_In in A; cbn in A; lra|].
  split; [exact S|]. rewrite alen_made_all. split; [cbn; lia|]. unfold partition_patch. rewrite (one_cell _ _ _ _ P). split; [reflexivity|]. cbn. lia.
Qed.
Print Assumptions C44_estimate_refuted.

(** C53: the particles created have one of the kinds, and are inside their patch, each in one of its cells *)
Theorem C53_placed : forall s init g u off prts, wf_geom g -> offsets_ok s off -> setup_patch s init g u off = Some prts ->
  forall p, In p prts -> (exists q, aget (st_q s) (sp_kind p) = Some q) /\
    (forall d, 0 <= get3 (sp_x p) d < get3 (sg_xe g) d - get3 (sg_xb g) d) /\ exists c, is_cell g c /\ In p (prts_in g c prts).
Proof. exact placed. Qed.
Print Assumptions C53_placed.

Example ex_C53 : wf_geom g_ex /\ offsets_ok (s_ex (-1) false) off_ex /\ exists prts, setup_patch (s_ex (-1) false) init_ex g_ex u_ex off_ex = Some prts.
Proof. split; [apply g_ex_wf|]. split; [apply off_ex_ok|]. apply ex_succeeds. lia. Qed.
