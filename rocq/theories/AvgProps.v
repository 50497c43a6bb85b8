(** C60, C61: the current is the time average of the moving charge; current deposition on the GPU. *)
From Coq Require Import Reals Lra Psatz.
From Flocq Require Import Core.
From Coquelicot Require Import Coquelicot.
From Verif Require Import Base RSum FieldModel FieldSpec DepositModel DepositSpec DepositProofs CurrentModel CurrentProofs CurrentVar1Proofs PushSpec TotalSpec TotalProofs DepositProps AvgSpec AvgProofs CudaCurrModel CudaCurrProofs.
Local Open Scope R_scope.

(** ** C60 *)

Theorem C60_split_xyz : forall g q xm xp v d, let inv := invar_of dim_xyz in wf_cg g -> short_step inv xm xp ->
  averages g q inv xm (displacement g inv v xm xp) (calc_j_split g vb_xyz q xm xp v) d.
Proof.
  intros g q xm xp v d inv Hg H. apply avg_averages. apply (calc_j_split_avg g vb_xyz q xm xp v d Hg); [|apply short_near; exact H].
  intros e; destruct e; discriminate.
Qed.
Print Assumptions C60_split_xyz.

(** the full statement would not restrict the velocity in the invariant direction, for which even
    continuity is false (C24_invariant_refuted).  What is missing: displacements of half a cell and
    more in that direction. *)
Theorem C60_split_partial : forall g dim q xm xp v d, let inv := invar_of (vb_dim_t dim) in wf_cg g -> short_step inv xm xp ->
  (forall e, get3 inv e = true -> Rabs (invar_step g v e) < / 2) ->
  averages g q inv xm (displacement g inv v xm xp) (calc_j_split g dim q xm xp v) d.
Proof. intros g dim q xm xp v d inv Hg H Hv. apply avg_averages. apply (calc_j_split_avg g dim q xm xp v d Hg Hv). apply short_near. exact H. Qed.
Print Assumptions C60_split_partial.

Theorem C60_var1 : forall g q xm xp lf lg v d, let inv := invar_of dim_yz in wf_cg g -> short_step inv xm xp -> cells_of inv xm xp lf lg ->
  averages g q inv xm (displacement g inv v xm xp) (calc_j_var1 g q xm xp lf lg v) d.
Proof. intros g q xm xp lf lg v d inv Hg H Hl. apply avg_averages. apply (calc_j_var1_avg g q xm xp lf lg v d Hg); [apply short_near; exact H|exact Hl]. Qed.
Print Assumptions C60_var1.

(** the full statement for Current1vb2d would hold of all three components; x, out of the plane, is
    missing: nothing is added to it (C54_2d_refuted) *)
Theorem C60_2d_partial : forall g q xm xp lf lg v d, let inv := invar_of dim_yz in wf_cg g -> short_step inv xm xp -> cells_of inv xm xp lf lg -> d <> D0 ->
  averages g q inv xm (displacement g inv v xm xp) (calc_j_2d g q xm xp lf lg) d.
Proof. intros g q xm xp lf lg v d inv Hg H Hl Hd. apply avg_averages. apply (calc_j_2d_avg g q xm xp lf lg v d Hg); [apply short_near; exact H|exact Hd|exact Hl]. Qed.
Print Assumptions C60_2d_partial.

(** hence all of these schemes deposit the same *)
Theorem C60_same : forall g q xm xp lf lg v J d n, let inv := invar_of dim_yz in wf_cg g -> short_step inv xm xp -> cells_of inv xm xp lf lg ->
  Rabs (invar_step g v D0) < / 2 ->
  cadd_all J (calc_j_split g vb_yz q xm xp v) d n = cadd_all J (calc_j_var1 g q xm xp lf lg v) d n.
Proof.
  intros g q xm xp lf lg v J d n inv Hg Hs Hl Hv.
  destruct (C60_split_partial g vb_yz q xm xp v d Hg Hs) with (n := n) as (a & A & EA); [intros []; [intros _; exact Hv|discriminate..]|].
  destruct (C60_var1 g q xm xp lf lg v d Hg Hs Hl n) as (b & B & EB).
  rewrite EA, EB. f_equal. transitivity (RInt (current_at g q inv xm (displacement g inv v xm xp) d n) 0 1); [symmetry|]; apply is_RInt_unique; assumption.
Qed.
Print Assumptions C60_same.

(** a particle that crosses into the cell below in y, and the current it leaves in z there: the
    time average of a linear weight *)
Example ex_C60 : (wf_cg ex_cg /\ short_step (invar_of dim_yz) ex_xm ex_xp /\ cells_of (invar_of dim_yz) ex_xm ex_xp (v3 0 (-1) 0)%Z (v3 0 0 0)%Z /\
    short_step (invar_of dim_xyz) ex_xm ex_xp /\ Rabs (invar_step ex_cg (v3 (1 / 2) (- (3 / 4)) (1 / 2)) D0) < / 2) /\
  is_RInt (current_at ex_cg 1 (invar_of dim_yz) (v3 0 (1 / 2) (1 / 4)) (v3 0 (1 / 4) (1 / 2)) D2 (v3 0 1 0)%Z) 0 1 (5 / 8 * (1 / 2 * c2 ex_h / (1 / 4))).
Proof.
  split; [destruct ex_C24 as (A & B & C & D & E & _); auto|].
  set (K := 1 / 2 * c2 ex_h / (1 / 4)).
  assert (I : is_RInt (fun t => K * (1 / 2 + t * (1 / 4))) 0 1 (K * (1 / 2 * 1 + 1 / 4 * (1 / 2)))).
  { evar_last.
    - apply (is_RInt_derive (fun t => K * (1 / 2 * t + 1 / 4 * (t * t / 2)))).
      + intros t _. auto_derive; [trivial|]. field.
      + intros t _. apply (continuous_mult (fun _ => K)); [apply continuous_const|]. apply (continuous_plus (fun _ => 1 / 2)); [apply continuous_const|].
        apply (continuous_mult (fun t => t) (fun _ => 1 / 4)); [apply continuous_id|apply continuous_const].
    - unfold minus, plus, opp. cbn. lra. }
  replace (5 / 8 * K) with (K * (1 / 2 * 1 + 1 / 4 * (1 / 2))) by lra. refine (is_RInt_ext _ _ _ _ _ _ I). intros t Ht.
  rewrite Rmin_left, Rmax_right in Ht by lra. unfold current_at, weight, path. rewrite !get3_gen3. cbn [invar_of get3 c0 c1 c2 dim3_eqb]. cbv beta.
  cbn [Z.eqb]. unfold inside. destruct (Rle_dec _ _) as [_|N]; [|exfalso; apply N; lra]. destruct (Rlt_dec _ _) as [_|N]; [|exfalso; apply N; lra].
  unfold hat. rewrite Rabs_left by lra. rewrite Rmax_right by lra. cbn [ex_cg cg_fnqs cg_dt cg_dx]. change (get3 ex_h D2) with (c2 ex_h). match goal with |- ?a = ?b => change (@eq R a b) end. unfold K. field.
Qed.

(** ** C61 *)

Lemma cu_xp_arrival g xm v : arrival g v xm = cu_xp g xm v.
Proof. apply v3_ext. intros e. unfold arrival, cu_xp. rewrite !get3_gen3. unfold cu_push_x. rewrite Rmult_1_l. reflexivity. Qed.

Theorem C61_continuity_yz : forall dep g ci0 q xm v, let inv := invar_of dim_yz in wf_cg g -> short_step inv xm (arrival g v xm) ->
  conserves g q inv xm (arrival g v xm) (cu_calc_j_yz dep g ci0 q xm v).
Proof. intros dep g ci0 q xm v inv. rewrite cu_xp_arrival. intros Hg H. apply balances_conserves. apply cu_yz_balances; [exact Hg|apply short_near; exact H]. Qed.
Print Assumptions C61_continuity_yz.

(** the loop of dim_xyz ends after at most four iterations, and all that is wanted of it holds *)
Theorem C61_xyz : forall fuel g ci0 q xm v, let inv := invar_of dim_xyz in let xp := arrival g v xm in (4 <= fuel)%nat -> wf_cg g -> short_step inv xm xp ->
  exists l, cu_calc_j_xyz fuel g ci0 q xm v = Some l /\ conserves g q inv xm xp l /\
    (forall d, averages g q inv xm (displacement g inv v xm xp) l d).
Proof.
  intros fuel g ci0 q xm v inv xp Hf Hg. unfold xp. rewrite cu_xp_arrival. intros H. replace fuel with (4 + (fuel - 4))%nat by lia.
  destruct (cu_calc_j_xyz_ok g ci0 q xm v (fuel - 4) Hg) as (l & El & A & B & T); [intros e; apply H; destruct e; reflexivity|].
  exists l. split; [exact El|]. split; [apply balances_conserves; exact B|]. intros d. apply avg_averages.
  refine (avg_ext _ _ _ _ _ _ _ _ _ d (fun n => eq_refl) (fun e _ => eq_refl) _ (A d)). intros e. unfold displacement. rewrite !get3_gen3. destruct e; reflexivity.
Qed.
Print Assumptions C61_xyz.

(** the full statement would hold of all three components; x, out of the plane, is missing, and it
    is false of it (below) *)
Theorem C61_yz_partial : forall dep g ci0 q xm v d, let inv := invar_of dim_yz in let xp := arrival g v xm in wf_cg g -> short_step inv xm xp -> d <> D0 ->
  averages g q inv xm (displacement g inv v xm xp) (cu_calc_j_yz dep g ci0 q xm v) d.
Proof. intros dep g ci0 q xm v d inv xp Hg. unfold xp. rewrite cu_xp_arrival. intros H Hd. apply avg_averages. apply cu_yz_avg; [exact Hg|apply short_near; exact H|exact Hd]. Qed.
Print Assumptions C61_yz_partial.

(** what is left of it for x: the right total; with DEPOSIT_VB_2D all at the position halfway *)
Theorem C61_total_yz : forall dep g ci0 q xm v d, wf_cg g -> cg_dt g <> 0 ->
  total d (cu_calc_j_yz dep g ci0 q xm v) = q * cg_fnqs g * get3 v d.
Proof. exact total_cu_yz. Qed.
Print Assumptions C61_total_yz.

Theorem C61_2d_midpoint : forall g ci0 q xm v J n,
  let mid := gen3 (fun e => get3 xm e + / 2 * (get3 (arrival g v xm) e - get3 xm e)) in
  cadd_all J (cu_calc_j_yz vb_2d g ci0 q xm v) D0 n = J D0 n + q * cg_fnqs g * c0 v * share hat (invar_of dim_yz) mid n.
Proof.
  intros g ci0 q xm v J n mid. rewrite cadd_all_get. f_equal. rewrite share_get. unfold mid. rewrite cu_xp_arrival, cu_2d_oop.
  cbn [invar_of get3 c0 c1 c2]. unfold delta. ring.
Qed.
Print Assumptions C61_2d_midpoint.

(** of a block from ci0 with bs cells (1 in invariant directions), one point before it and two after *)
Definition near_block (inv : V3 bool) (ci0 bs : V3 Z) (e : entry) : Prop := forall d,
  if get3 inv d then get3 (snd (fst e)) d = 0%Z else (get3 ci0 d - 1 <= get3 (snd (fst e)) d <= get3 ci0 d + get3 bs d + 1)%Z.

Theorem C61_near_block : forall fuel dep g ci0 bs q xm v, (4 <= fuel)%nat -> wf_cg g ->
  let inside := fun inv => (forall e, get3 inv e = false -> IZR (get3 ci0 e) <= get3 xm e < IZR (get3 ci0 e + get3 bs e)) /\ short_step inv xm (arrival g v xm) in
  (inside (invar_of dim_yz) -> Forall (near_block (invar_of dim_yz) ci0 bs) (cu_calc_j_yz dep g ci0 q xm v)) /\
  (inside (invar_of dim_xyz) -> exists l, cu_calc_j_xyz fuel g ci0 q xm v = Some l /\ Forall (near_block (invar_of dim_xyz) ci0 bs) l).
Proof.
  intros fuel dep g ci0 bs q xm v Hf Hg. rewrite cu_xp_arrival. intros inside.
  assert (K : forall inv l, inside inv -> Forall (touches inv xm (cu_xp g xm v)) l -> Forall (near_block inv ci0 bs) l).
  { intros inv l [Hin Hs] H. rewrite Forall_forall in *. intros e He d. specialize (H e He d). cbv zeta in H. destruct (get3 inv d) eqn:E; [exact H|].
    specialize (Hin d E). pose proof (short_near _ _ _ Hs d E) as N. unfold near in N.
    assert (get3 ci0 d <= fint (get3 xm d))%Z by (apply fint_bounds; apply Hin). assert (fint (get3 xm d) < get3 ci0 d + get3 bs d)%Z by (apply fint_bounds_hi; apply Hin). lia. }
  split; intros H.
  - apply K; [exact H|]. apply cu_yz_touches.
  - replace fuel with (4 + (fuel - 4))%nat by lia.
    destruct (cu_calc_j_xyz_ok g ci0 q xm v (fuel - 4) Hg) as (l & El & _ & _ & T); [intros e; apply (proj2 H); destruct e; reflexivity|].
    exists l. split; [exact El|]. apply K; assumption.
Qed.
Print Assumptions C61_near_block.

(** x, out of the plane: a particle that stays in its cell *)
Definition jx_g : cgrid := {| cg_dt := 1 / 2; cg_dx := v3 1 1 1; cg_fnqs := 1 |}.
Definition jx_v : V3 R := v3 (1 / 2) (1 / 2) (1 / 2).
Definition jx_xm : V3 R := v3 0 (1 / 4) (1 / 4).

Lemma jx_got ci0 : jcur (cu_calc_j_yz vb_3d jx_g ci0 1 jx_xm jx_v) D0 (v3 0 1 1)%Z = 1 / 2 * (9 / 64) - 1 / 384.
Proof.
  unfold cu_calc_j_yz, cu_push_x, jx_g, jx_xm, jx_v. cbn [get3 c0 c1 c2 cg_dt cg_dx]. cbv zeta.
  assert (F0 : fint (1 / 4) = 0%Z) by (apply fint_unique; lra). assert (F1 : fint (1 / 4 + 1 * (1 / 2) * (1 / 2) / 1) = 0%Z) by (apply fint_unique; lra).
  rewrite F0, F1. change (0 - 0)%Z with 0%Z. set (b := if Rge_dec _ _ then true else false).
  replace (if b then v3 0 0 0 else v3 0 0 0)%Z with (v3 0 0 0)%Z by (destruct b; reflexivity). cbn [c0 c1 c2]. change (0 - 0)%Z with 0%Z. rewrite !cu_step_zero. cbn [app vs_i vs_x vs_dx].
  unfold cu_cell_yz. cbv zeta. cbn [c0 c1 c2]. rewrite !jcur_app, !jcur_when.
  2-4: intros e He E; exfalso; lra.
  rewrite (jcur_other (_ :: [_]) D0), (jcur_other (_ :: [_]) D0); [|intros e He; cbn [In] in He; in_cases He; discriminate..].
  unfold jcur, cu_add, add, z3. cbn [map fst snd dim3_eqb]. unfold rsum. cbn [fold_right]. unfold delta3, delta. cbn [c0 c1 c2].
  replace (0 - c1 ci0 + c1 ci0)%Z with 0%Z by ring. replace (0 - c2 ci0 + c2 ci0)%Z with 0%Z by ring.
  replace (0 - c1 ci0 + 1 + c1 ci0)%Z with 1%Z by ring. replace (0 - c2 ci0 + 1 + c2 ci0)%Z with 1%Z by ring.
  cbn [Z.eqb Pos.eqb]. unfold cu_fnqs. cbn [get3 cg_dx cg_fnqs cg_dt c0]. lra.
Qed.

Lemma jx_wanted : is_RInt (current_at jx_g 1 (invar_of dim_yz) jx_xm (displacement jx_g (invar_of dim_yz) jx_v jx_xm (arrival jx_g jx_v jx_xm)) D0 (v3 0 1 1)%Z) 0 1
  (1 / 2 * (9 / 64) + 1 / 384).
Proof.
  pose proof (dep1vb_avg vb_yz 2 (v3 1 1 1) (v3 0 0 0)%Z 1 jx_xm (v3 (1 / 4) (1 / 4) (1 / 4)) D0) as K.
  assert (A : avg (invar_of (vb_dim_t vb_yz)) (v3 1 1 1) (1 * 2) (dep1vb vb_yz (gen3 (fun e => 2 * get3 (v3 1 1 1) e)) (v3 0 0 0)%Z 1 (v3 (1 / 4) (1 / 4) (1 / 4))
    (gen3 (fun e => get3 jx_xm e + / 2 * get3 (v3 (1 / 4) (1 / 4) (1 / 4)) e - IZR (get3 (v3 0 0 0)%Z e)))) jx_xm (v3 (1 / 4) (1 / 4) (1 / 4)) D0).
  { apply K. intros []; cbn [vb_dim_t invar_of get3 c0 c1 c2]; [reflexivity| |]; unfold in_cell, jx_xm; cbn [c1 c2]; lra. }
  specialize (A (v3 0 1 1)%Z). clear K.
  replace (jcur _ _ _) with (1 / 2 * (9 / 64) + 1 / 384) in A.
  - replace (displacement jx_g (invar_of dim_yz) jx_v jx_xm (arrival jx_g jx_v jx_xm)) with (v3 (1 / 4) (1 / 4) (1 / 4)).
    + refine (is_RInt_ext _ _ _ _ _ (fun t _ => _) A). unfold current_at. cbn [vb_dim_t]. match goal with |- ?a = ?b => change (@eq R a b) end. unfold jx_g. cbn [get3 c0 cg_dx cg_dt cg_fnqs]. field.
    + apply v3_ext. intros e. unfold displacement, arrival, jx_g, jx_v, jx_xm. rewrite !get3_gen3. destruct e; cbn [invar_of get3 c0 c1 c2 cg_dx cg_dt]; field.
  - unfold jcur, dep1vb, gen3, jx_xm, add, z3. cbn [get3 c0 c1 c2 map fst snd dim3_eqb]. unfold rsum. cbn [fold_right]. unfold delta3, delta. cbn [c0 c1 c2 Z.eqb Z.add Pos.eqb]. lra.
Qed.

Theorem C61_jx_refuted : exists g xm v, wf_cg g /\ dot v v < 1 /\ 0 < cg_dt g /\ short_step (invar_of dim_yz) xm (arrival g v xm) /\
  forall ci0, ~ averages g 1 (invar_of dim_yz) xm (displacement g (invar_of dim_yz) v xm (arrival g v xm)) (cu_calc_j_yz vb_3d g ci0 1 xm v) D0.
Proof.
  exists jx_g, jx_xm, jx_v. split; [intros []; cbn; lra|]. split; [unfold dot, jx_v; cbn [c0 c1 c2]; lra|]. split; [cbn; lra|]. split.
  - intros e He. unfold arrival, jx_g, jx_v, jx_xm. rewrite get3_gen3. destruct e; [discriminate He| |]; cbn [get3 c1 c2 cg_dt cg_dx]; apply Rabs_le; lra.
  - intros ci0 H. destruct (H (v3 0 1 1)%Z) as (a & A & E). specialize (E (fun _ _ => 0)). rewrite cadd_all_get, jx_got in E. cbv beta in E.
    pose proof (is_RInt_unique _ _ _ _ A) as U. rewrite (is_RInt_unique _ _ _ _ jx_wanted) in U. lra.
Qed.
Print Assumptions C61_jx_refuted.

(** the particle of ex_C60 as the GPU has it: it crosses a boundary in x and one in y *)
Definition ex_cv : V3 R := v3 (1 / 2) (- (3 / 4)) (1 / 2).

Example ex_C61 : wf_cg ex_cg /\ cg_dt ex_cg <> 0 /\ arrival ex_cg ex_cv ex_xm = ex_xp /\ short_step (invar_of dim_xyz) ex_xm ex_xp /\ short_step (invar_of dim_yz) ex_xm ex_xp /\
  (forall e, IZR (get3 (v3 0 0 0)%Z e) <= get3 ex_xm e < IZR (get3 (v3 0 0 0)%Z e + get3 (v3 4 4 4)%Z e)) /\
  cu_pick (v3 (3 / 8) (- (3 / 8)) 0) (v3 (1 / 4) (- (3 / 8)) (1 / 4)) = (1 / 3, Some D1).
Proof.
  destruct ex_C24 as (A & B & C & _). split; [exact A|]. split; [cbn; lra|]. split.
  { apply v3_ext. intros e. unfold arrival. rewrite get3_gen3. destruct e; cbn; lra. }
  split; [exact B|]. split; [exact C|]. split; [intros []; cbn; lra|].
  unfold cu_pick, dims3. cbn [fold_left get3 c0 c1 c2 fst snd].
  assert (E0 : cu_frac (3 / 8) (1 / 4) = 1 / 2) by (unfold cu_frac, cu_bnd; destruct (Req_EM_T _ _); [lra|]; destruct (Rgt_dec _ _); lra).
  assert (E1 : cu_frac (- (3 / 8)) (- (3 / 8)) = 1 / 3) by (unfold cu_frac, cu_bnd; destruct (Req_EM_T _ _); [lra|]; destruct (Rgt_dec _ _); [lra|field]).
  assert (E2 : cu_frac 0 (1 / 4) = 2) by (unfold cu_frac, cu_bnd; destruct (Req_EM_T _ _); [lra|]; destruct (Rgt_dec _ _); lra).
  rewrite E0, E1, E2. destruct (Rlt_dec (1 / 2) 1); [|lra]. cbn [fst]. destruct (Rlt_dec (1 / 3) (1 / 2)); [|lra]. cbn [fst]. destruct (Rlt_dec 2 (1 / 3)); [lra|]. reflexivity.
Qed.
