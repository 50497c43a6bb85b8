(** C56: particles injected at the boundary. *)
From Coq Require Import Reals Lra.
From Flocq Require Import Core.
From Verif Require Import Base Arr RSum FieldModel FieldSpec BndPrtModel DepositModel DepositSpec CurrentModel CurrentProofs PushModel SetupModel GaussModel InjectModel InjectSpec InjectProofs.
Local Open Scope R_scope.

(** The full statement would not ask for velocities slower than light, which is false (below): what is missing are draws from the tail of the
    normal distribution.

    The code injects exactly the particles that arrive, each in the first row of cells of the patch; charge is conserved at every point
    if the particles are thought of as coming from below the boundary, and at the points inside (from 1 on) without that. *)
Theorem C56_inject_partial : forall I frac dr, inject_run I -> uniform_ok frac dr -> slower_than_light I dr ->
  let arr := arrivals I frac dr in
  exists l, inject_patch I true frac dr = Some (arr, l) /\ Forall (in_first_row I) arr /\
    (exists st, Forall2 (started I) st arr /\ forall J n,
      (density_at I (map p_x arr) n - density_at I st n) / cg_dt (in_g I) + (div_J I (cadd_all J l) n - div_J I J n) = 0) /\
    (forall J n, (1 <= c1 n)%Z -> density_at I (map p_x arr) n / cg_dt (in_g I) + (div_J I (cadd_all J l) n - div_J I J n) = 0).
Proof.
  intros I frac dr HR HU HL arr. destruct (inject_patch_ok I HR frac dr HU HL) as (l & E & F & st & F2 & B). exists l. split; [exact E|]. split; [exact F|].
  pose proof (dt_ok I HR) as T.
  assert (D : forall J n, div_J I (cadd_all J l) n - div_J I J n = div_J I (jcur l) n).
  { intros J n. unfold div_J. rewrite (div_minus_ext _ _ _ (fun d m => J d m + jcur l d m)) by (intros; apply cadd_all_get). rewrite div_minus_plus. ring. }
  assert (G : forall J n, (density_at I (map p_x arr) n - density_at I st n) / cg_dt (in_g I) + (div_J I (cadd_all J l) n - div_J I J n) = 0).
  { intros J n. rewrite D. specialize (B n). fold arr in B. apply (Rmult_eq_reg_l (cg_dt (in_g I))); [|lra]. rewrite Rmult_0_r, <- B. field. lra. }
  split; [exists st; split; [exact F2|exact G]|]. intros J n Hn. specialize (G J n). rewrite (starts_outside I HR st arr n F2 Hn) in G. rewrite Rminus_0_r in G. exact G.
Qed.
Print Assumptions C56_inject_partial.

Lemma all_some_none {A B} (f : A -> option B) x l : In x l -> f x = None -> all_some (map f l) = None.
Proof.
  intros H E. induction l as [|a l IH]; [contradiction|]. cbn [map all_some]. destruct H as [->|H]; [rewrite E; reflexivity|].
  rewrite (IH H). destruct (f a); reflexivity.
Qed.

(** One draw with a velocity that is not slower than light, in a patch at the boundary, fails an assert (without asserts, a particle is
    injected at a position that is not a number). *)
Theorem C56_fast_draw : forall I frac dr i k n, inject_run I -> uniform_ok frac dr -> in_correct I = true ->
  (0 <= i < c0 (in_ld I))%Z -> (0 <= k < c2 (in_ld I))%Z -> (0 <= n < Zfloor (in_ppud I + frac (v3 i (-1) k)%Z))%Z ->
  1 <= mag2 (dr_u (dr (v3 i (-1) k)%Z n)) -> inject_patch I true frac dr = None.
Proof.
  intros I frac dr i k n HR HU HC Hi Hk Hn HM. unfold inject_patch. rewrite (row_cells I HR). unfold join.
  rewrite (all_some_none _ [i; -1; k]%Z); [reflexivity|apply in_flat_map; exists i; split; [apply in_zrange; exact Hi|apply in_map_iff; exists k; split; [reflexivity|apply in_zrange; exact Hk]]|].
  change (idx3 [i; -1; k]%Z) with (v3 i (-1) k)%Z. unfold inject_cell. rewrite (n_ok I HR) by apply HU. unfold join.
  rewrite (all_some_none _ n); [reflexivity|apply in_zrange; exact Hn|].
  unfold inject_one, generate. rewrite HC. unfold vel_to_4vel. cbv zeta. change (sqr (c0 ?w) + sqr (c1 ?w) + sqr (c2 ?w)) with (mag2 w).
  destruct (Rlt_dec 0 _) as [L|L]; [exfalso; lra|reflexivity].
Qed.
Print Assumptions C56_fast_draw.

(** one cell in x and z; one particle per cell *)
Definition ex_inj : inj := {| in_ld := (v3 1 4 1)%Z; in_ibn := (v3 2 2 2)%Z; in_g := {| cg_dt := / 2; cg_dx := v3 1 1 1; cg_fnqs := 1 |}; in_dim := dim_xyz;
  in_xb := v3 10 0 20; in_xe := v3 11 4 21; in_correct := true; in_q := -1; in_ppud := 1; in_sch := sch_split |}.
Definition ex_draw (vy : R) : V3 Z -> Z -> draw := fun _ _ => {| dr_x := v3 (/ 4) (3 / 4) (/ 2); dr_u := v3 (/ 4) vy 0 |}.

Lemma ex_run : inject_run ex_inj.
Proof.
  split; [left; reflexivity|]. split; [|cbn; lra]. intros d. destruct d; cbn [ex_inj in_ld in_ibn in_g in_dim in_xb in_xe cg_dx get3 c0 c1 c2 invar_of]; repeat split; try lia; lra.
Qed.

Lemma ex_uniform vy : uniform_ok (fun _ => 0) (ex_draw vy).
Proof. intros i. split; [lra|]. intros k d. destruct d; cbn; lra. Qed.

(** a particle with velocity 3/4 from 1/4 below the boundary ends up 1/8 above *)
Example ex_C56_inject : inject_run ex_inj /\ uniform_ok (fun _ => 0) (ex_draw (3 / 4)) /\ slower_than_light ex_inj (ex_draw (3 / 4)) /\
  map p_x (arrivals ex_inj (fun _ => 0) (ex_draw (3 / 4))) = [v3 (/ 4) (/ 8) (/ 2)].
Proof.
  split; [exact ex_run|]. split; [apply ex_uniform|]. split; [intros _ i k; unfold mag2; cbn; lra|].
  unfold arrivals. cbn [ex_inj in_ld in_ppud c0 c2]. change (zrange 0 1) with [0%Z]. cbn [flat_map app].
  replace (1 + 0) with (IZR 1) by (rewrite Rplus_0_r; reflexivity). rewrite Zfloor_IZR. change (zrange 0 1) with [0%Z]. cbn [flat_map app].
  match goal with |- context [Rlt_dec ?a 0] => assert (E : a = / 8) by (cbn [arrives c1 ex_inj in_g cg_dx cg_dt velocity in_correct ex_draw dr_x dr_u get3]; lra); destruct (Rlt_dec a 0) as [L|L]; [exfalso; lra|] end.
  cbn [app map p_x arrived]. f_equal. apply v3_ext. intros d. destruct d; cbn [get3]; [cbn; lra|exact E|cbn; lra].
Qed.

(** with velocity (1/4, 1, 0) the program stops *)
Example ex_C56_fast_draw : 1 <= mag2 (dr_u (ex_draw 1 (v3 0 (-1) 0)%Z 0%Z)) /\ inject_patch ex_inj true (fun _ => 0) (ex_draw 1) = None.
Proof.
  assert (M : 1 <= mag2 (dr_u (ex_draw 1 (v3 0 (-1) 0)%Z 0%Z))) by (unfold mag2; cbn; lra). split; [exact M|].
  apply (C56_fast_draw ex_inj (fun _ => 0) (ex_draw 1) 0 0 0 ex_run (ex_uniform 1) eq_refl); [cbn; lia|cbn; lia| |exact M].
  cbn [ex_inj in_ppud]. replace (1 + 0) with (IZR 1) by (rewrite Rplus_0_r; reflexivity). rewrite Zfloor_IZR. lia.
Qed.

Theorem C56_inject_refuted : exists I frac dr, inject_run I /\ uniform_ok frac dr /\ inject_patch I true frac dr = None.
Proof. exists ex_inj, (fun _ => 0), (ex_draw 1). split; [exact ex_run|]. split; [apply ex_uniform|]. apply ex_C56_fast_draw. Qed.
Print Assumptions C56_inject_refuted.
