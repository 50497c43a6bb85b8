(** C30: Gauss's law over any number of steps. *)
From Coq Require Import Reals Lra Psatz.
From Flocq Require Import Core.
From Verif Require Import Base Arr RSum DomainModel DomainSpec BndPrtModel DdcPrtModel DdcPrtSpec DdcPrtProofs GhostModel GhostSpec GhostProofs FieldModel FieldSpec MarderProofs DepositModel DepositProofs CurrentModel EsirkModel GaussModel GaussSpec GaussProofs.
Local Open Scope R_scope.

Section Facts.
  Variables (S : setting) (c : curve) (np gdims : V3 Z) (per : V3 bool) (pr : option (list Z)).
  Hypothesis HR : periodic_run S c np gdims per pr.

  Lemma fct_gd : dm_gdims (s_dm S) = gdims.
  Proof. destruct HR as [(_ & H & _) _]. destruct (dm_parts c np gdims per pr _ _ H) as (_ & -> & _). reflexivity. Qed.

  Lemma fct_ibn : forall d, (0 <= get3 (s_ibn S) d <= get3 (grid_ldims (s_dm S)) d)%Z.
  Proof.
    intros d. destruct HR as [(H1 & H2 & _) (_ & _ & H & _)]. specialize (H d). destruct H as (_ & _ & A & B). rewrite (ld_eq c np gdims per pr _ _ H2), get3_gen3.
    destruct A as [A _]. revert A. generalize (get3 gdims d / get3 np d)%Z. intros z A.
    destruct (get3 (invar_of (s_dim S)) d); [destruct B as (_ & B & _); lia|lia].
  Qed.

  Lemma fct_inv : forall d, if get3 (invar_of (s_dim S)) d then get3 gdims d = 1%Z /\ get3 (s_ibn S) d = 0%Z else (2 <= get3 (s_ibn S) d)%Z.
  Proof.
    intros d. destruct HR as [_ (_ & _ & H & _)]. specialize (H d). destruct H as (_ & _ & _ & B). destruct (get3 (invar_of (s_dim S)) d); [split; apply B|apply B].
  Qed.

  Lemma fct_step : forall d, if get3 (invar_of (s_dim S)) d then match s_sch S with sch_split | sch_zigzag => 2 * s_dt S <= get3 (spacing S) d | _ => True end else s_dt S < get3 (spacing S) d.
  Proof.
    intros d. unfold spacing. rewrite get3_gen3, fct_gd. destruct HR as [_ (_ & _ & H & _)]. specialize (H d). destruct H as (_ & _ & _ & B). destruct (get3 (invar_of (s_dim S)) d); [|apply B].
    destruct B as (B1 & _ & B2). destruct (s_sch S); try exact I; rewrite B1; replace (get3 (s_len S) d / 1) with (get3 (s_len S) d) by field; exact B2.
  Qed.

  Lemma fct_good F P : single_valued S QE F -> particles_inside S P -> good S F P.
  Proof.
    intros HE [H1 H2]. split.
    - intros r p x r' p' x' d V I V' I' X. apply HE; try assumption; intros e; [apply (proj1 (stored_iff (s_dm S) (s_ibn S) x) I e)|apply (proj1 (stored_iff (s_dm S) (s_ibn S) x') I' e)].
    - split; [exact H1|]. intros r p q V Hq d. unfold patch_prts in Hq. destruct (aget (P r) p) as [b|] eqn:Eb; [|destruct Hq].
      unfold spacing. rewrite get3_gen3. exact (H2 r p b q V Eb Hq d).
  Qed.

  Lemma good_fct F P : good S F P -> single_valued S QE F /\ particles_inside S P.
  Proof.
    intros [HE [H1 H2]]. split.
    - intros r p x r' p' x' d V I V' I' X. apply HE; try assumption; apply stored_iff; assumption.
    - split; [exact H1|]. intros r p b q V Eb Hq d. assert (Hq' : In q (patch_prts P r p)) by (unfold patch_prts; rewrite Eb; exact Hq).
      pose proof (H2 r p q V Hq' d) as A. unfold spacing in A. rewrite get3_gen3 in A. exact A.
  Qed.

  Lemma fct_interior x : in_box (grid_ldims (s_dm S)) x -> GhostProofs.interior (s_dm S) x = true.
  Proof. apply (GhostProofs.interior_iff 0). Qed.

  Lemma gauss_run F P F' P' rho rho' : single_valued S QE F -> particles_inside S P -> run S F P F' P' -> 
    (single_valued S QE F' /\ particles_inside S P') /\ (density S P rho -> density S P' rho' ->
    forall r p x, a_patch S r p -> in_box (grid_ldims (s_dm S)) x -> div_at S QE F' r p x - rho' r p x = div_at S QE F r p x - rho r p x).
  Proof.
    intros HE HP H. pose proof (fct_good F P HE HP) as G. pose proof HR as [(H1 & H2 & H3 & H4) (H5 & H6 & H7 & H8 & H9)].
    destruct (run_gauss_law S c np gdims per pr H1 H2 H3 H4 (fun d => proj1 (H5 d)) (fun d => proj1 (H7 d)) fct_inv fct_ibn (fun d => proj1 (proj2 (H7 d))) H6 H8 fct_step
      (fun d => proj1 (proj2 (H5 d))) (fun d => proj2 (proj2 (H5 d))) (fun d => proj2 (proj1 (proj2 (proj2 (H7 d))))) H9 F P F' P' G H) as [G' E].
    split; [apply good_fct; exact G'|]. intros D D' r p x V I. specialize (E r p x V (fct_interior x I)).
    pose proof (density_val S c np gdims per pr H1 H2 H3 H4 (fun d => proj1 (H5 d)) (fun d => proj1 (H7 d)) fct_inv fct_ibn (fun d => proj1 (proj2 (H7 d))) fct_step
      (fun d => proj1 (proj2 (H5 d))) (fun d => proj2 (proj2 (H5 d))) (fun d => proj2 (proj1 (proj2 (proj2 (H7 d)))))) as DV.
    rewrite (DV P rho (proj2 G) D r p x V (fct_interior x I)), (DV P' rho' (proj2 G') D' r p x V (fct_interior x I)). exact E.
  Qed.

  Lemma gauss_step us F P F' P' rho rho' : single_valued S QE F -> particles_inside S P -> step S us F P F' P' -> density S P rho -> density S P' rho' ->
    forall r p x, a_patch S r p -> in_box (grid_ldims (s_dm S)) x -> rho' r p x - rho r p x + s_dt S * div_at S QJ F' r p x = 0.
  Proof.
    intros HE HP H D D' r p x V I. pose proof (fct_good F P HE HP) as G. pose proof HR as [(H1 & H2 & H3 & H4) (H5 & H6 & H7 & H8 & H9)].
    destruct (step_gauss S c np gdims per pr H1 H2 H3 H4 (fun d => proj1 (H5 d)) (fun d => proj1 (H7 d)) fct_inv fct_ibn (fun d => proj1 (proj2 (H7 d))) H6 H8 fct_step
      (fun d => proj1 (proj2 (H5 d))) (fun d => proj2 (proj2 (H5 d))) (fun d => proj2 (proj1 (proj2 (proj2 (H7 d))))) H9 us F P F' P' G H) as [G' E].
    specialize (E r p x V (fct_interior x I)).
    pose proof (density_val S c np gdims per pr H1 H2 H3 H4 (fun d => proj1 (H5 d)) (fun d => proj1 (H7 d)) fct_inv fct_ibn (fun d => proj1 (proj2 (H7 d))) fct_step
      (fun d => proj1 (proj2 (H5 d))) (fun d => proj2 (proj2 (H5 d))) (fun d => proj2 (proj1 (proj2 (proj2 (H7 d)))))) as DV.
    rewrite (DV P rho (proj2 G) D r p x V (fct_interior x I)), (DV P' rho' (proj2 G') D' r p x V (fct_interior x I)). apply E.
  Qed.

  Lemma gauss_progress us F P : scheme_works S -> single_valued S QE F -> particles_inside S P -> one_each us P ->
    (exists F' P', step S us F P F' P') /\ exists rho, density S P rho.
  Proof.
    intros HW HE HP HU. pose proof (fct_good F P HE HP) as G. pose proof HR as [(H1 & H2 & H3 & H4) (H5 & H6 & H7 & H8 & H9)]. unfold scheme_works in HW. split.
    - apply (step_exists S c np gdims per pr H1 H2 H3 H4 (fun d => proj1 (H5 d)) (fun d => proj1 (H7 d)) fct_inv fct_ibn (fun d => proj1 (proj2 (H7 d))) H6 H8 fct_step
        (fun d => proj1 (proj2 (H5 d))) (fun d => proj2 (proj2 (H5 d))) (fun d => proj2 (proj1 (proj2 (proj2 (H7 d))))) H9); [| |exact G|exact HU].
      + destruct (s_sch S) as [| | | |[]|]; exact HW || exact I.
      + destruct (s_sch S) as [| | | |[]|]; try exact I. intros d E. unfold spacing. rewrite get3_gen3. exact (HW d E).
    - apply (density_exists S c np gdims per pr); try assumption; first [exact fct_ibn|apply G|idtac].
  Qed.

  Lemma max_err_ext e e' : (forall r p x, a_patch S r p -> in_box (grid_ldims (s_dm S)) x -> e r p x = e' r p x) -> max_err S e = max_err S e'.
  Proof.
    intros H. unfold max_err. f_equal. rewrite !flat_map_concat_map. f_equal. apply map_ext_in. intros r Hr. rewrite !flat_map_concat_map. f_equal. apply map_ext_in. intros p Hp.
    rewrite !flat_map_concat_map. f_equal. apply map_ext_in. intros k Hk. rewrite !flat_map_concat_map. f_equal. apply map_ext_in. intros j Hj. apply map_ext_in. intros i Hi.
    apply in_zrange in Hr, Hp, Hk, Hj, Hi. rewrite H; [reflexivity|split; assumption|]. intros d; destruct d; cbn [get3 c0 c1 c2]; assumption.
  Qed.

  Lemma max_err_zero e : (forall r p x, a_patch S r p -> in_box (grid_ldims (s_dm S)) x -> e r p x = 0) -> max_err S e = 0.
  Proof.
    intros H. rewrite (max_err_ext e (fun _ _ _ => 0) H). unfold max_err.
    assert (Z0 : forall l, (forall y, In y l -> y = 0) -> fold_right Rmax 0 l = 0).
    { induction l as [|a l IH]; intros A; [reflexivity|]. cbn [fold_right]. rewrite IH by (intros y Hy; apply A; right; exact Hy). rewrite (A a) by (left; reflexivity). apply Rmax_left; lra. }
    apply Z0.
    intros y Hy. repeat (apply in_flat_map in Hy; destruct Hy as (? & _ & Hy)). apply in_map_iff in Hy. destruct Hy as (? & <- & _). apply Rabs_R0.
  Qed.
End Facts.

(** ** C30 *)

(** After any number of steps of the whole system, with particles sorted and collided in
    between and pushed to whatever momenta, div E - rho is at every point of every patch what it was at the
    start; and the hypotheses hold again. *)
Theorem C30_gauss : forall S c np gdims per pr F P F' P' rho rho', periodic_run S c np gdims per pr ->
  single_valued S QE F -> particles_inside S P -> run S F P F' P' ->
  (single_valued S QE F' /\ particles_inside S P') /\ (density S P rho -> density S P' rho' ->
  forall r p x, a_patch S r p -> in_box (grid_ldims (s_dm S)) x -> div_at S QE F' r p x - rho' r p x = div_at S QE F r p x - rho r p x).
Proof. intros S c np gdims per pr F P F' P' rho rho' HR. exact (gauss_run S c np gdims per pr HR F P F' P' rho rho'). Qed.
Print Assumptions C30_gauss.

(** in each step the density changes by the divergence of the current *)
Theorem C30_continuity : forall S c np gdims per pr us F P F' P' rho rho', periodic_run S c np gdims per pr ->
  single_valued S QE F -> particles_inside S P -> step S us F P F' P' -> density S P rho -> density S P' rho' ->
  forall r p x, a_patch S r p -> in_box (grid_ldims (s_dm S)) x -> rho' r p x - rho r p x + s_dt S * div_at S QJ F' r p x = 0.
Proof. intros S c np gdims per pr us F P F' P' rho rho' HR. exact (gauss_step S c np gdims per pr HR us F P F' P' rho rho'). Qed.
Print Assumptions C30_continuity.

(** from every such state, for all new momenta, a step can be made, in which no array is indexed
    out of bounds, every message is received and no assertion fails; and the density can be computed *)
Theorem C30_progress : forall S c np gdims per pr us F P, periodic_run S c np gdims per pr -> scheme_works S ->
  single_valued S QE F -> particles_inside S P -> one_each us P ->
  (exists F' P', step S us F P F' P') /\ exists rho, density S P rho.
Proof. intros S c np gdims per pr us F P HR. exact (gauss_progress S c np gdims per pr HR us F P). Qed.
Print Assumptions C30_progress.

(** what the checks of the code report: the error of Gauss's law stays as it is, that of
    continuity is zero *)
Theorem C30_checks : forall S c np gdims per pr F P, periodic_run S c np gdims per pr -> single_valued S QE F -> particles_inside S P ->
  (forall F' P' e e', run S F P F' P' -> gauss_check S F P e -> gauss_check S F' P' e' -> e' = e) /\
  (forall us F' P' e, step S us F P F' P' -> continuity_check S P F' P' e -> e = 0).
Proof.
  intros S c np gdims per pr F P HR HE HP. split.
  - intros F' P' e e' H (rho & D & ->) (rho' & D' & ->). apply (max_err_ext S). intros r p x V I. rewrite !div_nc_minus. exact (proj2 (gauss_run S c np gdims per pr HR F P F' P' rho rho' HE HP H) D D' r p x V I).
  - intros us F' P' e H (rho & rho' & D & D' & ->). apply (max_err_zero S). intros r p x V I. rewrite div_nc_minus. exact (gauss_step S c np gdims per pr HR us F P F' P' rho rho' HE HP H D D' r p x V I).
Qed.
Print Assumptions C30_checks.

(** ** examples *)

(** two patches of 4 x 8 cells on two processes; a field that varies; a particle that will cross to the other
    process and one that will cross the periodic boundary *)
Definition ex_dm : domain := ltac:(let x := eval vm_compute in (domain_setup CURVE_BYDIM (v3 1 2 1)%Z (v3 1 8 8)%Z (v3 true true true) None 2) in match x with Some ?d => exact d end).
Definition ex_S : setting := Setting ex_dm 2 dim_yz (v3 0 2 2)%Z (v3 1 8 8) (v3 0 0 0) (v3 PRT_PERIODIC PRT_PERIODIC PRT_PERIODIC) (v3 PRT_PERIODIC PRT_PERIODIC PRT_PERIODIC) (3 / 4) 1 sch_var1.
Definition ex_F (r : Z) : flds R := fun p m x => IZR (m * (global_idx ex_dm (r, p, x) D1 mod 8)).
Definition ex_P (r : Z) : list (list (particle R)) :=
  if (r =? 0)%Z then [[mkP (v3 0 (15 / 4) 1) (v3 0 0 0) (-1); mkP (v3 0 (1 / 4) (31 / 4)) (v3 0 0 0) 1]] else [[]].
Definition ex_us (r p : Z) : list (V3 R) := if (r =? 0)%Z then [v3 0 2 1; v3 0 (-2) 3] else [].

Example ex_C30 : periodic_run ex_S CURVE_BYDIM (v3 1 2 1)%Z (v3 1 8 8)%Z (v3 true true true) None /\ scheme_works ex_S /\
  single_valued ex_S QE ex_F /\ particles_inside ex_S ex_P /\ one_each ex_us ex_P /\
  ex_F 0 0%Z (comp QE D1) (v3 0 1 1)%Z <> ex_F 0 0%Z (comp QE D1) (v3 0 0 1)%Z.
Proof.
  assert (GL : grid_ldims ex_dm = (v3 1 4 8)%Z) by (vm_compute; reflexivity). assert (GD : dm_gdims ex_dm = (v3 1 8 8)%Z) by (vm_compute; reflexivity).
  assert (N : forall r, (0 <= r < 2)%Z -> patches_of ex_dm r = 1%Z) by (intros r Hr; assert (r = 0 \/ r = 1)%Z as [-> | ->] by lia; vm_compute; reflexivity).
  split; [|split; [reflexivity|split; [|split; [|split]]]].
  - unfold periodic_run. cbv zeta. cbn [s_size s_dm s_dim s_lo s_hi s_len s_ibn s_dt s_sch ex_S invar_of]. split.
    { split; [intros []; cbn; lia|]. split; [vm_compute; reflexivity|]. split; [cbn; lia|exact I]. }
    split; [intros []; repeat split; reflexivity|]. split; [right; reflexivity|]. split; [|split; [lra|cbn; lia]].
    intros []; cbn; repeat split; try lia; lra.
  - intros r p x r' p' x' d [Hr Hp] Hx [Hr' Hp'] Hx' Hs. unfold ex_F. f_equal. f_equal. unfold same_point, same_pointb in Hs. rewrite forallb_forall in Hs. specialize (Hs D1 (or_intror (or_introl eq_refl))).
    cbn [s_dm ex_S] in Hs. rewrite GD in Hs. replace (get3 (dm_periodic ex_dm) D1) with true in Hs by (vm_compute; reflexivity). cbn [get3 c1] in Hs. apply Z.eqb_eq in Hs.
    revert Hs. generalize (global_idx ex_dm (r, p, x) D1) (global_idx ex_dm (r', p', x') D1). intros a b Hs. lia.
  - split; [intros r Hr; cbn [s_size s_dm ex_S] in *; rewrite (N r Hr); assert (r = 0 \/ r = 1)%Z as [-> | ->] by lia; reflexivity|].
    intros r p b q [Hr Hp] Eb Hq d. cbn [s_size s_dm s_len ex_S] in *. rewrite GL, GD. rewrite (N r Hr) in Hp. assert (p = 0)%Z as -> by lia. assert (r = 0 \/ r = 1)%Z as [-> | ->] by lia; cbn in Eb; injection Eb as <-; [|destruct Hq].
    destruct Hq as [<- | [<- | []]]; destruct d; cbn; lra.
  - intros r p b Eb. unfold ex_P, ex_us in *. destruct (r =? 0)%Z; pose proof (aget_bounds _ _ _ Eb) as B; cbn in B; assert (p = 0)%Z as -> by lia; cbn in Eb; injection Eb as <-; reflexivity.
  - unfold ex_F. intros H. apply eq_IZR in H. vm_compute in H. discriminate.
Qed.

(** so a step can be made from there, and what the checks find is as said *)
Example ex_C30_step : exists F' P' rho rho', step ex_S ex_us ex_F ex_P F' P' /\ run ex_S ex_F ex_P F' P' /\ density ex_S ex_P rho /\ density ex_S P' rho' /\
  div_at ex_S QE F' 1 0 (v3 0 0 1)%Z - rho' 1%Z 0%Z (v3 0 0 1)%Z = div_at ex_S QE ex_F 1 0 (v3 0 0 1)%Z - rho 1%Z 0%Z (v3 0 0 1)%Z.
Proof.
  destruct ex_C30 as (H1 & H2 & H3 & H4 & H5 & _). destruct (C30_progress _ _ _ _ _ _ _ _ _ H1 H2 H3 H4 H5) as [(F' & P' & Hs) [rho D]].
  assert (HR : run ex_S ex_F ex_P F' P') by (exact (run_step _ _ _ _ _ _ _ _ (run_refl _ _ _) Hs)).
  destruct (C30_gauss _ _ _ _ _ _ ex_F ex_P F' P' rho rho H1 H3 H4 HR) as [[G1 G2] _].
  destruct (C30_progress _ _ _ _ _ _ (fun r p => match aget (P' r) p with Some b => map p_u b | None => [] end) _ _ H1 H2 G1 G2) as [_ [rho' D']].
  { intros r p b Eb. rewrite Eb. apply map_length. }
  exists F', P', rho, rho'. repeat (split; [assumption|]). apply (proj2 (C30_gauss _ _ _ _ _ _ ex_F ex_P F' P' rho rho' H1 H3 H4 HR) D D').
  - split; vm_compute; intuition discriminate.
  - intros []; vm_compute; intuition discriminate.
Qed.

(** three dimensions, second order *)
Definition ex_dm3 : domain := ltac:(let x := eval vm_compute in (domain_setup CURVE_BYDIM (v3 2 1 1)%Z (v3 8 8 8)%Z (v3 true true true) None 2) in match x with Some ?d => exact d end).
Definition ex_S3 : setting := Setting ex_dm3 2 dim_xyz (v3 2 2 2)%Z (v3 8 8 8) (v3 0 0 0) (v3 PRT_PERIODIC PRT_PERIODIC PRT_PERIODIC) (v3 PRT_PERIODIC PRT_PERIODIC PRT_PERIODIC) (1 / 2) 1 (sch_esirk o2nd).
Example ex_C30_3d : periodic_run ex_S3 CURVE_BYDIM (v3 2 1 1)%Z (v3 8 8 8)%Z (v3 true true true) None /\ scheme_works ex_S3.
Proof.
  assert (GD : dm_gdims ex_dm3 = (v3 8 8 8)%Z) by (vm_compute; reflexivity). split.
  - unfold periodic_run. cbv zeta. cbn [s_size s_dm s_dim s_lo s_hi s_len s_ibn s_dt s_sch ex_S3 invar_of]. split.
    { split; [intros []; cbn; lia|]. split; [vm_compute; reflexivity|]. split; [cbn; lia|exact I]. }
    split; [intros []; repeat split; reflexivity|]. split; [left; reflexivity|]. split; [|split; [lra|cbn; lia]].
    intros []; cbn; repeat split; try lia; lra.
  - intros d _. right. cbn [s_dm s_len s_dt ex_S3]. rewrite GD. destruct d; cbn; lra.
Qed.
