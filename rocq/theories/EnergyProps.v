(** C49: energy diagnostics. *)
From Coq Require Import Reals Lra.
From Verif Require Import Base Arr RSum StorageModel DomainModel DomainSpec DdcPrtSpec GhostModel GhostSpec GhostProofs EnergyModel EnergySpec EnergyProofs.
Local Open Scope R_scope.

(** ** Particles *)

(** all particles of all processes *)
Definition everyone (size : Z) (mprts : Z -> list (list prt)) : list prt := flat_map (fun r => concat (mprts r)) (zrange 0 size).
(** the weight of a particle is stored times its charge *)
Definition weight (pt : prt) : R := prt_qni_wni pt / prt_q pt.
Definition energy (fnqs : R) (dx : V3 R) (pt : prt) : R := kinetic (prt_u pt) (prt_m pt) (weight pt) * fnqs * (c0 dx * c1 dx * c2 dx).
Definition negative (pt : prt) : bool := if Rlt_dec (prt_q pt) 0 then true else false.
Definition positive (pt : prt) : bool := if Rlt_dec 0 (prt_q pt) then true else false.

(** without neutral particles the report is the sums over all negative and over all positive particles; neither is negative *)
Theorem C49_particles_partial : forall fnqs dx size mprts, (0 <= size)%Z -> (forall pt, In pt (everyone size mprts) -> prt_q pt <> 0) ->
  exists a b, write_one 2 size (fun r => DiagEnergiesParticle fnqs dx (mprts r)) = Some [a; b] /\
    a = sum_where negative (energy fnqs dx) (everyone size mprts) /\ b = sum_where positive (energy fnqs dx) (everyone size mprts) /\
    ((forall pt, In pt (everyone size mprts) -> 0 <= prt_m pt /\ 0 <= weight pt) -> 0 <= fnqs -> (forall d, 0 <= get3 dx d) -> 0 <= a /\ 0 <= b).
Proof.
  intros fnqs dx size mprts Hs Hq.
  assert (V : forall r, (0 <= r < size)%Z -> DiagEnergiesParticle fnqs dx (mprts r) =
    Some (map (fun b => sum_where b (energy fnqs dx) (concat (mprts r))) [negative; positive])).
  { intros r Hr. unfold DiagEnergiesParticle. cbv zeta. rewrite patches_val, prts_val.
    - cbn [map]. f_equal. f_equal; [apply Rplus_0_l|]. f_equal. apply Rplus_0_l.
    - intros pt Hp. apply Hq. apply in_flat_map. exists r. split; [apply in_zrange; exact Hr|exact Hp]. }
  pose proof (write_one_val [negative; positive] size _ _ Hs V) as E. cbn [length map] in E.
  assert (S : forall b, rsum (map (fun r => sum_where b (energy fnqs dx) (concat (mprts r))) (zrange 0 size)) = sum_where b (energy fnqs dx) (everyone size mprts)).
  { intros b. unfold everyone. generalize (zrange 0 size). induction l as [|r l IH]; [reflexivity|]. cbn [flat_map map]. rewrite rsum_cons, sum_where_app, IH. reflexivity. }
  rewrite !S in E. eexists _, _. split; [exact E|]. split; [reflexivity|]. split; [reflexivity|]. intros Hm Hf Hdx.
  assert (forall pt, In pt (everyone size mprts) -> 0 <= energy fnqs dx pt) as HN.
  { intros pt Hp. destruct (Hm pt Hp). unfold energy. pose proof (Hdx D0). pose proof (Hdx D1). pose proof (Hdx D2). cbn [get3] in *.
    apply Rmult_le_pos; [apply Rmult_le_pos; [apply kinetic_nonneg; assumption|assumption]|]. repeat apply Rmult_le_pos; assumption. }
  split; apply sum_where_nonneg; exact HN.
Qed.
Print Assumptions C49_particles_partial.

(** the same particles on other patches and other processes give the same report *)
Theorem C49_particles_distribution : forall fnqs dx size mprts size' mprts', (0 <= size)%Z -> (0 <= size')%Z ->
  (forall pt, In pt (everyone size mprts) -> prt_q pt <> 0) -> Permutation (everyone size mprts) (everyone size' mprts') ->
  write_one 2 size (fun r => DiagEnergiesParticle fnqs dx (mprts r)) = write_one 2 size' (fun r => DiagEnergiesParticle fnqs dx (mprts' r)).
Proof.
  intros fnqs dx size mprts size' mprts' Hs Hs' Hq HP.
  destruct (C49_particles_partial fnqs dx size mprts Hs Hq) as [a [b [E [-> [-> _]]]]].
  destruct (C49_particles_partial fnqs dx size' mprts' Hs') as [a [b' [E' [-> [-> _]]]]].
  - intros pt Hp. apply Hq. apply (Permutation_in _ (Permutation_sym HP)). exact Hp.
  - rewrite E, E', !(sum_where_perm _ _ _ _ HP). reflexivity.
Qed.
Print Assumptions C49_particles_distribution.

(** a single neutral particle anywhere ends the program *)
Theorem C49_neutral_refuted : forall fnqs dx size mprts pt, In pt (everyone size mprts) -> prt_q pt = 0 ->
  write_one 2 size (fun r => DiagEnergiesParticle fnqs dx (mprts r)) = None.
Proof.
  intros fnqs dx size mprts pt Hp Hq. unfold everyone in Hp. apply in_flat_map in Hp. destruct Hp as [r [Hr Hp]]. apply in_zrange in Hr.
  apply (write_one_none _ _ _ r Hr). unfold DiagEnergiesParticle. cbv zeta. rewrite patches_val, prts_neutral; [reflexivity|]. exists pt. split; assumption.
Qed.
Print Assumptions C49_neutral_refuted.

(** ** Fields *)

(** the code reads past the end of the storage, as soon as some process has a patch with more cells in z than ghost points *)
Theorem C49_fields_fault_refuted : forall ldims ibn dx size npat mem r, all_pos ldims -> (forall d, 0 <= get3 ibn d)%Z -> (0 < c2 ibn < c2 ldims)%Z ->
  (0 <= r < size)%Z -> (0 < npat r)%Z ->
  write_one 6 size (fun r => DiagEnergiesField ldims ibn 9 (npat r) (mem r) dx) = None.
Proof.
  intros ldims ibn dx size npat mem r HL Hb H2 Hr Hp. apply (write_one_none _ _ _ r Hr). unfold DiagEnergiesField, field_energies. cbv zeta.
  apply (patches_bad _ _ _ _ (npat r - 1)%Z 8%Z (gen3 (fun d => get3 ldims d - 1)%Z)).
  - apply in_zrange. cbn. lia.
  - cbn. tauto.
  - apply in_cells. intros d. rewrite get3_gen3. specialize (HL d). lia.
  - apply view_read_beyond; try assumption; lia.
  - reflexivity.
Qed.
Print Assumptions C49_fields_fault_refuted.

(** and where it stays within the storage the report is of other points: one patch with one cell where E_x is 1, nothing else *)
Definition one_ldims : V3 Z := (v3 1 1 1)%Z.
Definition one_mem (pos : Z) : R := if (pos =? mf_pos (make_mfields one_ldims one_ldims 9 1) 3 0 0 0 0)%Z then 1 else 0.
Theorem C49_fields_refuted : exists ldims ibn dx mem, all_pos ldims /\
  DiagEnergiesField ldims ibn 9 1 mem dx = Some [0; 0; 0; 0; 0; 0] /\
  field_energy ldims (c0 dx * c1 dx * c2 dx) (fun x => mem (mf_pos (make_mfields ldims ibn 9 1) 3 (c0 x) (c1 x) (c2 x) 0)) = 1.
Proof.
  exists one_ldims, one_ldims, (v3 1 1 1), one_mem. split; [intros d; destruct d; reflexivity|]. split.
  - unfold DiagEnergiesField, field_energies. cbv zeta.
    rewrite (patches_cells_val _ _ _ _ (fun _ _ _ => 0) _ _) with (S := fun _ => 0).
    + unfold EH_comps. cbn [map]. change (cells one_ldims) with [v3 0 0 0]%Z. change (zrange 0 _) with [0%Z]. cbn [map]. unfold rsum. cbn [fold_right].
      repeat (f_equal; try ring).
    + intros p m x Hp Hm Hx. change (zrange 0 _) with [0%Z] in Hp. change (cells one_ldims) with [v3 0 0 0]%Z in Hx. destruct Hp as [<-|[]]. destruct Hx as [<-|[]].
      unfold EH_comps in Hm. cbn [In] in Hm. destruct Hm as [<-|[<-|[<-|[<-|[<-|[<-|[]]]]]]]; reflexivity.
  - unfold field_energy. change (box _ one_ldims) with [v3 0 0 0]%Z. cbn [map]. unfold rsum. cbn [fold_right c0 c1 c2].
    change (one_mem _) with 1. ring.
Qed.
Print Assumptions C49_fields_refuted.

(** What is missing: the slices of the code.  With the ones used elsewhere, [_s(bnd, -bnd)] (fields3d.hxx:497-498), the rest of
    DiagEnergiesField and write_one report the sums over all cells of the domain of the squares of the fields, which are not
    negative and which do not depend on patches and processes. *)
Theorem C49_fields_partial : forall c np gdims per pr size dm ibn nc mem dx (G : Z -> V3 Z -> R),
  all_pos np -> domain_setup c np gdims per pr size = Some dm -> counts_valid pr (volume np) size -> processes pr size ->
  (forall d, 0 <= get3 ibn d)%Z -> (9 <= nc)%Z ->
  let ldims := gen3 (fun d => get3 gdims d / get3 np d)%Z in
  let f r := make_mfields ldims ibn nc (patches_of dm r) in
  (** G: the fields on the cells of the domain, as the patches have them *)
  (forall m r p x, In (r, p, x) (own_places dm size) -> (0 <= m < nc)%Z -> mem r (mf_pos (f r) m (c0 x) (c1 x) (c2 x) p) = G m (gen3 (global_idx dm (r, p, x)))) ->
  write_one 6 size (fun r => field_energies ldims (f r) (mem r) ibn dx) =
    Some (map (fun m => field_energy gdims (c0 dx * c1 dx * c2 dx) (G m)) [3; 4; 5; 6; 7; 8]%Z) /\
  ((forall d, 0 <= get3 dx d) -> forall m, 0 <= field_energy gdims (c0 dx * c1 dx * c2 dx) (G m)).
Proof.
  intros c np gdims per pr size dm ibn nc mem dx G H1 H2 H3 H4 Hb Hnc ldims f HG.
  assert (EL : ldims = grid_ldims dm) by (unfold ldims; symmetry; apply (ld_eq c np gdims per pr size dm H2)).
  split.
  - set (u := fun m (a : place) => let '(r, p, x) := a in mem r (mf_pos (f r) m (c0 x) (c1 x) (c2 x) p)).
    set (fac := c0 dx * c1 dx * c2 dx).
    rewrite (write_one_val [3; 4; 5; 6; 7; 8]%Z size _
      (fun r m => 0 + rsum (map (fun p => rsum (map (fun x => u m (r, p, x) * u m (r, p, x) * fac) (cells ldims))) (zrange 0 (patches_of dm r))))).
    + f_equal. apply map_ext_in. intros m Hm.
      rewrite <- (energy_of_cells c np gdims per pr size dm H1 H2 H3 H4 (G m) fac (u m)).
      * apply rsum_ext. intros r _. rewrite Rplus_0_l. rewrite cells_box, EL. reflexivity.
      * intros [[r p] x] Ha. apply HG; [exact Ha|]. cbn [In] in Hm. lia.
    + apply (size_ok np pr size H3 H4).
    + intros r Hr. unfold field_energies. cbv zeta. refine (patches_cells_val (f r) (mem r) ibn fac (fun p m x => u m (r, p, x)) (cells ldims) (zrange 0 (patches_of dm r)) _ (fun _ => 0)).
      intros p m x Hp Hm Hx. apply in_zrange in Hp. apply in_cells in Hx. apply view_read_own; try assumption. unfold EH_comps in Hm. cbn [In] in Hm. lia.
  - intros Hdx m. unfold field_energy. apply rsum_nonneg. intros x _. pose proof (Hdx D0). pose proof (Hdx D1). pose proof (Hdx D2). cbn [get3] in *.
    apply Rmult_le_pos; [apply Rle_0_sqr|]. repeat apply Rmult_le_pos; assumption.
Qed.
Print Assumptions C49_fields_partial.

(** ** Examples *)
Definition ex_electron : prt := mkPrt (v3 (3 / 4) 0 0) (- 2) (-1) 1.
Definition ex_ion : prt := mkPrt (v3 0 0 0) 2 1 100.
(** two processes, one of them without patches *)
Definition ex_mprts (r : Z) : list (list prt) := if (r =? 1)%Z then [[ex_electron; ex_ion]; []; [ex_electron]] else [].
Example ex_C49_particles : (forall pt, In pt (everyone 2 ex_mprts) -> prt_q pt <> 0) /\ energy 1 (v3 1 1 1) ex_electron = 1 / 2 /\
  write_one 2 2 (fun r => DiagEnergiesParticle 1 (v3 1 1 1) (ex_mprts r)) = Some [1; 0].
Proof.
  assert (A : forall pt, In pt (everyone 2 ex_mprts) -> prt_q pt <> 0).
  { intros pt H. cbn in H. repeat (destruct H as [<-|H]; [cbn; lra|]). destruct H. }
  assert (B : energy 1 (v3 1 1 1) ex_electron = 1 / 2).
  { unfold energy, kinetic, weight, ex_electron. cbn [prt_u prt_m prt_qni_wni prt_q c0 c1 c2].
    replace (1 + 3 / 4 * (3 / 4) + 0 * 0 + 0 * 0) with (5 / 4 * (5 / 4)) by lra. rewrite sqrt_square by lra. lra. }
  assert (D : energy 1 (v3 1 1 1) ex_ion = 0).
  { unfold energy, kinetic, weight, ex_ion. cbn [prt_u prt_m prt_qni_wni prt_q c0 c1 c2]. replace (1 + 0 * 0 + 0 * 0 + 0 * 0) with 1 by lra. rewrite sqrt_1. lra. }
  split; [exact A|]. split; [exact B|]. destruct (C49_particles_partial 1 (v3 1 1 1) 2 ex_mprts ltac:(lia) A) as [a [b [-> [-> [-> _]]]]].
  change (everyone 2 ex_mprts) with [ex_electron; ex_ion; ex_electron]. unfold sum_where. cbn [filter]. unfold negative, positive. cbn [prt_q ex_electron ex_ion].
  destruct (Rlt_dec (-1) 0); [|lra]. destruct (Rlt_dec 1 0); [lra|]. destruct (Rlt_dec 0 (-1)); [lra|]. destruct (Rlt_dec 0 1); [|lra].
  cbn [map]. unfold rsum. cbn [fold_right]. rewrite B, D. f_equal. f_equal; [lra|]. f_equal. lra.
Qed.

(** a neutral particle among others *)
Example ex_C49_neutral : In (mkPrt (v3 0 0 0) 0 0 1) (everyone 2 (fun r => [[ex_electron]; [mkPrt (v3 0 0 0) 0 0 1]])).
Proof. unfold everyone. change (zrange 0 2) with [0; 1]%Z. cbn [flat_map concat app]. right. left. reflexivity. Qed.

(** fields: 12 cells in two patches on two processes, with E_x(x) = the index in x *)
Example ex_C49_fields : exists dm, domain_setup CURVE_BYDIM (v3 2 1 1)%Z (v3 6 1 2)%Z (v3 true true true) None 2 = Some dm /\
  all_pos (v3 2 1 1)%Z /\ counts_valid None (volume (v3 2 1 1)%Z) 2 /\ processes None 2 /\ patches_of dm 1 = 1%Z /\
  gen3 (global_idx dm (1, 0, v3 2 0 1)%Z) = (v3 5 0 1)%Z /\
  field_energy (v3 6 1 2)%Z (1 / 2) (fun x => IZR (c0 x)) = 55.
Proof.
  eexists. split; [vm_compute; reflexivity|]. split; [intros d; destruct d; reflexivity|]. split; [cbn; lia|]. split; [exact I|]. split; [reflexivity|]. split; [reflexivity|].
  unfold field_energy. change (box (v3 0 0 0) (v3 6 1 2))%Z with [v3 0 0 0; v3 1 0 0; v3 2 0 0; v3 3 0 0; v3 4 0 0; v3 5 0 0; v3 0 0 1; v3 1 0 1; v3 2 0 1; v3 3 0 1; v3 4 0 1; v3 5 0 1]%Z.
  unfold rsum. cbn [map fold_right c0]. lra.
Qed.

(** the hypotheses of C49_fields_fault_refuted: 8 x 8 x 8 cells with two ghost points *)
Example ex_C49_fault : all_pos (v3 8 8 8)%Z /\ (0 < c2 (v3 2 2 2)%Z < c2 (v3 8 8 8)%Z)%Z.
Proof. split; [intros d; destruct d; reflexivity|cbn; lia]. Qed.
