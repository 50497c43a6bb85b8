(** C54: the current a particle deposits adds up to its charge times its velocity. *)
From Coq Require Import Reals Lra Psatz.
From Flocq Require Import Core.
From Verif Require Import Base RSum FieldModel DepositModel DepositSpec DepositProofs CurrentModel CurrentProofs PushSpec EsirkModel EsirkProofs TotalSpec TotalProofs DepositProps EsirkProps.
Local Open Scope R_scope.

(** no restriction on the displacement *)
Theorem C54_split_zigzag : forall g d q xm xp v e, wf_cg g -> cg_dt g <> 0 -> let V := velocity g (invar_of (vb_dim_t d)) v xm xp e in
  total e (calc_j_split g d q xm xp v) = q * cg_fnqs g * V /\ total e (calc_j_zigzag g d q xm xp v) = q * cg_fnqs g * V.
Proof. intros g d q xm xp v e W T V. split; [apply total_split|apply total_zigzag]; assumption. Qed.
Print Assumptions C54_split_zigzag.

Theorem C54_var1 : forall g q xm xp lf lg v e, wf_cg g -> cg_dt g <> 0 ->
  total e (calc_j_var1 g q xm xp lf lg v) = q * cg_fnqs g * velocity g (invar_of dim_yz) v xm xp e.
Proof. exact total_var1. Qed.
Print Assumptions C54_var1.

Theorem C54_esirkepov : forall o d g q xm xp v e, supported o d -> cg_dt g <> 0 -> shorter_step (invar_of d) xm xp ->
  exists l, calc_esirk o d g q xm xp v = Some l /\ total e l = q * cg_fnqs g * velocity g (invar_of d) v xm xp e.
Proof.
  intros o d g q xm xp v e S T H. pose proof (shorter_closes o _ _ _ H) as C. destruct (calc_esirk_total o d g q xm xp v S C) as [l E].
  exists l. split; [exact E|]. exact (total_esirk o d g q xm xp v l e T C E).
Qed.
Print Assumptions C54_esirkepov.

(** the full statement for Current1vb2d would hold of all three components; x, out of the
    plane, is missing, and it is false of it (below) *)
Theorem C54_2d_partial : forall g q xm xp lf lg v e, cg_dt g <> 0 -> e <> D0 ->
  total e (calc_j_2d g q xm xp lf lg) = q * cg_fnqs g * velocity g (invar_of dim_yz) v xm xp e.
Proof. exact total_2d. Qed.
Print Assumptions C54_2d_partial.

Theorem C54_2d_refuted : exists g q xm xp lf lg v, wf_cg g /\ cg_dt g <> 0 /\ short_step (invar_of dim_yz) xm xp /\ cells_of (invar_of dim_yz) xm xp lf lg /\
  total D0 (calc_j_2d g q xm xp lf lg) <> q * cg_fnqs g * velocity g (invar_of dim_yz) v xm xp D0.
Proof.
  exists ex_cg, 1, ex_xm, ex_xp, (v3 0 (-1) 0)%Z, (v3 0 0 0)%Z, (v3 (1 / 2) (- (3 / 4)) (1 / 2)).
  destruct ex_C24 as (W & _ & S & C & _). split; [exact W|]. split; [cbn; lra|]. split; [exact S|]. split; [exact C|].
  rewrite total_2d_x. unfold velocity. cbn. lra.
Qed.
Print Assumptions C54_2d_refuted.

(** a particle of charge -2 that changes cells in two directions *)
Example ex_C54 : wf_cg ex_cg /\ cg_dt ex_cg <> 0 /\ shorter_step (invar_of dim_xyz) ex_xm ex_xp /\ shorter_step (invar_of dim_yz) ex_xm ex_xp /\
  supported o1st dim_yz /\ supported o2nd dim_xyz /\
  velocity ex_cg (invar_of dim_xyz) (v3 (1 / 2) 0 0) ex_xm ex_xp D1 <> 0 /\
  total D0 (calc_j_split ex_cg vb_yz (-2) ex_xm ex_xp (v3 (1 / 2) (- (3 / 4)) (1 / 2))) = -1 /\
  total D0 (calc_j_var1 ex_cg (-2) ex_xm ex_xp (v3 0 (-1) 0)%Z (v3 0 0 0)%Z (v3 (1 / 2) (- (3 / 4)) (1 / 2))) = -1.
Proof.
  destruct ex_C24 as (W & _). split; [exact W|]. assert (T : cg_dt ex_cg <> 0) by (cbn; lra). split; [exact T|].
  split; [intros e _; destruct e; cbn; apply Rabs_def1; lra|]. split; [intros e _; destruct e; cbn; apply Rabs_def1; lra|].
  split; [exact I|]. split; [exact I|]. split; [unfold velocity; cbn; lra|].
  split; [rewrite (proj1 (C54_split_zigzag ex_cg vb_yz _ _ _ _ D0 W T))|rewrite C54_var1 by assumption]; unfold velocity; cbn; lra.
Qed.
