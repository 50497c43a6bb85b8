(** C23, C24: charge deposition and first order current deposition. *)
From Coq Require Import Reals Lra Psatz.
From Flocq Require Import Core.
From Verif Require Import Base RSum FieldModel FieldSpec DepositModel DepositSpec DepositProofs CurrentModel CurrentProofs CurrentVar1Proofs CurrentRefute PushModel PushSpec PushProofs.
Local Open Scope R_scope.

(** ** C23: charge deposition *)

(** every stored value grows by the particle's contribution times its share, which is the
    product of the shape functions *)
Theorem C23_weights : forall s d dx fnqs ib xi val f, dep_dim d -> wf_ib d ib ->
  exists f', code_dep s d dx fnqs ib xi val f = Some f' /\
  forall m, f' m = f m + fnqs * val * share (shape_of s) (invar_of d) (place s dx xi) (node ib m).
Proof.
  intros s d dx fnqs ib xi val f Hd Hib. destruct (code_dep_total s d dx fnqs ib xi val f Hd) as [f' E]. exists f'. split; [exact E|].
  intros m. exact (code_dep_share s d dx fnqs ib xi val f f' m Hib E).
Qed.
Print Assumptions C23_weights.

Theorem C23_nonnegative : forall s inv x n, 0 <= share (shape_of s) inv x n.
Proof. exact share_nonneg. Qed.
Print Assumptions C23_nonnegative.

Theorem C23_local : forall s d ld dx xi n, inside d ld dx xi -> share (shape_of s) (invar_of d) (place s dx xi) n <> 0 ->
  forall e, if get3 (invar_of d) e then get3 n e = 0%Z else (- ghosts_lo s <= get3 n e < get3 ld e + ghosts_hi s)%Z.
Proof. exact share_local. Qed.
Print Assumptions C23_local.

Theorem C23_sum : forall s d ld dx xi, inside d ld dx xi ->
  let lo := gen3 (fun e => if get3 (invar_of d) e then 0 else - ghosts_lo s)%Z in
  let hi := gen3 (fun e => if get3 (invar_of d) e then 1 else get3 ld e + ghosts_hi s)%Z in
  sum_nodes lo hi (share (shape_of s) (invar_of d) (place s dx xi)) = 1 /\
  forall e, sum_nodes lo hi (fun n => IZR (get3 n e) * share (shape_of s) (invar_of d) (place s dx xi) n) =
    if get3 (invar_of d) e then 0 else get3 (place s dx xi) e.
Proof. intros s d ld dx xi H lo hi. split; [apply share_sum|intros e; apply share_centroid]; apply inside_covers; exact H. Qed.
Print Assumptions C23_sum.

(** all particles of a patch *)
Theorem C23_particles : forall s d ld dx fnqs ib prts, dep_dim d -> wf_ib d ib -> (forall p, In p prts -> inside d ld dx (fst p)) ->
  exists f', dep_particles s d dx fnqs ib prts (fun _ => 0) = Some f' /\
  let lo := gen3 (fun e => if get3 (invar_of d) e then 0 else - ghosts_lo s)%Z in
  let hi := gen3 (fun e => if get3 (invar_of d) e then 1 else get3 ld e + ghosts_hi s)%Z in
  sum_nodes lo hi (fun n => f' (gen3 (fun e => get3 n e - get3 ib e)%Z)) = fnqs * rsum (map snd prts).
Proof.
  intros s d ld dx fnqs ib prts Hd Hib Hin. destruct (dep_particles_total s d dx fnqs ib Hd prts (fun _ => 0)) as [f' E]. exists f'. split; [exact E|].
  exact (dep_particles_sum s d ld dx fnqs ib prts f' Hib Hin E).
Qed.
Print Assumptions C23_particles.

Definition ex_ld : V3 Z := v3 4%Z 4%Z 4%Z.
Definition ex_h : V3 R := v3 (1 / 2) (1 / 2) (1 / 2).
Definition ex_xi : V3 R := v3 (5 / 8) (7 / 4) (1 / 8).

(** the hypotheses of C23_weights, C23_local, C23_sum and C23_particles, for a particle
    near the lower boundary in z and the upper one in y *)
Example ex_C23 : inside dim_xyz ex_ld ex_h ex_xi /\ dep_dim dim_xyz /\ wf_ib dim_xyz (v3 (-2) (-2) (-2))%Z /\
  share (shape_of dep_1st_nc) (invar_of dim_xyz) (place dep_1st_nc ex_h ex_xi) (v3 1 3 0)%Z = 3 / 4 * (1 / 2) * (3 / 4) /\
  share (shape_of dep_2nd_nc) (invar_of dim_yz) (place dep_2nd_nc ex_h ex_xi) (v3 0 4 0)%Z = 1 / 2 * (11 / 16).
Proof.
  split; [|split; [left; reflexivity|split; [intros e; destruct e; discriminate|split]]].
  - intros e _. destruct e; cbn; lra.
  - rewrite share_get. unfold place, gen3, ex_h, ex_xi. cbn [get3 c0 c1 c2 invar_of shape_of offset_of].
    unfold hat. rewrite !Rmax_right; [|rewrite Rabs_pos_eq; lra ..]. rewrite !Rabs_pos_eq; lra.
  - rewrite share_get. unfold place, gen3, ex_h, ex_xi. cbn [get3 c0 c1 c2 invar_of shape_of offset_of]. rewrite delta_same.
    unfold spline2. replace (7 / 4 / (1 / 2) - 0 - 4) with (- (1 / 2)) by lra. replace (1 / 8 / (1 / 2) - 0 - 0) with (1 / 4) by lra.
    rewrite Rabs_Ropp, !Rabs_pos_eq by lra. destruct (Rle_dec (1 / 2) (1 / 2)), (Rle_dec (1 / 4) (1 / 2)); lra.
Qed.

(** ** C24: continuity *)

(** the density of a particle on the nodes, by first order shape functions *)
Definition charge (g : cgrid) (q : R) (inv : V3 bool) (x : V3 R) (n : V3 Z) : R := cg_fnqs g * q * share hat inv x n.

(** the step from xm to xp, which adds the entries l to the current J, conserves charge *)
Definition conserves (g : cgrid) (q : R) (inv : V3 bool) (xm xp : V3 R) (l : list entry) : Prop :=
  forall J n, (charge g q inv xp n - charge g q inv xm n) / cg_dt g +
    (div_minus inv (cg_dx g) (cadd_all J l) n - div_minus inv (cg_dx g) J n) = 0.

(** at most one cell in each direction *)
Definition short_step (inv : V3 bool) (xm xp : V3 R) : Prop := forall e, get3 inv e = false -> Rabs (get3 xp e - get3 xm e) <= 1.

(** the cells of the start and the end, as the pusher has them *)
Definition cells_of (inv : V3 bool) (xm xp : V3 R) (lf lg : V3 Z) : Prop :=
  forall e, get3 inv e = false -> get3 lg e = fint (get3 xm e) /\ get3 lf e = fint (get3 xp e).

Lemma short_near inv xm xp : short_step inv xm xp -> crossing inv xm xp.
Proof.
  intros H e He. specialize (H e He). unfold near. set (a := get3 xm e) in *. set (b := get3 xp e) in *.
  pose proof (floor_spec a). pose proof (floor_spec b). assert (-1 <= b - a <= 1) by (apply Rabs_le_inv; exact H).
  assert (IZR (fint b) < IZR (fint a + 2)) by (rewrite plus_IZR; lra). assert (IZR (fint a) < IZR (fint b + 2)) by (rewrite plus_IZR; lra).
  apply lt_IZR in H3, H4. lia.
Qed.

Lemma balances_conserves g q inv xm xp l : balances inv (cg_dx g) (qdt g q) l xm xp -> conserves g q inv xm xp l.
Proof.
  intros H J n. specialize (H n). rewrite (div_minus_ext inv _ _ (fun d m => J d m + jcur l d m)) by (intros; apply cadd_all_get).
  rewrite div_minus_plus. unfold charge, qdt, Rdiv in *. lra.
Qed.

(** three dimensions *)
Theorem C24_split_xyz : forall g q xm xp v, wf_cg g -> short_step (invar_of dim_xyz) xm xp ->
  conserves g q (invar_of dim_xyz) xm xp (calc_j_split g vb_xyz q xm xp v).
Proof.
  intros g q xm xp v Hg H. apply balances_conserves. apply (calc_j_split_run g vb_xyz q xm xp v Hg); [|apply short_near; exact H].
  intros e; destruct e; discriminate.
Qed.
Print Assumptions C24_split_xyz.

Theorem C24_zigzag_xyz : forall g q xm xp v, wf_cg g -> short_step (invar_of dim_xyz) xm xp ->
  conserves g q (invar_of dim_xyz) xm xp (calc_j_zigzag g vb_xyz q xm xp v).
Proof.
  intros g q xm xp v Hg H. apply balances_conserves. apply (calc_j_zigzag_run g vb_xyz q xm xp v Hg); [|apply short_near; exact H].
  intros e; destruct e; discriminate.
Qed.
Print Assumptions C24_zigzag_xyz.

(** the yz schemes, at any velocity in the invariant direction *)
Theorem C24_var1 : forall g q xm xp lf lg v, wf_cg g -> short_step (invar_of dim_yz) xm xp -> cells_of (invar_of dim_yz) xm xp lf lg ->
  conserves g q (invar_of dim_yz) xm xp (calc_j_var1 g q xm xp lf lg v).
Proof. intros g q xm xp lf lg v Hg H Hl. apply balances_conserves. apply (calc_j_var1_run g q xm xp lf lg v Hg); [apply short_near; exact H|exact Hl]. Qed.
Print Assumptions C24_var1.

Theorem C24_2d : forall g q xm xp lf lg, wf_cg g -> short_step (invar_of dim_yz) xm xp -> cells_of (invar_of dim_yz) xm xp lf lg ->
  conserves g q (invar_of dim_yz) xm xp (calc_j_2d g q xm xp lf lg).
Proof. intros g q xm xp lf lg Hg H Hl. apply balances_conserves. apply (calc_j_2d_run g q xm xp lf lg Hg); [apply short_near; exact H|exact Hl]. Qed.
Print Assumptions C24_2d.

(** the full statement would not restrict the velocity in the invariant direction, which
    is false (below).  What is missing: displacements of half a cell and more in that
    direction. *)
Theorem C24_split_partial : forall g d q xm xp v, let inv := invar_of (vb_dim_t d) in wf_cg g -> short_step inv xm xp ->
  (forall e, get3 inv e = true -> Rabs (invar_step g v e) < / 2) ->
  conserves g q inv xm xp (calc_j_split g d q xm xp v).
Proof. intros g d q xm xp v inv Hg H Hv. apply balances_conserves. apply (calc_j_split_run g d q xm xp v Hg Hv). apply short_near; exact H. Qed.
Print Assumptions C24_split_partial.

Theorem C24_zigzag_partial : forall g d q xm xp v, let inv := invar_of (vb_dim_t d) in wf_cg g -> short_step inv xm xp ->
  (forall e, get3 inv e = true -> Rabs (invar_step g v e) < / 2) ->
  conserves g q inv xm xp (calc_j_zigzag g d q xm xp v).
Proof. intros g d q xm xp v inv Hg H Hv. apply balances_conserves. apply (calc_j_zigzag_run g d q xm xp v Hg Hv). apply short_near; exact H. Qed.
Print Assumptions C24_zigzag_partial.

(** in dim_xz, cubic cells, below 3/4 of the Courant limit and slower than light *)
Theorem C24_invariant_refuted : exists g xm xp v, wf_cg g /\ cg_dx g = v3 1 1 1 /\ 0 < cg_dt g /\ cg_dt g * cg_dt g * (1 + 1) < 3 / 4 * (3 / 4) /\
  dot v v < 1 /\ c0 xp = c0 xm + cg_dt g * c0 v /\ c2 xp = c2 xm + cg_dt g * c2 v /\ short_step (invar_of dim_xz) xm xp /\
  ~ conserves g 1 (invar_of dim_xz) xm xp (calc_j_split g vb_xz 1 xm xp v) /\ ~ conserves g 1 (invar_of dim_xz) xm xp (calc_j_zigzag g vb_xz 1 xm xp v).
Proof.
  exists fast_g, fast_xm, fast_xp, fast_v.
  assert (C : forall l, div_minus (invar_of dim_xz) (v3 1 1 1) (jcur l) (v3 2 0 0)%Z = 0 -> ~ conserves fast_g 1 (invar_of dim_xz) fast_xm fast_xp l).
  { intros l H C. specialize (C (fun _ _ => 0) (v3 2 0 0)%Z). unfold charge in C. rewrite fast_share_p, fast_share_m in C.
    rewrite (div_minus_ext _ _ _ (jcur l)) in C by (intros; rewrite cadd_all_get; ring). cbn [cg_dx cg_dt cg_fnqs fast_g] in C. rewrite H in C.
    unfold div_minus, dminus in C. cbn [invar_of get3 c0 c1 c2] in C. lra. }
  split; [intros e; destruct e; cbn; lra|]. split; [reflexivity|]. cbn [fast_g cg_dt]. split; [lra|]. split; [lra|].
  split; [unfold dot, fast_v; cbn [c0 c1 c2]; lra|]. unfold fast_xm, fast_xp, fast_v. cbn [c0 c1 c2]. split; [lra|]. split; [lra|].
  split; [intros e; destruct e; cbn [get3 c0 c1 c2 invar_of]; try discriminate; intros _; apply Rabs_le; lra|].
  split; apply C; [exact fast_split_div|exact fast_zigzag_div].
Qed.
Print Assumptions C24_invariant_refuted.

(** the density may be computed by the code's own first order deposition *)
Theorem C24_with_deposition : forall g q d xm xp l ib fm fp, dep_dim d -> wf_ib d ib -> wf_cg g -> conserves g q (invar_of d) xm xp l ->
  code_dep dep_1st_nc d (cg_dx g) (cg_fnqs g) ib (gen3 (fun e => get3 xm e * get3 (cg_dx g) e)) q (fun _ => 0) = Some fm ->
  code_dep dep_1st_nc d (cg_dx g) (cg_fnqs g) ib (gen3 (fun e => get3 xp e * get3 (cg_dx g) e)) q (fun _ => 0) = Some fp ->
  forall m, (fp m - fm m) / cg_dt g + div_minus (invar_of d) (cg_dx g) (cadd_all (fun _ _ => 0) l) (node ib m) = 0.
Proof.
  intros g q d xm xp l ib fm fp Hd Hib Hg H Em Ep m.
  assert (P : forall x, place dep_1st_nc (cg_dx g) (gen3 (fun e => get3 x e * get3 (cg_dx g) e)) = x).
  { intros x. apply v3_ext. intros e. unfold place. rewrite !get3_gen3. cbn [offset_of]. field. apply Hg. }
  rewrite (code_dep_share _ _ _ _ _ _ _ _ _ m Hib Em), (code_dep_share _ _ _ _ _ _ _ _ _ m Hib Ep), !P.
  specialize (H (fun _ _ => 0) (node ib m)). unfold charge in H. cbn [shape_of].
  assert (Z0 : div_minus (invar_of d) (cg_dx g) (fun _ _ => 0) (node ib m) = 0).
  { unfold div_minus, dminus, Rdiv. repeat match goal with |- context [if ?b then _ else _] => destruct b end; ring. }
  rewrite Z0 in H. unfold Rdiv in *. lra.
Qed.
Print Assumptions C24_with_deposition.

(** the entries lie within two ghost points of the patch *)
Definition reaches (inv : V3 bool) (ld : V3 Z) (e : entry) : Prop :=
  forall d, if get3 inv d then get3 (snd (fst e)) d = 0%Z else (-1 <= get3 (snd (fst e)) d <= get3 ld d + 1)%Z.

Lemma touches_reaches inv ld xm xp l : (forall d, get3 inv d = false -> 0 <= get3 xm d < IZR (get3 ld d)) -> short_step inv xm xp ->
  Forall (touches inv xm xp) l -> Forall (reaches inv ld) l.
Proof.
  intros Hin Hs H. rewrite Forall_forall in *. intros e He d. specialize (H e He d). cbv zeta in H. destruct (get3 inv d) eqn:E; [exact H|].
  specialize (Hin d E). pose proof (short_near inv xm xp Hs d E) as N. unfold near in N.
  assert (0 <= fint (get3 xm d))%Z by (apply fint_bounds; apply Hin). assert (fint (get3 xm d) < get3 ld d)%Z by (apply fint_bounds_hi; apply Hin). lia.
Qed.

Theorem C24_in_bounds : forall g q ld xm xp v lf lg,
  let inside := fun inv => (forall d, get3 inv d = false -> 0 <= get3 xm d < IZR (get3 ld d)) /\ short_step inv xm xp in
  wf_cg g ->
  (forall d, let inv := invar_of (vb_dim_t d) in inside inv -> (forall e, get3 inv e = true -> Rabs (invar_step g v e) < / 2) ->
     Forall (reaches inv ld) (calc_j_split g d q xm xp v) /\ Forall (reaches inv ld) (calc_j_zigzag g d q xm xp v)) /\
  (let inv := invar_of dim_yz in inside inv -> cells_of inv xm xp lf lg ->
     Forall (reaches inv ld) (calc_j_var1 g q xm xp lf lg v) /\ Forall (reaches inv ld) (calc_j_2d g q xm xp lf lg)).
Proof.
  intros g q ld xm xp v lf lg inside Hg. split.
  - intros d inv [Hin Hs] Hv. split; apply (touches_reaches inv ld xm xp _ Hin Hs).
    + apply (calc_j_split_run g d q xm xp v Hg Hv (short_near _ _ _ Hs)).
    + apply (calc_j_zigzag_run g d q xm xp v Hg Hv (short_near _ _ _ Hs)).
  - intros inv [Hin Hs] Hl. split; apply (touches_reaches inv ld xm xp _ Hin Hs).
    + apply (calc_j_var1_run g q xm xp lf lg v Hg (short_near _ _ _ Hs) Hl).
    + apply (calc_j_2d_run g q xm xp lf lg Hg (short_near _ _ _ Hs) Hl).
Qed.
Print Assumptions C24_in_bounds.

Definition ex_cg : cgrid := {| cg_dt := 1 / 4; cg_dx := ex_h; cg_fnqs := 1 |}.
(** moves from cell (0, 0, 0) to cell (1, -1, 0) *)
Definition ex_xm : V3 R := v3 (7 / 8) (1 / 8) (1 / 2).
Definition ex_xp : V3 R := v3 (9 / 8) (- (1 / 4)) (3 / 4).

Example ex_C24 : wf_cg ex_cg /\ short_step (invar_of dim_xyz) ex_xm ex_xp /\ short_step (invar_of dim_yz) ex_xm ex_xp /\
  cells_of (invar_of dim_yz) ex_xm ex_xp (v3 0 (-1) 0)%Z (v3 0 0 0)%Z /\
  Rabs (invar_step ex_cg (v3 (1 / 2) (- (3 / 4)) (1 / 2)) D0) < / 2 /\
  charge ex_cg 1 (invar_of dim_xyz) ex_xp (v3 1 0 1)%Z - charge ex_cg 1 (invar_of dim_xyz) ex_xm (v3 1 0 1)%Z = 7 / 8 * (3 / 4) * (3 / 4) - 7 / 8 * (7 / 8) * (1 / 2) /\
  length (calc_j_var1 ex_cg 1 ex_xm ex_xp (v3 0 (-1) 0)%Z (v3 0 0 0)%Z (v3 (1 / 2) (- (3 / 4)) (1 / 2))) = 16%nat.
Proof.
  assert (F : forall k x, IZR k <= x < IZR k + 1 -> k = fint x) by (intros; symmetry; apply fint_unique; assumption).
  split; [intros e; destruct e; cbn; lra|].
  split; [intros e _; destruct e; cbn; apply Rabs_le; lra|]. split; [intros e _; destruct e; cbn; apply Rabs_le; lra|].
  split; [intros e He; destruct e; [discriminate| |]; cbn; split; apply F; lra|].
  split; [unfold invar_step; cbn; apply Rabs_def1; lra|]. split.
  - unfold charge. rewrite !share_get. unfold ex_xm, ex_xp. cbn [get3 c0 c1 c2 invar_of ex_cg cg_fnqs]. unfold hat, Rmax, Rabs.
    repeat (destruct (Rcase_abs _); try lra); repeat (destruct (Rle_dec _ _); try lra).
  - reflexivity.
Qed.
