From Coq Require Import Reals Lra Psatz.
From Flocq Require Import Core.
From Coquelicot Require Import Coquelicot.
From Verif Require Import Base RSum FieldModel FieldSpec DepositModel DepositSpec DepositProofs CurrentModel CurrentProofs CurrentVar1Proofs EsirkModel TotalSpec TotalProofs AvgSpec AvgProofs CudaCurrModel.
Local Open Scope R_scope.

(** ** yz: the in-plane current is that of Current1vbVar1 *)

(** the state with indices relative to the patch *)
Definition shs (ci0 : V3 Z) (s : vstate) : vstate :=
  {| vs_i := v3 (c0 (vs_i s)) (c1 (vs_i s) + c1 ci0)%Z (c2 (vs_i s) + c2 ci0)%Z; vs_x := vs_x s; vs_dx := vs_dx s |}.

Lemma jcur_when m l d n : (forall e, In e l -> m = 0 -> snd e = 0) -> jcur (when_moved m l) d n = jcur l d n.
Proof.
  intros H. unfold when_moved. destruct (Req_EM_T m 0) as [E|E]; [|reflexivity]. unfold jcur. cbn [map]. symmetry.
  induction l as [|e l IH]; [reflexivity|]. cbn [map]. rewrite rsum_cons, IH by (intros e' H'; apply H; right; exact H'). rewrite (H e (or_introl eq_refl) E).
  destruct (dim3_eqb _ _); unfold rsum; cbn [fold_right]; ring.
Qed.

Lemma jcur_other l d n : (forall e, In e l -> fst (fst e) <> d) -> jcur l d n = 0.
Proof.
  unfold jcur. induction l as [|e l IH]; intros H; [reflexivity|]. cbn [map]. rewrite rsum_cons, IH by (intros e' H'; apply H; right; exact H').
  destruct (dim3_eqb (fst (fst e)) d) eqn:E; [apply dim3_eqb_eq in E; exfalso; exact (H e (or_introl eq_refl) E)|ring].
Qed.

Lemma in_when m l (e : entry) : In e (when_moved m l) -> In e l.
Proof. unfold when_moved. destruct (Req_EM_T m 0); [intros []|auto]. Qed.

Ltac in_cases H := repeat match type of H with _ \/ _ => destruct H as [<-|H] | False => contradiction end.

Lemma cu_cell_jcur dep g ci0 i x dx q d n : d <> D0 ->
  jcur (cu_cell_yz dep g ci0 i x dx q) d n = jcur (curr_3d_vb_cell g (v3 (c0 i) (c1 i + c1 ci0) (c2 i + c2 ci0))%Z x dx q) d n.
Proof.
  intros Hd. unfold cu_cell_yz. cbv zeta. rewrite !jcur_app.
  rewrite (jcur_other (match dep with vb_3d => _ | vb_2d => _ end)).
  2:{ intros e He. destruct dep; [contradiction|]. apply in_when in He. cbn [In] in He. in_cases He; cbn [cu_add add fst snd]; congruence. }
  rewrite !jcur_when.
  - unfold curr_3d_vb_cell, jcur, cu_add, add, var1_fnqs, cu_fnqs. cbn [map fst snd c0 c1 c2].
    replace (c1 i + 1 + c1 ci0)%Z with (c1 i + c1 ci0 + 1)%Z by ring. replace (c2 i + 1 + c2 ci0)%Z with (c2 i + c2 ci0 + 1)%Z by ring.
    destruct d; [congruence| |]; cbn [dim3_eqb]; unfold rsum; cbn [fold_right]; ring.
  - intros e He E. cbn [In] in He. in_cases He; cbn [cu_add add snd]; rewrite E; ring.
  - intros e He E. cbn [In] in He. in_cases He; cbn [cu_add add snd]; rewrite E; ring.
Qed.

Lemma cu_dx1_zero x dx : cu_dx1 x dx (v3 0 0 0)%Z = v3 0 0 0.
Proof. reflexivity. Qed.

Lemma cu_upd_zero s : cu_upd s (v3 0 0 0) (v3 0 0 0)%Z = s.
Proof.
  destruct s as [[i0 i1 i2] [x0 x1 x2] [y0 y1 y2]]. unfold cu_upd. cbn [vs_i vs_x vs_dx c0 c1 c2]. rewrite !Z.add_0_r.
  f_equal; f_equal; ring.
Qed.

Lemma cu_cell_zero dep g ci0 i x q : cu_cell_yz dep g ci0 i x (v3 0 0 0) q = [].
Proof. unfold cu_cell_yz, when_moved. cbn [c0 c1 c2]. destruct (Req_EM_T 0 0) as [_|N]; [|contradiction]. destruct dep; reflexivity. Qed.

(** the step for an off of zero does nothing *)
Lemma cu_step_zero dep g ci0 q s : cu_step dep g ci0 q (v3 0 0 0)%Z s = ([], s).
Proof. unfold cu_step. rewrite cu_dx1_zero, cu_cell_zero, cu_upd_zero. reflexivity. Qed.

Lemma cu_dx1_dir x dx dir o : dir = D1 \/ dir = D2 -> half (get3 x dir) -> beyond o (get3 x dir + get3 dx dir) ->
  cu_dx1 x dx (set3 (v3 0%Z 0%Z 0%Z) dir o) = calc_3d_dx1 x dx (set3 (v3 0%Z 0%Z 0%Z) dir o).
Proof.
  intros Hd Hx Hy. destruct (frac_facts _ _ _ Hx Hy) as [_ F]. destruct (beyond_o _ _ Hy) as [Ho _].
  assert (No : (o =? 0)%Z = false) by lia. unfold cu_dx1, calc_3d_dx1.
  destruct Hd as [-> | ->]; cbn [set3 c0 c1 c2 get3] in *; rewrite No; cbn [Z.eqb andb orb].
  - destruct (Req_EM_T (c1 dx) 0) as [E|E]; [|reflexivity]. rewrite F. f_equal. ring.
  - destruct (Req_EM_T (c2 dx) 0) as [E|E]; [|reflexivity]. rewrite F. f_equal. ring.
Qed.

Lemma cu_step_dir dep g ci0 q idiff dir s d : dir = D1 \/ dir = D2 -> halfs s -> beyond (get3 idiff dir) (get3 (vs_x s) dir + get3 (vs_dx s) dir) -> d <> D0 ->
  let '(l, s') := cu_step dep g ci0 q (set3 (v3 0%Z 0%Z 0%Z) dir (get3 idiff dir)) s in
  let '(l2, s2) := vb_step g q idiff dir (shs ci0 s) in shs ci0 s' = s2 /\ (forall n, jcur l d n = jcur l2 d n).
Proof.
  intros Hd Hs Hb N. unfold cu_step, vb_step. cbn [shs vs_x vs_dx vs_i].
  rewrite (cu_dx1_dir _ _ dir) by (try assumption; destruct Hs; destruct Hd as [-> | ->]; assumption).
  set (dx1 := calc_3d_dx1 _ _ _). clearbody dx1. split.
  - unfold cu_upd, vb_upd, shs. cbn [vs_i vs_x vs_dx c0 c1 c2]. f_equal. f_equal; ring.
  - intros n. apply cu_cell_jcur. exact N.
Qed.

(** which boundary is reached first *)
Lemma order_half o1 x1 d1 o2 x2 d2 : half x1 -> half x2 -> beyond o1 (x1 + d1) -> beyond o2 (x2 + d2) ->
  Rabs d2 * (/ 2 - x1 * IZR o1) >= Rabs d1 * (/ 2 - x2 * IZR o2) -> half (x1 + frac o2 x2 d2 * d1).
Proof.
  intros H1 H2 B1 B2 G. destruct (frac_facts _ _ _ H1 B1) as [T1 E1]. destruct (frac_facts _ _ _ H2 B2) as [T2 E2].
  fold (frac o1 x1 d1) in T1, E1. fold (frac o2 x2 d2) in T2, E2. set (t1 := frac o1 x1 d1) in *. set (t2 := frac o2 x2 d2) in *.
  destruct (Req_dec d1 0) as [Z1|Z1]; [rewrite Z1; replace (x1 + t2 * 0) with x1 by ring; exact H1|].
  destruct (Req_dec d2 0) as [Z2|Z2].
  { assert (t2 = 0) as -> by (unfold t2, frac; destruct (Req_EM_T d2 0); [reflexivity|contradiction]). replace (x1 + 0 * d1) with x1 by ring. exact H1. }
  clearbody t1 t2.
  assert (S : forall o x d t, half x -> beyond o (x + d) -> d <> 0 -> / 2 * IZR o - x = t * d -> / 2 - x * IZR o = t * Rabs d).
  { intros o x d t Hx Hy Nd E. unfold half, beyond in *. destruct Hy as [[-> Hy]|[-> Hy]].
    - rewrite Rabs_pos_eq by lra. lra.
    - rewrite Rabs_left by lra. lra. }
  rewrite (S _ _ _ _ H1 B1 Z1 E1), (S _ _ _ _ H2 B2 Z2 E2) in G.
  assert (T : t2 <= t1).
  { apply Rmult_le_reg_r with (Rabs d1 * Rabs d2); [apply Rmult_lt_0_compat; apply Rabs_pos_lt; assumption|]. lra. }
  assert (Hh : half (x1 + t1 * d1)) by (rewrite <- E1; unfold half; destruct (beyond_o _ _ B1) as [[Eo|Eo] _]; rewrite Eo; lra).
  destruct (Req_dec t1 0) as [Zt|Zt]; [assert (t2 = 0) as -> by lra; replace (x1 + 0 * d1) with x1 by ring; exact H1|].
  replace (x1 + t2 * d1) with (x1 + t2 / t1 * (t1 * d1)) by (field; exact Zt). apply half_mid; [exact H1|exact Hh|].
  split; [apply Rmult_le_pos; [lra|left; apply Rinv_0_lt_compat; lra]|]. apply Rmult_le_reg_r with t1; [lra|]. unfold Rdiv. rewrite Rmult_assoc, Rinv_l by (apply Rgt_not_eq; lra). lra.
Qed.

(** the directions of the boundaries crossed, in order *)
Definition cu_dirs (idiff : V3 Z) (first_z : bool) : list dim3 :=
  filter (fun dir => negb (get3 idiff dir =? 0)%Z) (if first_z then [D2; D1] else [D1; D2]).

Definition first_ok (idiff : V3 Z) (s : vstate) (fz : bool) : Prop :=
  c1 idiff <> 0%Z -> c2 idiff <> 0%Z ->
  if fz then half (c1 (vs_x s) + frac (c2 idiff) (c2 (vs_x s)) (c2 (vs_dx s)) * c1 (vs_dx s))
  else half (c2 (vs_x s) + frac (c1 idiff) (c1 (vs_x s)) (c1 (vs_dx s)) * c2 (vs_dx s)).

Lemma cu_run dep g ci0 q idiff s fz d : wf_cg g -> d <> D0 -> c0 idiff = 0%Z -> halfs s ->
  (if (c1 idiff =? 0)%Z then half (c1 (vs_x s) + c1 (vs_dx s)) else beyond (c1 idiff) (c1 (vs_x s) + c1 (vs_dx s))) ->
  (if (c2 idiff =? 0)%Z then half (c2 (vs_x s) + c2 (vs_dx s)) else beyond (c2 idiff) (c2 (vs_x s) + c2 (vs_dx s))) ->
  first_ok idiff s fz ->
  let off := if fz then v3 0%Z 0%Z (c2 idiff) else v3 0%Z (c1 idiff) 0%Z in
  let '(l1, s1) := cu_step dep g ci0 q off s in
  let '(l2, s2) := cu_step dep g ci0 q (v3 0%Z (c1 idiff - c1 off)%Z (c2 idiff - c2 off)%Z) s1 in
  forall n, jcur (l1 ++ l2 ++ cu_cell_yz dep g ci0 (vs_i s2) (vs_x s2) (vs_dx s2) q) d n = jcur (vb_run g q idiff (cu_dirs idiff fz) (shs ci0 s)) d n.
Proof.
  intros Hg Hd _ Hs B1 B2 Fo off.
  assert (One : forall dir s0, dir = D1 \/ dir = D2 -> halfs s0 -> beyond (get3 idiff dir) (get3 (vs_x s0) dir + get3 (vs_dx s0) dir) ->
    exists l s', cu_step dep g ci0 q (set3 (v3 0%Z 0%Z 0%Z) dir (get3 idiff dir)) s0 = (l, s') /\
      exists l', vb_step g q idiff dir (shs ci0 s0) = (l', shs ci0 s') /\ forall n, jcur l d n = jcur l' d n).
  { intros dir s0 Hdir Hs0 Hb. pose proof (cu_step_dir dep g ci0 q idiff dir s0 d Hdir Hs0 Hb Hd) as K.
    destruct (cu_step dep g ci0 q _ s0) as [l s'], (vb_step g q idiff dir (shs ci0 s0)) as [l2 s2]. destruct K as [<- K]. exists l, s'. split; [reflexivity|]. exists l2. auto. }
  assert (Cell : forall s0 n, jcur (cu_cell_yz dep g ci0 (vs_i s0) (vs_x s0) (vs_dx s0) q) d n = jcur (vb_run g q idiff [] (shs ci0 s0)) d n).
  { intros s0 n. cbn [vb_run]. apply cu_cell_jcur. exact Hd. }
  (** one boundary *)
  assert (R1 : forall dir, dir = D1 \/ dir = D2 -> beyond (get3 idiff dir) (get3 (vs_x s) dir + get3 (vs_dx s) dir) ->
    let '(l1, s1) := cu_step dep g ci0 q (set3 (v3 0%Z 0%Z 0%Z) dir (get3 idiff dir)) s in
    forall n, jcur (l1 ++ cu_cell_yz dep g ci0 (vs_i s1) (vs_x s1) (vs_dx s1) q) d n = jcur (vb_run g q idiff [dir] (shs ci0 s)) d n).
  { intros dir Hdir Hb. destruct (One dir s Hdir Hs Hb) as (l & s' & -> & l' & Ev & K). intros n. cbn [vb_run]. rewrite Ev, !jcur_app, K, Cell. reflexivity. }
  (** two *)
  assert (R2 : forall dir, dir = D1 \/ dir = D2 -> beyond (get3 idiff dir) (get3 (vs_x s) dir + get3 (vs_dx s) dir) ->
    beyond (get3 idiff (oth dir)) (get3 (vs_x s) (oth dir) + get3 (vs_dx s) (oth dir)) ->
    half (get3 (vs_x s) (oth dir) + frac (get3 idiff dir) (get3 (vs_x s) dir) (get3 (vs_dx s) dir) * get3 (vs_dx s) (oth dir)) ->
    let '(l1, s1) := cu_step dep g ci0 q (set3 (v3 0%Z 0%Z 0%Z) dir (get3 idiff dir)) s in
    let '(l2, s2) := cu_step dep g ci0 q (set3 (v3 0%Z 0%Z 0%Z) (oth dir) (get3 idiff (oth dir))) s1 in
    forall n, jcur (l1 ++ l2 ++ cu_cell_yz dep g ci0 (vs_i s2) (vs_x s2) (vs_dx s2) q) d n = jcur (vb_run g q idiff [dir; oth dir] (shs ci0 s)) d n).
  { intros dir Hdir Hb Hbo Hh. destruct (One dir s Hdir Hs Hb) as (l & s' & -> & l' & Ev & K).
    pose proof (vb_step_ok g q idiff dir (shs ci0 s) Hg Hdir Hs Hb Hh) as St. rewrite Ev in St. destruct St as (_ & _ & Hs' & _ & _ & _ & Ho & _).
    destruct (One (oth dir) s' (oth_dir _ Hdir) Hs') as (l2 & s2 & -> & l2' & Ev2 & K2).
    { cbn [shs vs_x vs_dx] in Ho. rewrite Ho. exact Hbo. }
    intros n. cbn [vb_run]. rewrite Ev, Ev2, !jcur_app, K, K2, Cell. reflexivity. }
  unfold off, cu_dirs, first_ok in *. clear off.
  destruct (c1 idiff =? 0)%Z eqn:Z1, (c2 idiff =? 0)%Z eqn:Z2.
  - assert (E1 : c1 idiff = 0%Z) by lia. assert (E2 : c2 idiff = 0%Z) by lia. destruct fz; cbn [filter get3 c0 c1 c2]; rewrite Z1, Z2, E1, E2; cbn [negb]; change (0 - 0)%Z with 0%Z;
      rewrite !cu_step_zero; intros n; cbn [app]; apply Cell.
  - assert (E1 : c1 idiff = 0%Z) by lia. pose proof (R1 D2 (or_intror eq_refl) B2) as K. cbn [set3 get3 c0 c1 c2] in K.
    destruct fz; cbn [filter get3 c0 c1 c2]; rewrite Z1, Z2, E1; cbn [negb].
    + replace (0 - 0)%Z with 0%Z by ring. replace (c2 idiff - c2 idiff)%Z with 0%Z by ring.
      destruct (cu_step dep g ci0 q (v3 0%Z 0%Z (c2 idiff)) s) as [l1 s1]. rewrite cu_step_zero. exact K.
    + rewrite cu_step_zero. replace (0 - 0)%Z with 0%Z by ring. replace (c2 idiff - 0)%Z with (c2 idiff) by ring.
      destruct (cu_step dep g ci0 q (v3 0%Z 0%Z (c2 idiff)) s) as [l1 s1]. exact K.
  - assert (E2 : c2 idiff = 0%Z) by lia. pose proof (R1 D1 (or_introl eq_refl) B1) as K. cbn [set3 get3 c0 c1 c2] in K.
    destruct fz; cbn [filter get3 c0 c1 c2]; rewrite Z1, Z2, E2; cbn [negb].
    + rewrite cu_step_zero. replace (0 - 0)%Z with 0%Z by ring. replace (c1 idiff - 0)%Z with (c1 idiff) by ring.
      destruct (cu_step dep g ci0 q (v3 0%Z (c1 idiff) 0%Z) s) as [l1 s1]. exact K.
    + replace (0 - 0)%Z with 0%Z by ring. replace (c1 idiff - c1 idiff)%Z with 0%Z by ring.
      destruct (cu_step dep g ci0 q (v3 0%Z (c1 idiff) 0%Z) s) as [l1 s1]. rewrite cu_step_zero. exact K.
  - assert (E1 : c1 idiff <> 0%Z) by lia. assert (E2 : c2 idiff <> 0%Z) by lia. specialize (Fo E1 E2).
    destruct fz; cbn [filter get3 c0 c1 c2]; rewrite Z1, Z2; cbn [negb].
    + pose proof (R2 D2 (or_intror eq_refl) B2 B1 Fo) as K. cbn [set3 get3 c0 c1 c2 oth] in K.
      replace (c1 idiff - 0)%Z with (c1 idiff) by ring. replace (c2 idiff - c2 idiff)%Z with 0%Z by ring. exact K.
    + pose proof (R2 D1 (or_introl eq_refl) B1 B2 Fo) as K. cbn [set3 get3 c0 c1 c2 oth] in K.
      replace (c2 idiff - 0)%Z with (c2 idiff) by ring. replace (c1 idiff - c1 idiff)%Z with 0%Z by ring. exact K.
Qed.

Lemma cu_dirs_good g q idiff lg s fz : wf_cg g -> halfs s -> vs_i s = v3 0%Z (c1 lg) (c2 lg) ->
  (if (c1 idiff =? 0)%Z then half (c1 (vs_x s) + c1 (vs_dx s)) else beyond (c1 idiff) (c1 (vs_x s) + c1 (vs_dx s))) ->
  (if (c2 idiff =? 0)%Z then half (c2 (vs_x s) + c2 (vs_dx s)) else beyond (c2 idiff) (c2 (vs_x s) + c2 (vs_dx s))) ->
  first_ok idiff s fz -> run_good g q idiff lg (cu_dirs idiff fz) s /\ forall d, run_avg g q idiff d (cu_dirs idiff fz) s.
Proof.
  intros Hg Hs Ei B1 B2 Fo. unfold cu_dirs, first_ok in *.
  assert (R1 : rng idiff lg D1 (c1 (vs_i s))) by (unfold rng; rewrite Ei; cbn [get3 c1]; lia).
  assert (R2 : rng idiff lg D2 (c2 (vs_i s))) by (unfold rng; rewrite Ei; cbn [get3 c2]; lia).
  assert (I0 : c0 (vs_i s) = 0%Z) by (rewrite Ei; reflexivity).
  assert (I1 : c1 (vs_i s) = c1 lg) by (rewrite Ei; reflexivity). assert (I2 : c2 (vs_i s) = c2 lg) by (rewrite Ei; reflexivity).
  destruct (c1 idiff =? 0)%Z eqn:Z1, (c2 idiff =? 0)%Z eqn:Z2.
  - assert (E : filter (fun dir => negb (get3 idiff dir =? 0)%Z) (if fz then [D2; D1] else [D1; D2]) = []) by (destruct fz; cbn [filter get3]; rewrite Z1, Z2; reflexivity).
    rewrite E. split; [apply run0|intros d; apply ravg0]; assumption.
  - assert (E : filter (fun dir => negb (get3 idiff dir =? 0)%Z) (if fz then [D2; D1] else [D1; D2]) = [D2]) by (destruct fz; cbn [filter get3]; rewrite Z1, Z2; reflexivity).
    rewrite E. split; [apply run1|intros d; apply ravg1]; cbn [get3 oth]; tauto.
  - assert (E : filter (fun dir => negb (get3 idiff dir =? 0)%Z) (if fz then [D2; D1] else [D1; D2]) = [D1]) by (destruct fz; cbn [filter get3]; rewrite Z1, Z2; reflexivity).
    rewrite E. split; [apply run1|intros d; apply ravg1]; cbn [get3 oth]; tauto.
  - assert (E1 : c1 idiff <> 0%Z) by lia. assert (E2 : c2 idiff <> 0%Z) by lia. specialize (Fo E1 E2).
    assert (E : filter (fun dir => negb (get3 idiff dir =? 0)%Z) (if fz then [D2; D1] else [D1; D2]) = if fz then [D2; D1] else [D1; D2]) by (destruct fz; cbn [filter get3]; rewrite Z1, Z2; reflexivity).
    rewrite E. destruct fz.
    + split; [apply (run2 g q idiff lg Hg D2)|intros d; apply (ravg2 g q idiff d Hg D2)]; cbn [get3 oth]; tauto.
    + split; [apply (run2 g q idiff lg Hg D1)|intros d; apply (ravg2 g q idiff d Hg D1)]; cbn [get3 oth]; tauto.
Qed.

(** the end of the step *)
Definition cu_xp (g : cgrid) (xm v : V3 R) : V3 R := gen3 (cu_push_x g 1 xm v).

Lemma cu_dirs_get idiff fz dir : In dir (cu_dirs idiff fz) -> dir = D1 \/ dir = D2.
Proof. unfold cu_dirs. rewrite filter_In. intros [H _]. destruct fz; cbn [In] in H; intuition. Qed.

Lemma cu_yz dep g ci0 q xm v : wf_cg g -> crossing inv_yz xm (cu_xp g xm v) ->
  let lg := v3 0%Z (fint (c1 xm)) (fint (c2 xm)) in let xp := cu_xp g xm v in
  let idiff := v3 0%Z (fint (c1 xp) - fint (c1 xm))%Z (fint (c2 xp) - fint (c2 xm))%Z in
  exists fz, let dirs := cu_dirs idiff fz in
    (forall d n, d <> D0 -> jcur (cu_calc_j_yz dep g ci0 q xm v) d n = jcur (vb_run g q idiff dirs (start_yz g xm xp v lg)) d n) /\
    run_good g q idiff lg dirs (start_yz g xm xp v lg) /\ forall d, run_avg g q idiff d dirs (start_yz g xm xp v lg).
Proof.
  intros Hg Hc lg xp idiff.
  destruct (near_beyond _ _ (Hc D1 eq_refl)) as [X1 Y1]. destruct (near_beyond _ _ (Hc D2 eq_refl)) as [X2 Y2]. fold xp in Y1, Y2. cbn [get3] in X1, X2, Y1, Y2.
  set (s := {| vs_i := v3 0%Z (fint (c1 xm) - c1 ci0)%Z (fint (c2 xm) - c2 ci0)%Z;
              vs_x := v3 0 (c1 xm - IZR (fint (c1 xm)) - / 2) (c2 xm - IZR (fint (c2 xm)) - / 2);
              vs_dx := v3 (c0 v * cg_dt g * (1 / c0 (cg_dx g))) (c1 xp - c1 xm) (c2 xp - c2 xm) |}).
  assert (Es : shs ci0 s = start_yz g xm xp v lg).
  { unfold shs, start_yz, s, lg. cbn [vs_i vs_x vs_dx c0 c1 c2]. f_equal; [f_equal; ring|f_equal; ring]. }
  assert (Hs : halfs s) by (unfold halfs, s; cbn [vs_x c1 c2]; unfold half in *; lra).
  assert (B1 : if (c1 idiff =? 0)%Z then half (c1 (vs_x s) + c1 (vs_dx s)) else beyond (c1 idiff) (c1 (vs_x s) + c1 (vs_dx s))).
  { unfold idiff, s. cbn [vs_x vs_dx c1]. replace (c1 xm - IZR (fint (c1 xm)) - / 2) with (c1 xm - (IZR (fint (c1 xm)) + / 2)) by ring. exact Y1. }
  assert (B2 : if (c2 idiff =? 0)%Z then half (c2 (vs_x s) + c2 (vs_dx s)) else beyond (c2 idiff) (c2 (vs_x s) + c2 (vs_dx s))).
  { unfold idiff, s. cbn [vs_x vs_dx c2]. replace (c2 xm - IZR (fint (c2 xm)) - / 2) with (c2 xm - (IZR (fint (c2 xm)) + / 2)) by ring. exact Y2. }
  set (fz := if Rge_dec (Rabs (c2 (vs_dx s)) * (/ 2 - c1 (vs_x s) * IZR (c1 idiff))) (Rabs (c1 (vs_dx s)) * (/ 2 - c2 (vs_x s) * IZR (c2 idiff))) then true else false).
  assert (Fo : first_ok idiff s fz).
  { intros N1 N2. replace (c1 idiff =? 0)%Z with false in B1 by lia. replace (c2 idiff =? 0)%Z with false in B2 by lia. destruct Hs as [H1 H2]. unfold fz.
    destruct (Rge_dec _ _) as [G|G].
    - exact (order_half _ _ _ _ _ _ H1 H2 B1 B2 G).
    - apply (order_half _ _ _ _ _ _ H2 H1 B2 B1). apply Rnot_ge_lt in G. lra. }
  assert (Fo' : first_ok idiff (start_yz g xm xp v lg) fz).
  { rewrite <- Es. exact Fo. }
  exists fz. intros dirs. split; [|rewrite <- Es in *; apply cu_dirs_good; try assumption; rewrite Es; reflexivity].
  intros d n Hd. rewrite <- Es. pose proof (cu_run dep g ci0 q idiff s fz d Hg Hd eq_refl Hs B1 B2 Fo) as K. cbv zeta in K.
  unfold cu_calc_j_yz. change (cu_push_x g 1 xm v D1) with (c1 xp). change (cu_push_x g 1 xm v D2) with (c2 xp). cbv zeta.
  fold s. change (fint (c1 xp) - fint (c1 xm))%Z with (c1 idiff). change (fint (c2 xp) - fint (c2 xm))%Z with (c2 idiff). fold fz.
  set (off := if fz then v3 0%Z 0%Z (c2 idiff) else v3 0%Z (c1 idiff) 0%Z) in *. 
  destruct (cu_step dep g ci0 q off s) as [l1 s1]. destruct (cu_step dep g ci0 q (v3 0%Z (c1 idiff - c1 off)%Z (c2 idiff - c2 off)%Z) s1) as [l2 s2].
  rewrite jcur_app. rewrite K. rewrite jcur_other; [unfold dirs; ring|].
  intros e He. destruct dep; [|contradiction]. unfold cu_oop in He. cbn [In] in He. in_cases He; cbn [cu_add add fst]; congruence.
Qed.

Lemma cu_yz_balances dep g ci0 q xm v : wf_cg g -> crossing inv_yz xm (cu_xp g xm v) ->
  balances inv_yz (cg_dx g) (qdt g q) (cu_calc_j_yz dep g ci0 q xm v) xm (cu_xp g xm v).
Proof.
  intros Hg Hc. destruct (cu_yz dep g ci0 q xm v Hg Hc) as (fz & J & [B _] & _). set (xp := cu_xp g xm v) in *. cbv zeta in J.
  intros n. unfold div_minus, dminus. cbn [inv_yz get3 c0 c1 c2]. rewrite !J by discriminate.
  assert (B' := B). apply (balances_ext _ _ _ _ _ xm _ xp) in B'.
  - specialize (B' n). unfold div_minus, dminus in B'. cbn [inv_yz get3 c0 c1 c2] in B'. exact B'.
  - intros [] He; try discriminate He; unfold vpos, start_yz; rewrite get3_gen3; cbn [get3 vs_i vs_x vs_dx c0 c1 c2]; ring.
  - intros [] He; try discriminate He; unfold vend, start_yz; rewrite get3_gen3; cbn [get3 vs_i vs_x vs_dx c0 c1 c2]; ring.
Qed.

Lemma cu_yz_avg dep g ci0 q xm v d : wf_cg g -> crossing inv_yz xm (cu_xp g xm v) -> d <> D0 ->
  avg inv_yz (cg_dx g) (qdt g q) (cu_calc_j_yz dep g ci0 q xm v) xm (displacement g inv_yz v xm (cu_xp g xm v)) d.
Proof.
  intros Hg Hc Hd. destruct (cu_yz dep g ci0 q xm v Hg Hc) as (fz & J & _ & A). cbv zeta in J.
  refine (avg_ext _ _ _ _ _ _ _ _ _ d (fun n => J d n Hd) (fun e _ => eq_refl) (fun e => eq_refl) (start_avg _ _ _ _ _ _ _ _ (A d))).
Qed.

(** ** dim_xyz *)

Definition inv_no : V3 bool := v3 false false false.

Definition dim3_dec (a b : dim3) : {a = b} + {a <> b}. Proof. decide equality. Defined.

Lemma cu_bnd_cases dx : (dx > 0 /\ cu_bnd dx = 1) \/ (dx <= 0 /\ cu_bnd dx = -1).
Proof. unfold cu_bnd. destruct (Rgt_dec dx 0); [left|right]; lra. Qed.

Lemma cu_frac_facts x dx : half x -> 0 <= cu_frac x dx /\ (dx <> 0 -> cu_frac x dx * dx = / 2 * cu_bnd dx - x).
Proof.
  intros Hx. unfold cu_frac. destruct (Req_EM_T dx 0) as [E|E]; [split; [lra|intros; contradiction]|].
  split; [|intros _; unfold Rdiv; rewrite Rmult_assoc, Rinv_l by exact E; ring].
  unfold half in Hx. destruct (cu_bnd_cases dx) as [[S B]|[S B]]; rewrite B.
  - apply Rmult_le_pos; [lra|]. left. apply Rinv_0_lt_compat. lra.
  - assert (/ dx < 0) by (apply Rinv_lt_0_compat; lra). unfold Rdiv. nra.
Qed.

(** a fraction of the way that does not pass the boundary stays in the cell *)
Lemma cu_frac_half x dx t : half x -> 0 <= t <= cu_frac x dx -> half (x + dx * t).
Proof.
  intros Hx Ht. destruct (cu_frac_facts x dx Hx) as [P F]. unfold half in *.
  destruct (Req_dec dx 0) as [E|E]; [rewrite E; lra|]. specialize (F E).
  destruct (cu_bnd_cases dx) as [[S B]|[S B]]; rewrite B in F; nra.
Qed.

Lemma cu_pick_facts x dx step dir : (forall e, half (get3 x e)) -> cu_pick x dx = (step, dir) ->
  0 <= step <= 1 /\ (forall e, step <= cu_frac (get3 x e) (get3 dx e)) /\
  match dir with None => step = 1 | Some e => step = cu_frac (get3 x e) (get3 dx e) /\ step < 1 /\ get3 dx e <> 0 end.
Proof.
  intros Hx. unfold cu_pick, dims3. cbn [fold_left fst snd].
  pose proof (proj1 (cu_frac_facts _ (c0 dx) (Hx D0))) as P0. pose proof (proj1 (cu_frac_facts _ (c1 dx) (Hx D1))) as P1. pose proof (proj1 (cu_frac_facts _ (c2 dx) (Hx D2))) as P2.
  assert (NZ : forall e, cu_frac (get3 x e) (get3 dx e) < 1 -> get3 dx e <> 0).
  { intros e He E. unfold cu_frac in He. destruct (Req_EM_T (get3 dx e) 0); [lra|contradiction]. }
  pose proof (NZ D0) as N0. pose proof (NZ D1) as N1. pose proof (NZ D2) as N2. clear NZ. cbn [get3] in *.
  destruct (Rlt_dec (cu_frac (c0 x) (c0 dx)) 1) as [A|A]; cbn [fst snd];
  destruct (Rlt_dec (cu_frac (c1 x) (c1 dx)) _) as [B|B]; cbn [fst snd];
  destruct (Rlt_dec (cu_frac (c2 x) (c2 dx)) _) as [C|C]; cbn [fst snd]; intros E; injection E as <- <-; cbn [get3];
  (split; [lra|split; [intros []; cbn [get3]; lra|]]); try reflexivity; (split; [reflexivity|]); (split; [lra|]); first [apply N0|apply N1|apply N2]; lra.
Qed.

(** the position in the patch *)
Definition cu_pos (ci0 : V3 Z) (s : vstate) : V3 R := gen3 (fun e => IZR (get3 (vs_i s) e + get3 ci0 e) + / 2 + get3 (vs_x s) e).

(** no further boundary will be crossed in direction e *)
Definition cu_done (s : vstate) (e : dim3) : Prop := 1 <= cu_frac (get3 (vs_x s) e) (get3 (vs_dx s) e).

Definition cu_inv (ci0 : V3 Z) (xm xp : V3 R) (L : list dim3) (s : vstate) : Prop := forall e,
  half (get3 (vs_x s) e) /\ Rabs (get3 (vs_dx s) e) <= 1 /\ get3 (cu_pos ci0 s) e + get3 (vs_dx s) e = get3 xp e /\
  (if in_dec dim3_dec e L then (get3 (vs_i s) e + get3 ci0 e)%Z = fint (get3 xm e)
   else cu_done s e /\ (Z.min (fint (get3 xm e)) (fint (get3 xp e)) <= get3 (vs_i s) e + get3 ci0 e <= Z.max (fint (get3 xm e)) (fint (get3 xp e)))%Z).

Lemma Rabs_scale t y : 0 <= t <= 1 -> Rabs y <= 1 -> Rabs (y * t) <= 1.
Proof. intros Ht Hy. rewrite Rabs_mult. rewrite (Rabs_right t) by lra. pose proof (Rabs_pos y). nra. Qed.

(** one cell *)
Lemma cu_cell_ok g ci0 q i x dx : wf_cg g -> (forall e, half (get3 x e)) -> (forall e, half (get3 x e + get3 dx e)) ->
  let a := gen3 (fun e => IZR (get3 i e + get3 ci0 e) + / 2 + get3 x e) in
  let l := cu_cell_xyz g ci0 i x dx q in
  (forall d, avg inv_no (cg_dx g) (qdt g q) l a dx d) /\ balances inv_no (cg_dx g) (qdt g q) l a (gen3 (fun e => get3 a e + get3 dx e)).
Proof.
  intros Hg Hx Hy a l. set (k := gen3 (fun e => (get3 i e + get3 ci0 e)%Z)).
  assert (Hc : forall e, in_cell (get3 k e) (get3 a e) (get3 a e + get3 dx e)).
  { intros e. specialize (Hx e). specialize (Hy e). unfold in_cell, half, a, k in *. rewrite !get3_gen3. lra. }
  assert (El : l = dep1vb vb_xyz (gen3 (fun e => cg_fnqs g / cg_dt g * get3 (cg_dx g) e)) k q dx (gen3 (fun e => get3 a e + / 2 * get3 dx e - IZR (get3 k e)))).
  { unfold l, cu_cell_xyz. fold k. f_equal.
    - apply v3_ext. intros e. rewrite !get3_gen3. unfold cu_fnqs, Rdiv. ring.
    - apply v3_ext. intros e. unfold a, k. rewrite !get3_gen3. ring. }
  rewrite El. split.
  - intros d. unfold qdt. apply (dep1vb_avg vb_xyz). intros e. cbn [vb_dim_t invar_of]. destruct e; apply Hc.
  - unfold qdt. set (b := gen3 (fun e => get3 a e + get3 dx e)).
    replace dx with (gen3 (fun e => get3 b e - get3 a e)) at 1 by (apply v3_ext; intros e; unfold b; rewrite !get3_gen3; ring).
    replace (gen3 (fun e => get3 a e + / 2 * get3 dx e - IZR (get3 k e))) with (gen3 (fun e => 1 / 2 * (get3 b e + get3 a e) - IZR (get3 k e)))
      by (apply v3_ext; intros e; unfold b; rewrite !get3_gen3; lra).
    apply (dep1vb_balances vb_xyz _ _ _ _ _ _ Hg). intros e. cbn [vb_dim_t invar_of]. specialize (Hc e).
    replace (get3 b e) with (get3 a e + get3 dx e) by (unfold b; rewrite get3_gen3; reflexivity).
    destruct e; exact Hc.
Qed.

Lemma cu_cell_touches g ci0 q i x dx (A B : V3 R) :
  (forall e, Z.min (fint (get3 A e)) (fint (get3 B e)) <= get3 i e + get3 ci0 e <= Z.max (fint (get3 A e)) (fint (get3 B e)))%Z ->
  Forall (touches inv_no A B) (cu_cell_xyz g ci0 i x dx q).
Proof.
  intros H. apply Forall_forall. intros en Hen s. pose proof (dep1vb_touch _ _ _ _ _ _ _ Hen s) as T. rewrite !get3_gen3 in T. specialize (H s).
  destruct s; cbn [vb_dim_t invar_of inv_no get3 c0 c1 c2] in *; lia.
Qed.

(** crossing a boundary *)
Lemma cu_cross_facts ci0 xm xp L s step dir : cu_inv ci0 xm xp L s -> cu_pick (vs_x s) (vs_dx s) = (step, Some dir) ->
  let dx1 := gen3 (fun e => get3 (vs_dx s) e * step) in let s' := cu_cross s dx1 dir in
  In dir L /\ cu_inv ci0 xm xp (remove dim3_dec dir L) s' /\ (forall e, get3 (cu_pos ci0 s') e = get3 (cu_pos ci0 s) e + step * get3 (vs_dx s) e).
Proof.
  intros HI Ep dx1 s'. destruct (cu_pick_facts _ _ _ _ (fun e => proj1 (HI e)) Ep) as (Hs & Hle & Es & Hlt & Hn).
  destruct (cu_frac_facts _ (get3 (vs_dx s) dir) (proj1 (HI dir))) as [_ F]. specialize (F Hn). rewrite <- Es in F.
  assert (HL : In dir L).
  { destruct (HI dir) as (_ & _ & _ & K). destruct (in_dec dim3_dec dir L) as [I|I]; [exact I|]. destruct K as [K _]. unfold cu_done in K. lra. }
  assert (X : forall e, get3 (vs_x s') e = if dim3_dec e dir then - / 2 * cu_bnd (get3 (vs_dx s) dir) else get3 (vs_x s) e + get3 (vs_dx s) e * step).
  { intros e. unfold s', cu_cross. cbn [vs_x]. destruct (dim3_dec e dir) as [->|N]; [apply get3_set3_same|].
    rewrite get3_set3_other by congruence. rewrite get3_gen3. unfold dx1. rewrite get3_gen3. reflexivity. }
  assert (D : forall e, get3 (vs_dx s') e = get3 (vs_dx s) e * (1 - step)).
  { intros e. unfold s', cu_cross, dx1. cbn [vs_dx]. rewrite !get3_gen3. ring. }
  assert (J : forall e, get3 (vs_i s') e = if dim3_dec e dir then (get3 (vs_i s) dir + if Rgt_dec (get3 (vs_dx s) dir) 0 then 1 else -1)%Z else get3 (vs_i s) e).
  { intros e. unfold s', cu_cross. cbn [vs_i]. destruct (dim3_dec e dir) as [->|N]; [apply get3_set3_same|]. rewrite get3_set3_other by congruence. reflexivity. }
  assert (P : forall e, get3 (cu_pos ci0 s') e = get3 (cu_pos ci0 s) e + step * get3 (vs_dx s) e).
  { intros e. unfold cu_pos. rewrite !get3_gen3, X, J. destruct (dim3_dec e dir) as [->|N]; [|lra].
    rewrite !plus_IZR. unfold cu_bnd in *. destruct (Rgt_dec (get3 (vs_dx s) dir) 0); lra. }
  split; [exact HL|]. split; [|exact P]. intros e. destruct (HI e) as (h1 & h2 & h3 & h4). repeat match goal with |- _ /\ _ => split end.
  - rewrite X. destruct (dim3_dec e dir) as [->|N].
    + unfold half. destruct (cu_bnd_cases (get3 (vs_dx s) dir)) as [[_ B]|[_ B]]; rewrite B; lra.
    + apply cu_frac_half; [exact h1|]. specialize (Hle e). lra.
  - rewrite D. apply Rabs_scale; [lra|exact h2].
  - rewrite P, D. lra.
  - destruct (dim3_dec e dir) as [->|N].
    + destruct (in_dec dim3_dec dir (remove dim3_dec dir L)) as [I|_]; [exfalso; exact (remove_In _ _ _ I)|].
      destruct (in_dec dim3_dec dir L) as [_|I]; [|contradiction]. split.
      * unfold cu_done, cu_frac. rewrite X, D. destruct (dim3_dec dir dir) as [_|]; [|contradiction]. destruct (Req_EM_T _ 0) as [_|NE]; [lra|].
        assert (y : Rabs (get3 (vs_dx s) dir * (1 - step)) <= 1) by (apply Rabs_scale; [lra|exact h2]).
        destruct (cu_bnd_cases (get3 (vs_dx s) dir)) as [[S B]|[S B]]; rewrite B.
        -- assert (T : 0 < get3 (vs_dx s) dir * (1 - step)) by (apply Rmult_lt_0_compat; lra). rewrite Rabs_right in y by lra.
           unfold cu_bnd. destruct (Rgt_dec (get3 (vs_dx s) dir * (1 - step)) 0) as [_|]; [|lra]. apply Rmult_le_reg_r with (get3 (vs_dx s) dir * (1 - step)); [exact T|].
           unfold Rdiv. rewrite Rmult_assoc, Rinv_l by exact NE. lra.
        -- assert (T : get3 (vs_dx s) dir * (1 - step) < 0) by nra. rewrite Rabs_left in y by lra.
           unfold cu_bnd. destruct (Rgt_dec (get3 (vs_dx s) dir * (1 - step)) 0) as [|_]; [lra|]. apply Rmult_le_reg_r with (- (get3 (vs_dx s) dir * (1 - step))); [lra|].
           unfold Rdiv. replace ((/ 2 * -1 - - / 2 * -1) * / (get3 (vs_dx s) dir * (1 - step)) * - (get3 (vs_dx s) dir * (1 - step))) with 1; [lra|].
           set (u := get3 (vs_dx s) dir * (1 - step)) in *. field. exact NE.
      * rewrite J. destruct (dim3_dec dir dir) as [_|]; [|contradiction].
        assert (Q : IZR (get3 (vs_i s) dir + get3 ci0 dir) + / 2 + get3 (vs_x s) dir + get3 (vs_dx s) dir = get3 xp dir) by (rewrite <- h3; unfold cu_pos; rewrite get3_gen3; ring).
        rewrite h4 in Q. unfold half in h1. unfold cu_bnd in *. destruct (Rgt_dec (get3 (vs_dx s) dir) 0) as [S|S].
        -- assert (U : IZR (fint (get3 xm dir) + 1) <= get3 xp dir) by (rewrite plus_IZR; assert (step * get3 (vs_dx s) dir <= get3 (vs_dx s) dir) by nra; lra). apply fint_bounds in U. lia.
        -- assert (S' : get3 (vs_dx s) dir < 0) by lra.
           assert (U : get3 xp dir < IZR (fint (get3 xm dir))) by (assert (get3 (vs_dx s) dir < step * get3 (vs_dx s) dir) by nra; lra). apply fint_bounds_hi in U. lia.
    + assert (EL : In e (remove dim3_dec dir L) <-> In e L) by (split; [apply in_remove|intros; apply in_in_remove; assumption]).
      rewrite J. destruct (dim3_dec e dir) as [|_]; [contradiction|].
      destruct (in_dec dim3_dec e (remove dim3_dec dir L)) as [I|I]; destruct (in_dec dim3_dec e L) as [I'|I']; try tauto. split; [|tauto].
      destruct h4 as [K _]. unfold cu_done in *. rewrite X, D. destruct (dim3_dec e dir) as [|_]; [contradiction|].
      destruct (cu_frac_facts _ (get3 (vs_dx s) e) h1) as [_ G].
      unfold cu_frac in K |- *. destruct (Req_EM_T (get3 (vs_dx s) e * (1 - step)) 0) as [|NE]; [lra|].
      assert (NZ : get3 (vs_dx s) e <> 0) by (intros E; apply NE; rewrite E; ring). specialize (G NZ). unfold cu_frac in G. destruct (Req_EM_T (get3 (vs_dx s) e) 0) as [|_]; [contradiction|].
      set (f := (/ 2 * cu_bnd (get3 (vs_dx s) e) - get3 (vs_x s) e) / get3 (vs_dx s) e) in *.
      assert (Eb : cu_bnd (get3 (vs_dx s) e * (1 - step)) = cu_bnd (get3 (vs_dx s) e)).
      { unfold cu_bnd. destruct (Rgt_dec (get3 (vs_dx s) e) 0) as [S|S], (Rgt_dec (get3 (vs_dx s) e * (1 - step)) 0) as [T|T]; try reflexivity; nra. }
      rewrite Eb. replace ((/ 2 * cu_bnd (get3 (vs_dx s) e) - (get3 (vs_x s) e + get3 (vs_dx s) e * step)) / (get3 (vs_dx s) e * (1 - step))) with ((f - step) / (1 - step)).
      2: { replace (/ 2 * cu_bnd (get3 (vs_dx s) e) - (get3 (vs_x s) e + get3 (vs_dx s) e * step)) with (f * get3 (vs_dx s) e - step * get3 (vs_dx s) e) by lra. field. split; [lra|exact NZ]. }
      apply Rmult_le_reg_r with (1 - step); [lra|]. unfold Rdiv. rewrite Rmult_assoc, Rinv_l by (apply Rgt_not_eq; lra). lra.
Qed.

Lemma cu_loop_ok g ci0 q xm xp : wf_cg g -> forall fuel L s, (length L < fuel)%nat -> cu_inv ci0 xm xp L s ->
  exists l, cu_loop fuel g ci0 q s = Some l /\ (forall d, avg inv_no (cg_dx g) (qdt g q) l (cu_pos ci0 s) (vs_dx s) d) /\
    balances inv_no (cg_dx g) (qdt g q) l (cu_pos ci0 s) xp /\ Forall (touches inv_no xm xp) l.
Proof.
  intros Hg. induction fuel as [|fuel IH]; intros L s HL HI; [lia|]. cbn [cu_loop].
  destruct (cu_pick (vs_x s) (vs_dx s)) as [step dir] eqn:Ep.
  destruct (cu_pick_facts _ _ _ _ (fun e => proj1 (HI e)) Ep) as (Hs & Hle & Hd).
  set (dx1 := gen3 (fun e => get3 (vs_dx s) e * step)).
  destruct (cu_cell_ok g ci0 q (vs_i s) (vs_x s) dx1 Hg (fun e => proj1 (HI e))) as [A B].
  { intros e. unfold dx1. rewrite get3_gen3. apply cu_frac_half; [apply HI|]. specialize (Hle e). lra. }
  fold (cu_pos ci0 s) in A, B.
  assert (T : Forall (touches inv_no xm xp) (cu_cell_xyz g ci0 (vs_i s) (vs_x s) dx1 q)).
  { apply cu_cell_touches. intros e. destruct (HI e) as (_ & _ & _ & K). destruct (in_dec dim3_dec e L); [lia|tauto]. }
  destruct dir as [dir|].
  - destruct (cu_cross_facts _ _ _ _ _ _ _ HI Ep) as (I & HI' & P). fold dx1 in HI', P. set (s' := cu_cross s dx1 dir) in *.
    destruct (IH (remove dim3_dec dir L) s') as (l' & El & A' & B' & T'); [pose proof (remove_length_lt dim3_dec L dir I); lia|exact HI'|].
    rewrite El. eexists. split; [reflexivity|]. split; [|split].
    + intros d. apply (avg_app _ _ _ _ _ _ _ step (cu_pos ci0 s') d Hs).
      * intros e _. apply P.
      * refine (avg_ext _ _ _ _ _ _ _ _ _ d (fun n => eq_refl) (fun e _ => eq_refl) _ (A d)). intros e. unfold dx1. rewrite !get3_gen3. ring.
      * refine (avg_ext _ _ _ _ _ _ _ _ _ d (fun n => eq_refl) (fun e _ => eq_refl) _ (A' d)).
        intros e. unfold s', cu_cross, dx1. cbn [vs_dx]. rewrite !get3_gen3. ring.
    + apply balances_app with (cu_pos ci0 s'); [|exact B'].
      refine (balances_ext _ _ _ _ _ _ _ _ (fun e _ => eq_refl) _ B). intros e _. rewrite P. unfold dx1. rewrite !get3_gen3. ring.
    + apply Forall_app. split; assumption.
  - eexists. split; [reflexivity|]. split; [|split].
    + intros d. refine (avg_ext _ _ _ _ _ _ _ _ _ d (fun n => eq_refl) (fun e _ => eq_refl) _ (A d)). intros e. unfold dx1. rewrite !get3_gen3, Hd. ring.
    + refine (balances_ext _ _ _ _ _ _ _ _ (fun e _ => eq_refl) _ B). intros e _. destruct (HI e) as (_ & _ & h & _). rewrite <- h. unfold dx1. rewrite !get3_gen3, Hd. ring.
    + exact T.
Qed.

(** calc_j for dim_xyz: four iterations are enough *)
Lemma cu_calc_j_xyz_ok g ci0 q xm v n : wf_cg g -> (forall e, Rabs (get3 (cu_xp g xm v) e - get3 xm e) <= 1) ->
  exists l, cu_calc_j_xyz (4 + n) g ci0 q xm v = Some l /\
    (forall d, avg inv_no (cg_dx g) (qdt g q) l xm (gen3 (fun e => get3 (cu_xp g xm v) e - get3 xm e)) d) /\
    balances inv_no (cg_dx g) (qdt g q) l xm (cu_xp g xm v) /\ Forall (touches inv_no xm (cu_xp g xm v)) l.
Proof.
  intros Hg Hs. unfold cu_calc_j_xyz. fold (cu_xp g xm v). set (xp := cu_xp g xm v) in *.
  set (s := {| vs_i := _ |}).
  assert (P : cu_pos ci0 s = xm).
  { apply v3_ext. intros e. unfold cu_pos, s. cbn [vs_i vs_x]. rewrite !get3_gen3. rewrite plus_IZR, minus_IZR. ring. }
  assert (HI : cu_inv ci0 xm xp dims3 s).
  { intros e. unfold s at 1 2. cbn [vs_x vs_dx]. rewrite P. rewrite !get3_gen3. repeat match goal with |- _ /\ _ => split end.
    - pose proof (Zfloor_lb (get3 xm e)) as A. pose proof (Zfloor_ub (get3 xm e)) as B. unfold half, fint. lra.
    - apply Hs.
    - unfold s. cbn [vs_dx]. rewrite get3_gen3. ring.
    - destruct (in_dec dim3_dec e dims3) as [I|I]; [|exfalso; apply I; destruct e; cbn [dims3 In]; auto]. unfold s. cbn [vs_i]. rewrite !get3_gen3. ring. }
  destruct (cu_loop_ok g ci0 q xm xp Hg (4 + n) dims3 s) as (l & El & A & B & T); [cbn [dims3 length]; lia|exact HI|].
  rewrite P in A, B. exists l. split; [exact El|]. split; [|split; assumption]. intros d. exact (A d).
Qed.

(** ** yz: what is written where, and the out-of-plane current *)

Lemma cu_cell_where dep g ci0 i x dx q e : In e (cu_cell_yz dep g ci0 i x dx q) ->
  c0 (snd (fst e)) = 0%Z /\ (c1 i + c1 ci0 <= c1 (snd (fst e)) <= c1 i + c1 ci0 + 1)%Z /\ (c2 i + c2 ci0 <= c2 (snd (fst e)) <= c2 i + c2 ci0 + 1)%Z.
Proof.
  intros H. unfold cu_cell_yz in H. cbv zeta in H. rewrite !in_app_iff in H.
  destruct H as [H|[H|H]]; [destruct dep; [contradiction|]| |]; apply in_when in H; cbn [In] in H; in_cases H; cbn [cu_add add fst snd z3 c0 c1 c2]; lia.
Qed.

Lemma cu_yz_touches dep g ci0 q xm v : Forall (touches inv_yz xm (cu_xp g xm v)) (cu_calc_j_yz dep g ci0 q xm v).
Proof.
  apply Forall_forall. intros e He. set (xp := cu_xp g xm v). unfold cu_calc_j_yz in He.
  change (cu_push_x g 1 xm v D1) with (c1 xp) in He. change (cu_push_x g 1 xm v D2) with (c2 xp) in He. cbv zeta in He.
  set (b := if Rge_dec _ _ then true else false) in He. set (i1 := (fint (c1 xp) - fint (c1 xm))%Z) in He. set (i2 := (fint (c2 xp) - fint (c2 xm))%Z) in He.
  assert (K : forall a1 a2, (a1 = 0 \/ a1 = i1)%Z -> (a2 = 0 \/ a2 = i2)%Z ->
     c0 (snd (fst e)) = 0%Z /\ (fint (c1 xm) + a1 <= c1 (snd (fst e)) <= fint (c1 xm) + a1 + 1)%Z /\ (fint (c2 xm) + a2 <= c2 (snd (fst e)) <= fint (c2 xm) + a2 + 1)%Z ->
     touches inv_yz xm xp e).
  { intros a1 a2 H1 H2 (E0 & E1 & E2) []; cbn [inv_yz get3 c0 c1 c2]; [exact E0| |]; unfold i1, i2 in *; lia. }
  destruct (cu_step dep g ci0 q (if b then v3 0%Z 0%Z i2 else v3 0%Z i1 0%Z) _) as [l1 s1] eqn:S1.
  destruct (cu_step dep g ci0 q (v3 0%Z _ _) s1) as [l2 s2] eqn:S2. unfold cu_step in S1, S2. cbv zeta in S1, S2. cbn [vs_i vs_x vs_dx] in S1.
  injection S1 as <- <-. injection S2 as <- <-. rewrite !in_app_iff in He. cbn [cu_upd vs_i c0 c1 c2] in He.
  destruct He as [He|[He|[He|He]]].
  - destruct dep; [|contradiction]. unfold cu_oop in He.
    assert (Y : forall e0, (Z.min (fint (get3 xm e0)) (fint (get3 xp e0)) <= fint (cu_push_x g (/ 2) xm v e0) <= Z.max (fint (get3 xm e0)) (fint (get3 xp e0)))%Z).
    { intros e0. replace (cu_push_x g (/ 2) xm v e0) with (1 / 2 * (get3 xp e0 + get3 xm e0)).
      - apply btw_fint. apply btw_mid.
      - unfold xp, cu_xp. rewrite get3_gen3. unfold cu_push_x, Rdiv. set (T := / get3 (cg_dx g) e0). clearbody T. field. }
    pose proof (Y D1) as Y1. pose proof (Y D2) as Y2. cbn [get3] in Y1, Y2.
    cbn [In] in He. in_cases He; intros []; cbn [inv_yz get3 cu_add add fst snd z3 c0 c1 c2]; lia.
  - apply cu_cell_where in He. cbn [c1 c2] in He. apply (K 0%Z 0%Z); [auto..|]. lia.
  - apply cu_cell_where in He. cbn [c1 c2] in He. destruct b; cbn [c1 c2] in He; [apply (K 0%Z i2)|apply (K i1 0%Z)]; auto; lia.
  - apply cu_cell_where in He. cbn [c1 c2] in He. apply (K i1 i2); auto; destruct b; cbn [c1 c2] in He; lia.
Qed.

Lemma total_when d m l : (m = 0 -> total d l = 0) -> total d (when_moved m l) = total d l.
Proof. intros H. unfold when_moved. destruct (Req_EM_T m 0) as [E|]; [rewrite (H E); reflexivity|reflexivity]. Qed.

Lemma total_cu_cell g ci0 i x dx q d : total d (cu_cell_yz vb_3d g ci0 i x dx q) = q * cu_fnqs g d * get3 dx d.
Proof.
  unfold cu_cell_yz. cbv zeta. rewrite !total_app.
  rewrite !total_when by (intros E; destruct d; unfold cu_add; tot; rewrite ?E; ring). unfold cu_add. destruct d; tot; cbn [get3]; field.
Qed.

Lemma total_cu_cell_2d g ci0 i x dx q d : total d (cu_cell_yz vb_2d g ci0 i x dx q) = if dim3_eqb d D0 then 0 else q * cu_fnqs g d * get3 dx d.
Proof.
  unfold cu_cell_yz. cbv zeta. rewrite !total_app.
  rewrite !total_when by (intros E; destruct d; unfold cu_add; tot; rewrite ?E; ring). unfold cu_add. destruct d; tot; cbn [get3 dim3_eqb]; field.
Qed.

Lemma cu_upd_dx s dx1 off e : get3 (vs_dx (cu_upd s dx1 off)) e = get3 (vs_dx s) e - get3 dx1 e.
Proof. destruct e; reflexivity. Qed.

Lemma total_cu_yz dep g ci0 q xm v d : wf_cg g -> cg_dt g <> 0 -> total d (cu_calc_j_yz dep g ci0 q xm v) = q * cg_fnqs g * get3 v d.
Proof.
  intros Hg Ht. unfold cu_calc_j_yz. cbv zeta.
  match goal with |- context [cu_step dep g ci0 q ?o ?st] => set (s := st); set (off := o) end.
  assert (Es : q * cu_fnqs g d * get3 (vs_dx s) d = q * cg_fnqs g * get3 v d).
  { unfold cu_fnqs, s, cu_push_x. cbn [vs_dx]. pose proof (Hg d). destruct d; cbn [get3 c0 c1 c2] in *; field; auto. }
  unfold cu_step. cbv zeta. rewrite !total_app. destruct dep.
  - rewrite !total_cu_cell_2d, !cu_upd_dx. destruct (dim3_eqb d D0) eqn:E.
    + apply dim3_eqb_eq in E. subst d. unfold cu_oop, cu_add. tot. cbn [get3]. ring.
    + replace (total d (cu_oop g ci0 q xm v)) with 0; [rewrite <- Es; ring|]. unfold cu_oop, cu_add. destruct d; [discriminate E| |]; tot; ring.
  - rewrite !total_cu_cell, !cu_upd_dx, total_nil, <- Es. ring.
Qed.

(** DEPOSIT_VB_2D: the out-of-plane current belongs to the position halfway *)
Lemma cu_2d_oop g ci0 q xm v n : let mid := gen3 (fun e => get3 xm e + / 2 * (get3 (cu_xp g xm v) e - get3 xm e)) in
  jcur (cu_calc_j_yz vb_2d g ci0 q xm v) D0 n = q * cg_fnqs g * c0 v * ((if (c0 n =? 0)%Z then 1 else 0) * (hat (c1 mid - IZR (c1 n)) * hat (c2 mid - IZR (c2 n)))).
Proof.
  intros mid. unfold cu_calc_j_yz. cbv zeta. unfold cu_step. cbv zeta. rewrite !jcur_app.
  assert (Z : forall i x dx, jcur (cu_cell_yz vb_2d g ci0 i x dx q) D0 n = 0).
  { intros. apply jcur_other. intros e He. unfold cu_cell_yz in He. cbv zeta in He. rewrite !in_app_iff in He.
    destruct He as [[]|[He|He]]; apply in_when in He; cbn [In] in He; in_cases He; discriminate. }
  rewrite !Z. clear Z.
  assert (M : forall e, cu_push_x g (/ 2) xm v e = get3 mid e).
  { intros e. unfold mid, cu_xp. rewrite !get3_gen3. unfold cu_push_x, Rdiv. ring. }
  unfold cu_oop. cbv zeta. rewrite !M. cbn [get3].
  assert (C : forall a k, hat (a - IZR k) = (1 - (a - IZR (fint a))) * delta (fint a) k + (a - IZR (fint a)) * delta (fint a + 1) k).
  { intros a k. rewrite (hat_cell a (fint a) k); [reflexivity|]. pose proof (Zfloor_lb a). pose proof (Zfloor_ub a). unfold fint. lra. }
  rewrite (C (c1 mid)), (C (c2 mid)). clear C M.
  unfold jcur, cu_add, add, z3. cbn [map fst snd dim3_eqb]. unfold rsum. cbn [fold_right]. unfold delta3. cbn [c0 c1 c2].
  replace (fint (c1 mid) - c1 ci0 + c1 ci0)%Z with (fint (c1 mid)) by ring. replace (fint (c2 mid) - c2 ci0 + c2 ci0)%Z with (fint (c2 mid)) by ring.
  replace (fint (c1 mid) - c1 ci0 + 1 + c1 ci0)%Z with (fint (c1 mid) + 1)%Z by ring. replace (fint (c2 mid) - c2 ci0 + 1 + c2 ci0)%Z with (fint (c2 mid) + 1)%Z by ring.
  replace (delta 0 (c0 n)) with (if (c0 n =? 0)%Z then 1 else 0) by (unfold delta; rewrite Z.eqb_sym; reflexivity).
  set (m1 := c1 mid). set (m2 := c2 mid). clearbody m1 m2. ring.
Qed.
