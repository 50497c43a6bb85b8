From Coq Require Import Reals Lra Psatz.
From Flocq Require Import Core.
From Verif Require Import Base RSum FieldModel FieldSpec DepositModel DepositSpec DepositProofs CurrentModel CurrentProofs.
Local Open Scope R_scope.

(** A fast particle on an xz grid with equal spacings: it moves more than half a cell
    in the invariant direction and the part after the crossing is put into cell 1 of
    that direction. *)
Definition fast_g : cgrid := {| cg_dt := 53 / 100; cg_dx := v3 1 1 1; cg_fnqs := 1 |}.
Definition fast_v : V3 R := v3 (1 / 10) (99 / 100) 0.
Definition fast_xm : V3 R := v3 (951 / 1000) 0 (1 / 2).
Definition fast_xp : V3 R := v3 (1004 / 1000) 0 (1 / 2).

Lemma fint_k k x : IZR k <= x < IZR k + 1 -> fint x = k.
Proof. apply fint_unique. Qed.

Lemma fast_share_p : share hat (invar_of dim_xz) fast_xp (v3 2 0 0)%Z = 1 / 500.
Proof.
  rewrite share_get. cbn [invar_of get3 c0 c1 c2 fast_xp]. rewrite delta_same.
  rewrite (hat_cell (1004 / 1000) 1 2), (hat_cell (1 / 2) 0 0) by lra. rewrite (delta_diff 1 2), (delta_same), (delta_same 0), (delta_diff (0 + 1) 0) by lia. lra.
Qed.

Lemma fast_share_m : share hat (invar_of dim_xz) fast_xm (v3 2 0 0)%Z = 0.
Proof.
  rewrite share_get. cbn [invar_of get3 c0 c1 c2 fast_xm].
  rewrite (hat_cell (951 / 1000) 0 2) by lra. rewrite (delta_diff 0 2), (delta_diff (0 + 1) 2) by lia. lra.
Qed.

(** entries outside the plane y = 0 do not count there, nor do those of the cell x = 0
    around x = 2 *)
Lemma dep1vb_away fnqs k q dx xa : c1 k <> 0%Z \/ c0 k = 0%Z ->
  div_minus (invar_of dim_xz) (v3 1 1 1) (jcur (dep1vb vb_xz fnqs k q dx xa)) (v3 2 0 0)%Z = 0.
Proof.
  intros H. destruct k as [k0 k1 k2], dx as [x0 x1 x2], xa as [y0 y1 y2]. cbn [c0 c1] in H.
  unfold div_minus, dminus. cbn [invar_of get3 c0 c1 c2]. unfold jcur, dep1vb, shift, set3, add, z3. cbn [get3 c0 c1 c2 map fst snd dim3_eqb].
  unfold rsum. cbn [fold_right]. unfold delta3. cbn [c0 c1 c2].
  destruct H as [H|H].
  - rewrite !(delta_diff k1 0) by lia. field.
  - subst k0. rewrite (delta_diff 0 2), (delta_diff (0 + 1) 2), (delta_diff 0 (2 + -1)) by lia. field.
Qed.

Lemma div_app inv h l1 l2 n : div_minus inv h (jcur (l1 ++ l2)) n = div_minus inv h (jcur l1) n + div_minus inv h (jcur l2) n.
Proof. rewrite (div_minus_ext inv h _ (fun d m => jcur l1 d m + jcur l2 d m)) by (intros; apply jcur_app). apply div_minus_plus. Qed.

Lemma one_cell_away g q a b : cg_dx g = v3 1 1 1 -> fint (1 / 2 * (c1 b + c1 a)) <> 0%Z \/ fint (1 / 2 * (c0 b + c0 a)) = 0%Z ->
  div_minus (invar_of dim_xz) (v3 1 1 1) (jcur (one_cell g vb_xz q a b)) (v3 2 0 0)%Z = 0.
Proof. intros _ H. unfold one_cell. apply dep1vb_away. exact H. Qed.

Lemma fast_split_div : div_minus (invar_of dim_xz) (v3 1 1 1) (jcur (calc_j_split fast_g vb_xz 1 fast_xm fast_xp fast_v)) (v3 2 0 0)%Z = 0.
Proof.
  unfold calc_j_split, invar_pos. cbn [vb_dim_t]. unfold split_dim_z, split_dim_y, split_dim_x, split_dim.
  cbn [vb_dim_t invar_of get3 c0 c1 c2 gen3 orb fast_xm fast_xp]. unfold gen3. cbn [get3 c0 c1 c2].
  rewrite (fint_k 0 (1 / 2)) by lra. cbn [Z.eqb]. rewrite (fint_k 0 (951 / 1000)), (fint_k 1 (1004 / 1000)) by lra. cbn [Z.eqb orb].
  rewrite div_app, !one_cell_away; try reflexivity; try ring; unfold split_x1, gen3; cbn [get3 c0 c1 c2 dim3_eqb Z.max Z.compare fast_g fast_v cg_dt cg_dx].
  - left. unfold fast_xm, fast_xp. cbn [c0]. replace ((1 - 951 / 1000) / (1004 / 1000 - 951 / 1000)) with (49 / 53) by lra.
    match goal with |- fint ?x <> _ => rewrite (fint_k 1 x) by lra end. lia.
  - right. unfold fast_xm. cbn [c0]. apply fint_k. lra.
Qed.

Lemma fast_zigzag_div : div_minus (invar_of dim_xz) (v3 1 1 1) (jcur (calc_j_zigzag fast_g vb_xz 1 fast_xm fast_xp fast_v)) (v3 2 0 0)%Z = 0.
Proof.
  unfold calc_j_zigzag, zigzag_pos. cbn [vb_dim_t invar_of c0 c1 c2 set3 get3 fast_xm fast_xp].
  unfold zigzag_crossed, dims3. cbn [existsb get3 c0 c1 c2]. rewrite (fint_k 0 (951 / 1000)), (fint_k 1 (1004 / 1000)) by lra. cbn [Z.eqb negb orb].
  rewrite div_app, !one_cell_away; try reflexivity; try ring; unfold zigzag_xr, gen3; cbn [get3 c0 c1 c2 fast_g fast_v cg_dt cg_dx];
    rewrite (fint_k 0 (951 / 1000)), (fint_k 1 (1004 / 1000)), (fint_k 0 (/ 2)), (fint_k 1 (/ 2 + 99 / 100 * (53 / 100) * (1 / 1))) by lra; cbn [Z.eqb Z.max Z.compare].
  - left. unfold fast_xm, fast_xp. cbn [c0]. match goal with |- fint ?x <> _ => rewrite (fint_k 1 x) by lra end. lia.
  - right. unfold fast_xm. cbn [c0]. apply fint_k. lra.
Qed.
