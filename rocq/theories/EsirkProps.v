(** C25, C52: Esirkepov's current deposition, and the points the currents are written to. *)
From Coq Require Import Reals Lra Psatz.
From Flocq Require Import Core.
From Verif Require Import Base RSum FieldModel FieldSpec DepositModel DepositSpec DepositProofs CurrentModel CurrentProofs PushSpec EsirkModel EsirkProofs DepositProps.
Local Open Scope R_scope.

(** the density of a particle on the nodes, with the shape function of the order *)
Definition charge_es (o : order) (g : cgrid) (q : R) (inv : V3 bool) (x : V3 R) (n : V3 Z) : R := cg_fnqs g * q * share (sh_of o) inv x n.

(** the step from xm to xp, which adds the entries l to the current J, conserves charge *)
Definition conserves_es (o : order) (g : cgrid) (q : R) (inv : V3 bool) (xm xp : V3 R) (l : list entry) : Prop :=
  forall J n, (charge_es o g q inv xp n - charge_es o g q inv xm n) / cg_dt g +
    (div_minus inv (cg_dx g) (cadd_all J l) n - div_minus inv (cg_dx g) J n) = 0.

(** less than one cell in each direction *)
Definition shorter_step (inv : V3 bool) (xm xp : V3 R) : Prop := forall e, get3 inv e = false -> Rabs (get3 xp e - get3 xm e) < 1.

(** the combinations the code has *)
Definition supported (o : order) (d : dim_t) : Prop :=
  match o, d with o1st, (dim_xz | dim_yz) => True | o1st, _ => False | o2nd, dim_x => False | o2nd, _ => True end.

Lemma shorter_closes o inv xm xp : shorter_step inv xm xp -> closes o inv xm xp.
Proof.
  intros H e He. specialize (H e He). unfold close. set (a := get3 xm e) in *. set (b := get3 xp e) in *. apply Rabs_def2 in H.
  assert (B : forall k m : Z, -2 < IZR k - IZR m < 2 -> (Z.abs (k - m) <= 1)%Z).
  { intros k m [B1 B2]. rewrite <- minus_IZR in *. apply lt_IZR in B1, B2. lia. }
  apply B. destruct o; cbn [coeff_l].
  - pose proof (floor_spec a). pose proof (floor_spec b). lra.
  - pose proof (Rabs_def2b _ _ (nint_spec a)). pose proof (Rabs_def2b _ _ (nint_spec b)). lra.
Qed.

Lemma calc_esirk_total o d g q xm xp v : supported o d -> closes o (invar_of d) xm xp -> exists l, calc_esirk o d g q xm xp v = Some l.
Proof.
  intros S H.
  assert (X : forall e, get3 (invar_of d) e = false -> exists c, current_dir o (get3 xm e) (get3 xp e) = Some c).
  { intros e He. destruct (current_dir_ok o _ _ (H e He)) as (c & E & _). exists c. exact E. }
  unfold calc_esirk. destruct o, d; cbn in S; try contradiction; cbv zeta beta iota;
    repeat match goal with |- context [current_dir ?o (get3 xm ?e) ?b] => destruct (X e eq_refl) as [? ->] end; eexists; reflexivity.
Qed.

Theorem C25_conserves : forall o d g q xm xp v, supported o d -> wf_cg g -> shorter_step (invar_of d) xm xp ->
  exists l, calc_esirk o d g q xm xp v = Some l /\ conserves_es o g q (invar_of d) xm xp l.
Proof.
  intros o d g q xm xp v S Hg H. pose proof (shorter_closes o _ _ _ H) as C. destruct (calc_esirk_total o d g q xm xp v S C) as [l E].
  exists l. split; [exact E|]. destruct (calc_esirk_run o d g q xm xp v l Hg C E) as [B _].
  intros J n. specialize (B n). rewrite (div_minus_ext (invar_of d) _ _ (fun d m => J d m + jcur l d m)) by (intros; apply cadd_all_get).
  rewrite div_minus_plus. unfold charge_es, Rdiv in *. lra.
Qed.
Print Assumptions C25_conserves.

(** the code's own deposition gives that density *)
Theorem C25_with_deposition : forall o d g q xm xp l ib fm fp, dep_dim d -> wf_ib d ib -> wf_cg g -> conserves_es o g q (invar_of d) xm xp l ->
  let s := match o with o1st => dep_1st_nc | o2nd => dep_2nd_nc end in
  code_dep s d (cg_dx g) (cg_fnqs g) ib (gen3 (fun e => get3 xm e * get3 (cg_dx g) e)) q (fun _ => 0) = Some fm ->
  code_dep s d (cg_dx g) (cg_fnqs g) ib (gen3 (fun e => get3 xp e * get3 (cg_dx g) e)) q (fun _ => 0) = Some fp ->
  forall m, (fp m - fm m) / cg_dt g + div_minus (invar_of d) (cg_dx g) (cadd_all (fun _ _ => 0) l) (node ib m) = 0.
Proof.
  intros o d g q xm xp l ib fm fp Hd Hib Hg H s Em Ep m.
  assert (P : forall x, place s (cg_dx g) (gen3 (fun e => get3 x e * get3 (cg_dx g) e)) = x).
  { intros x. apply v3_ext. intros e. unfold place. rewrite !get3_gen3. replace (offset_of s) with 0 by (destruct o; reflexivity). field. apply Hg. }
  rewrite (code_dep_share _ _ _ _ _ _ _ _ _ m Hib Em), (code_dep_share _ _ _ _ _ _ _ _ _ m Hib Ep), !P.
  specialize (H (fun _ _ => 0) (node ib m)). unfold charge_es in H. replace (shape_of s) with (sh_of o) by (destruct o; reflexivity).
  assert (Z0 : div_minus (invar_of d) (cg_dx g) (fun _ _ => 0) (node ib m) = 0).
  { unfold div_minus, dminus, Rdiv. repeat match goal with |- context [if ?b then _ else _] => destruct b end; ring. }
  rewrite Z0 in H. unfold Rdiv in *. lra.
Qed.
Print Assumptions C25_with_deposition.

(** a particle that changes cells in two directions; the hypotheses of both theorems *)
Example ex_C25 : supported o2nd dim_xyz /\ supported o1st dim_yz /\ wf_cg ex_cg /\ shorter_step (invar_of dim_xyz) ex_xm ex_xp /\
  dep_dim dim_yz /\ wf_ib dim_yz (v3 0 (-2) (-2))%Z /\ fint (c1 ex_xm) = 0%Z /\ fint (c1 ex_xp) = (-1)%Z /\
  charge_es o1st ex_cg 1 (invar_of dim_yz) ex_xp (v3 0 (-1) 0)%Z - charge_es o1st ex_cg 1 (invar_of dim_yz) ex_xm (v3 0 (-1) 0)%Z = 1 / 4 * (1 / 4).
Proof.
  split; [exact I|]. split; [exact I|]. split; [apply ex_C24|]. split; [intros e _; destruct e; cbn; apply Rabs_def1; lra|].
  split; [right; reflexivity|]. split; [intros e; destruct e; cbn; intros; congruence|].
  split; [apply fint_unique; cbn; lra|]. split; [apply fint_unique; cbn; lra|].
  unfold charge_es. rewrite !share_get. unfold ex_xm, ex_xp. cbn [get3 c0 c1 c2 invar_of ex_cg cg_fnqs sh_of]. rewrite delta_same. unfold hat, Rmax, Rabs.
  repeat (destruct (Rcase_abs _); try lra); repeat (destruct (Rle_dec _ _); try lra).
Qed.

(** ** C52: currents are written to the patch and its two layers of ghost points *)

(** the entry lies in the patch or the ibn layers of ghost points around it *)
Definition in_ghosts (inv : V3 bool) (ibn : Z) (ld : V3 Z) (e : entry) : Prop :=
  forall d, if get3 inv d then get3 (snd (fst e)) d = 0%Z else (- ibn <= get3 (snd (fst e)) d < get3 ld d + ibn)%Z.

Definition starts_inside (inv : V3 bool) (ld : V3 Z) (xm : V3 R) : Prop := forall d, get3 inv d = false -> 0 <= get3 xm d < IZR (get3 ld d).

(** first order: the 1vb variants and Esirkepov *)
Theorem C52_first_order : forall g q ld xm xp v, wf_cg g ->
  (forall d inv, d = vb_xyz -> inv = invar_of dim_xyz -> starts_inside inv ld xm -> shorter_step inv xm xp ->
     Forall (in_ghosts inv 2 ld) (calc_j_split g d q xm xp v ++ calc_j_zigzag g d q xm xp v)) /\
  (forall inv lf lg, inv = invar_of dim_yz -> starts_inside inv ld xm -> shorter_step inv xm xp -> cells_of inv xm xp lf lg ->
     Forall (in_ghosts inv 2 ld) (calc_j_var1 g q xm xp lf lg v ++ calc_j_2d g q xm xp lf lg)) /\
  (forall d l, starts_inside (invar_of d) ld xm -> shorter_step (invar_of d) xm xp -> calc_esirk o1st d g q xm xp v = Some l ->
     Forall (in_ghosts (invar_of d) 2 ld) l).
Proof.
  intros g q ld xm xp v Hg.
  assert (R : forall inv l, Forall (reaches inv ld) l -> Forall (in_ghosts inv 2 ld) l).
  { intros inv l. apply Forall_impl. intros e He d. specialize (He d). destruct (get3 inv d); [exact He|lia]. }
  assert (S : forall inv, shorter_step inv xm xp -> short_step inv xm xp) by (intros inv H e He; left; apply H; exact He).
  split; [|split].
  - intros d inv -> -> Hin Hs. apply Forall_app.
    destruct (proj1 (C24_in_bounds g q ld xm xp v (v3 0 0 0)%Z (v3 0 0 0)%Z Hg) vb_xyz (conj Hin (S _ Hs))) as [A B]; [intros e; destruct e; discriminate|].
    split; apply R; assumption.
  - intros inv lf lg -> Hin Hs Hl. apply Forall_app. destruct (proj2 (C24_in_bounds g q ld xm xp v lf lg Hg) (conj Hin (S _ Hs)) Hl) as [A B].
    split; apply R; assumption.
  - intros d l Hin Hs E. pose proof (shorter_closes o1st _ _ _ Hs) as C. destruct (calc_esirk_run o1st d g q xm xp v l Hg C E) as [_ T].
    rewrite Forall_forall in *. intros e He k. specialize (T e He k). cbv zeta in T. destruct (get3 (invar_of d) k) eqn:Ek; [exact T|].
    specialize (Hin k Ek). pose proof (C k Ek) as N. unfold close in N. cbn [coeff_l s_off] in *.
    assert (0 <= fint (get3 xm k))%Z by (apply fint_bounds; apply Hin). assert (fint (get3 xm k) < get3 ld k)%Z by (apply fint_bounds_hi; apply Hin). lia.
Qed.
Print Assumptions C52_first_order.

(** second order: three layers always suffice, two if no particle moves more than half a cell *)
Theorem C52_second_order_partial : forall d g q ld xm xp v l, wf_cg g -> starts_inside (invar_of d) ld xm -> shorter_step (invar_of d) xm xp ->
  calc_esirk o2nd d g q xm xp v = Some l ->
  Forall (in_ghosts (invar_of d) 3 ld) l /\
  ((forall e, get3 (invar_of d) e = false -> Rabs (get3 xp e - get3 xm e) <= / 2) -> Forall (in_ghosts (invar_of d) 2 ld) l).
Proof.
  intros d g q ld xm xp v l Hg Hin Hs E. pose proof (shorter_closes o2nd _ _ _ Hs) as C. destruct (calc_esirk_run o2nd d g q xm xp v l Hg C E) as [_ T].
  assert (N0 : forall k, get3 (invar_of d) k = false -> (0 <= nint (get3 xm k) <= get3 ld k)%Z).
  { intros k Ek. specialize (Hin k Ek). split; [apply nint_bounds; apply Hin|apply nint_bounds_hi; left; apply Hin]. }
  split.
  - rewrite Forall_forall in *. intros e He k. specialize (T e He k). cbv zeta in T. destruct (get3 (invar_of d) k) eqn:Ek; [exact T|].
    specialize (N0 k Ek). pose proof (C k Ek) as N. unfold close in N. cbn [coeff_l s_off] in *. lia.
  - intros H2. rewrite Forall_forall in *. intros e He k. specialize (T e He k). cbv zeta in T. destruct (get3 (invar_of d) k) eqn:Ek; [exact T|].
    specialize (N0 k Ek). pose proof (C k Ek) as N. unfold close in N. cbn [coeff_l s_off] in *.
    assert (nint (get3 xp k) <= get3 ld k)%Z; [|lia].
    specialize (Hin k Ek). specialize (H2 k Ek). apply Rabs_def2b in H2. unfold nint.
    assert (U : get3 xp k < IZR (get3 ld k) + / 2) by lra.
    pose proof (Rabs_def2b _ _ (nint_spec (get3 xp k))) as [B1 B2]. unfold nint in *.
    destruct (Z_le_gt_dec (ZnearestA (get3 xp k)) (get3 ld k)) as [L|L]; [exact L|].
    assert (IZR (get3 ld k + 1) <= IZR (ZnearestA (get3 xp k))) by (apply IZR_le; lia). rewrite plus_IZR in *. lra.
Qed.
Print Assumptions C52_second_order_partial.

Definition es_ld : V3 Z := v3 1%Z 8%Z 8%Z.
Definition es_v : V3 R := v3 (1 / 10) (99 / 100) 0.
Definition es_g : cgrid := {| cg_dt := 53 / 100; cg_dx := v3 1 1 1; cg_fnqs := 1 |}.
Definition es_xm : V3 R := v3 (1 / 2) (799 / 100) 4.
Definition es_xp : V3 R := v3 (1 / 2) (799 / 100 + 53 / 100 * (99 / 100)) 4.

Lemma nint_k k x : Rabs (x - IZR k) < / 2 -> nint x = k.
Proof. intros H. unfold nint. apply Znearest_imp. rewrite <- Rabs_Ropp. rewrite Ropp_minus_distr. rewrite <- Rabs_Ropp, Ropp_minus_distr. replace (/ 2) with (/ 2)%R in H by reflexivity. exact H. Qed.

(** two layers, as all the set-ups use (n_ghosts = 2), are not enough: a particle slower
    than light, with cubic cells and a time step below 3/4 of the Courant limit *)
Theorem C52_second_order_refuted : exists g ld xm xp v l e, wf_cg g /\ cg_dx g = v3 1 1 1 /\ 0 < cg_dt g /\ cg_dt g * cg_dt g * (1 + 1) < 3 / 4 * (3 / 4) /\
  dot v v < 1 /\ c1 xp = c1 xm + cg_dt g * c1 v /\ c2 xp = c2 xm + cg_dt g * c2 v /\ starts_inside (invar_of dim_yz) ld xm /\ shorter_step (invar_of dim_yz) xm xp /\
  calc_esirk o2nd dim_yz g 1 xm xp v = Some l /\ In e l /\ ~ in_ghosts (invar_of dim_yz) 2 ld e.
Proof.
  assert (S : shorter_step (invar_of dim_yz) es_xm es_xp) by (intros e; destruct e; cbn; try discriminate; intros _; apply Rabs_def1; lra).
  destruct (calc_esirk_total o2nd dim_yz es_g 1 es_xm es_xp es_v I (shorter_closes o2nd _ _ _ S)) as [l E].
  exists es_g, es_ld, es_xm, es_xp, es_v, l.
  assert (X : exists e, In e l /\ c1 (snd (fst e)) = 10%Z).
  { unfold calc_esirk in E. cbv zeta in E.
    destruct (current_dir_ok o2nd _ _ (shorter_closes o2nd _ _ _ S D1 eq_refl)) as (y & Ey & Ky).
    destruct (current_dir_ok o2nd _ _ (shorter_closes o2nd _ _ _ S D2 eq_refl)) as (z & Ez & Kz).
    rewrite Ey, Ez in E. injection E as <-. cbn [get3 es_xm es_xp c1 c2] in Ky, Kz.
    pose proof (do_lo _ _ _ _ Ky) as L1. pose proof (do_hi _ _ _ _ Ky) as L2. pose proof (do_min _ _ _ _ Kz) as L3. pose proof (do_max _ _ _ _ Kz) as L4. pose proof (do_lg _ _ _ _ Ky) as L5.
    cbn [coeff_l s_off] in *. rewrite (nint_k 8 (799 / 100)) in L1, L2, L5 by (apply Rabs_def1; lra). rewrite (nint_k 9) in L1, L2 by (apply Rabs_def1; lra).
    unfold calc_yz_2nd, full at 1. rewrite (zrange_cons (cd_lmin z)) by lia. cbn [calc_yz_outer].
    assert (G : forall l3 l2s jyh jzh l2, In l2 l2s -> exists e, In e (fst (calc_yz_inner y z (es_fnqv es_g 1 es_v D0) (es_fnq es_g 1 D1) (es_fnq es_g 1 D2) l3 jyh jzh l2s)) /\ c1 (snd (fst e)) = (cd_lg y + l2)%Z).
    { intros l3. induction l2s as [|b l2s IH]; intros jyh jzh l2 [].
      - subst b. cbn [calc_yz_inner]. destruct (calc_yz_inner _ _ _ _ _ _ _ _ _). eexists. split; [left; reflexivity|reflexivity].
      - cbn [calc_yz_inner]. match goal with |- context [calc_yz_inner y z ?a ?b ?c l3 ?d ?f l2s] => destruct (IH d f l2 H) as (e & He & Ee); destruct (calc_yz_inner y z a b c l3 d f l2s) end.
        exists e. split; [apply in_or_app; right; exact He|exact Ee]. }
    destruct (G (cd_lmin z) (full y) 0 (fun _ => 0) 2%Z) as (e & He & Ee).
    { unfold full. apply in_zrange. lia. }
    destruct (calc_yz_inner _ _ _ _ _ _ _ _ _) as [r jz]. exists e. split; [apply in_or_app; left; exact He|]. rewrite Ee. lia. }
  destruct X as (e & He & Ee). exists e.
  split; [intros k; destruct k; cbn; lra|]. split; [reflexivity|]. cbn [es_g cg_dt]. split; [lra|]. split; [lra|].
  split; [unfold dot, es_v; cbn [c0 c1 c2]; lra|]. split; [reflexivity|]. split; [cbn; ring|].
  split; [intros k; destruct k; cbn; try discriminate; intros _; lra|]. split; [exact S|]. split; [exact E|]. split; [exact He|].
  intros H. specialize (H D1). cbn [invar_of get3 c0 c1 c2 es_ld] in H. lia.
Qed.
Print Assumptions C52_second_order_refuted.

(** the hypotheses of C52_first_order and C52_second_order_partial, with a particle that
    leaves the patch *)
Example ex_C52 : wf_cg ex_cg /\ starts_inside (invar_of dim_xyz) ex_ld ex_xm /\ shorter_step (invar_of dim_xyz) ex_xm ex_xp /\
  cells_of (invar_of dim_yz) ex_xm ex_xp (v3 0 (-1) 0)%Z (v3 0 0 0)%Z /\ (exists l, calc_esirk o2nd dim_xyz ex_cg 1 ex_xm ex_xp (v3 0 0 0) = Some l) /\
  (forall e, Rabs (get3 ex_xp e - get3 ex_xm e) <= / 2).
Proof.
  destruct ex_C25 as (S & _ & W & H & _). split; [exact W|]. split; [intros e; destruct e; cbn; intros _; lra|]. split; [exact H|]. split; [apply ex_C24|].
  split; [|intros e; destruct e; cbn; apply Rabs_le; lra]. apply calc_esirk_total; [exact S|]. apply shorter_closes. exact H.
Qed.
