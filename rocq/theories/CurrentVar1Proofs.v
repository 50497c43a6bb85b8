From Coq Require Import Reals Lra Psatz.
From Flocq Require Import Core.
From Verif Require Import Base RSum FieldModel FieldSpec DepositModel DepositSpec DepositProofs CurrentModel CurrentProofs.
Local Open Scope R_scope.

Definition inv_yz : V3 bool := v3 true false false.
Definition half (x : R) : Prop := - / 2 <= x <= / 2.

(** the position a state stands for, and where it is going *)
Definition vpos (s : vstate) : V3 R := gen3 (fun e => IZR (get3 (vs_i s) e) + / 2 + get3 (vs_x s) e).
Definition vend (s : vstate) : V3 R := gen3 (fun e => IZR (get3 (vs_i s) e) + / 2 + get3 (vs_x s) e + get3 (vs_dx s) e).

Lemma vb_cell_balances g i x dx q : wf_cg g -> half (c1 x) -> half (c2 x) -> half (c1 x + c1 dx) -> half (c2 x + c2 dx) ->
  balances inv_yz (cg_dx g) (qdt g q) (curr_3d_vb_cell g i x dx q)
    (gen3 (fun e => IZR (get3 i e) + / 2 + get3 x e)) (gen3 (fun e => IZR (get3 i e) + / 2 + get3 x e + get3 dx e)).
Proof.
  intros Hg x1 x2 y1 y2 n. pose proof (Hg D1) as h1. pose proof (Hg D2) as h2. unfold half in *.
  unfold qdt, curr_3d_vb_cell, var1_fnqs. set (F := cg_fnqs g / cg_dt g).
  replace (get3 (cg_dx g) D0 * cg_fnqs g / cg_dt g) with (F * c0 (cg_dx g)) by (unfold F, Rdiv; cbn [get3]; ring).
  replace (get3 (cg_dx g) D1 * cg_fnqs g / cg_dt g) with (F * c1 (cg_dx g)) by (unfold F, Rdiv; cbn [get3]; ring).
  replace (get3 (cg_dx g) D2 * cg_fnqs g / cg_dt g) with (F * c2 (cg_dx g)) by (unfold F, Rdiv; cbn [get3]; ring).
  destruct (cg_dx g) as [hx hy hz], i as [ix iy iz], x as [ax ay az], dx as [bx by_ bz], n as [nx ny nz]. cbn [get3 c0 c1 c2] in *.
  unfold div_minus, dminus, inv_yz. rewrite !share_get. cbn [get3 c0 c1 c2].
  unfold jcur, gen3, shift, set3, add, z3; cbn [get3 c0 c1 c2 map fst snd dim3_eqb]; unfold rsum; cbn [fold_right]; unfold delta3; cbn [c0 c1 c2]; rewrite ?delta_prev.
  rewrite (hat_cell (IZR iy + / 2 + ay) iy ny), (hat_cell (IZR iy + / 2 + ay + by_) iy ny), (hat_cell (IZR iz + / 2 + az) iz nz), (hat_cell (IZR iz + / 2 + az + bz) iz nz), (delta_sym nx 0) by lra.
  field. auto.
Qed.

Lemma vb_cell_touch g i x dx q e : In e (curr_3d_vb_cell g i x dx q) ->
  let j := snd (fst e) in c0 j = 0%Z /\ (c1 i <= c1 j <= c1 i + 1)%Z /\ (c2 i <= c2 j <= c2 i + 1)%Z.
Proof.
  intros H. unfold curr_3d_vb_cell in H. cbn [In] in H.
  repeat match type of H with _ \/ _ => destruct H as [<-|H] | False => contradiction end; cbn [add fst snd z3 c0 c1 c2]; lia.
Qed.

(** ** One step to the boundary *)

Definition oth (dir : dim3) : dim3 := match dir with D1 => D2 | _ => D1 end.

(** the end of the segment lies in the neighbouring (closed) cell on side o *)
Definition beyond (o : Z) (y : R) : Prop := (o = 1%Z /\ / 2 <= y <= 3 / 2) \/ (o = (-1)%Z /\ - (3 / 2) <= y <= - / 2).

Lemma beyond_o o y : beyond o y -> (o = 1%Z \/ o = (-1)%Z) /\ half (y - IZR o).
Proof. unfold beyond, half. intros [[-> H]|[-> H]]; split; auto; lra. Qed.

Lemma frac_facts o x dx : half x -> beyond o (x + dx) ->
  let t := if Req_EM_T dx 0 then 0 else (/ 2 * IZR o - x) / dx in 0 <= t <= 1 /\ / 2 * IZR o - x = t * dx.
Proof.
  intros Hx Hy t. unfold half, beyond in *. unfold t. clear t. destruct (Req_EM_T dx 0) as [->|N].
  - split; [lra|]. destruct Hy as [[-> H]|[-> H]]; lra.
  - split; [|field; exact N].
    destruct Hy as [[-> H]|[-> H]].
    + assert (0 < dx) by lra. split.
      * apply Rmult_le_pos; [lra|left; apply Rinv_0_lt_compat; lra].
      * apply Rmult_le_reg_r with dx; [lra|]. unfold Rdiv. rewrite Rmult_assoc, Rinv_l by lra. lra.
    + assert (dx < 0) by lra. replace ((/ 2 * -1 - x) / dx) with ((/ 2 + x) * / (- dx)) by (field; lra).
      assert (0 < / - dx) by (apply Rinv_0_lt_compat; lra). split.
      * apply Rmult_le_pos; lra.
      * apply Rmult_le_reg_r with (- dx); [lra|]. rewrite Rmult_assoc, Rinv_l by lra. lra.
Qed.

(** the fraction of the displacement up to the boundary *)
Definition frac (o : Z) (x dx : R) : R := if Req_EM_T dx 0 then 0 else (/ 2 * IZR o - x) / dx.

Lemma calc_3d_dx1_facts x dx dir o : dir = D1 \/ dir = D2 -> half (get3 x dir) -> beyond o (get3 x dir + get3 dx dir) ->
  let dx1 := calc_3d_dx1 x dx (set3 (v3 0%Z 0%Z 0%Z) dir o) in
  get3 dx1 dir = / 2 * IZR o - get3 x dir /\ get3 dx1 (oth dir) = frac o (get3 x dir) (get3 dx dir) * get3 dx (oth dir).
Proof.
  intros Hd Hx Hy dx1. unfold dx1, calc_3d_dx1, frac. destruct (beyond_o _ _ Hy) as [Ho _].
  destruct Hd as [-> | ->]; cbn [set3 c0 c1 c2 get3 oth] in *.
  - cbn [Z.eqb]. destruct (Req_EM_T (c1 dx) 0); cbn [c0 c1 c2]; split; try reflexivity; [ring|]. unfold Rdiv. ring.
  - replace (o =? 0)%Z with false by lia. destruct (Req_EM_T (c2 dx) 0); cbn [c0 c1 c2]; split; try reflexivity; [ring|]. unfold Rdiv. ring.
Qed.

Definition halfs (s : vstate) : Prop := half (c1 (vs_x s)) /\ half (c2 (vs_x s)).

(** the state after a step *)
Lemma vb_step_ok g q idiff dir s : let o := get3 idiff dir in let x := vs_x s in let dx := vs_dx s in
  let t := frac o (get3 x dir) (get3 dx dir) in
  wf_cg g -> dir = D1 \/ dir = D2 -> halfs s -> beyond o (get3 x dir + get3 dx dir) -> half (get3 x (oth dir) + t * get3 dx (oth dir)) ->
  let '(l, s') := vb_step g q idiff dir s in
  balances inv_yz (cg_dx g) (qdt g q) l (vpos s) (vpos s') /\
  (forall e, In e l -> let j := snd (fst e) in c0 j = 0%Z /\ (c1 (vs_i s) <= c1 j <= c1 (vs_i s) + 1)%Z /\ (c2 (vs_i s) <= c2 j <= c2 (vs_i s) + 1)%Z) /\
  halfs s' /\ (get3 (vend s') D1 = get3 (vend s) D1 /\ get3 (vend s') D2 = get3 (vend s) D2) /\
  vs_i s' = set3 (vs_i s) dir (get3 (vs_i s) dir + o)%Z /\
  half (get3 (vs_x s') dir + get3 (vs_dx s') dir) /\
  get3 (vs_x s') (oth dir) + get3 (vs_dx s') (oth dir) = get3 x (oth dir) + get3 dx (oth dir) /\
  get3 (vs_x s') dir = - / 2 * IZR o.
Proof.
  intros o x dx t Hg Hd [Hx1 Hx2] Hy Ht. unfold vb_step. set (dx1 := calc_3d_dx1 (vs_x s) (vs_dx s) (set3 (v3 0%Z 0%Z 0%Z) dir (get3 idiff dir))).
  assert (Hxd : half (get3 x dir)) by (destruct Hd as [-> | ->]; assumption).
  destruct (calc_3d_dx1_facts x dx dir o Hd Hxd Hy) as [E1 E2]. change (calc_3d_dx1 x dx (set3 (v3 0%Z 0%Z 0%Z) dir o)) with dx1 in E1, E2. fold t in E2.
  destruct (beyond_o _ _ Hy) as [Ho Hb]. clearbody dx1.
  assert (Ho2 : half (/ 2 * IZR o)) by (unfold half; destruct Ho as [E|E]; rewrite E; lra).
  assert (HA : half (c1 (vs_x s) + c1 dx1) /\ half (c2 (vs_x s) + c2 dx1)).
  { destruct Hd as [Ed|Ed]; rewrite Ed in *; cbn [oth get3] in *; fold x in Hx1, Hx2 |- *.
    - rewrite E1, E2. split; [|exact Ht]. unfold half in *. lra.
    - rewrite E1, E2. split; [exact Ht|]. unfold half in *. lra. }
  assert (Hoff : forall e, get3 (set3 (v3 0%Z 0%Z 0%Z) dir (get3 idiff dir)) e = if dim3_eqb e dir then o else 0%Z).
  { intros e. unfold o. destruct dir, e; reflexivity. }
  set (off := set3 (v3 0%Z 0%Z 0%Z) dir (get3 idiff dir)) in *. clearbody off.
  pose proof (Hoff D0) as O0. pose proof (Hoff D1) as O1. pose proof (Hoff D2) as O2. cbn [get3] in O0, O1, O2.
  split; [|split; [|split; [|split; [|split; [|split; [|split]]]]]].
  - apply (balances_ext _ _ _ _ (gen3 (fun e => IZR (get3 (vs_i s) e) + / 2 + get3 (vs_x s) e)) _ (gen3 (fun e => IZR (get3 (vs_i s) e) + / 2 + get3 (vs_x s) e + get3 dx1 e))).
    + reflexivity.
    + intros e He. unfold vpos, vb_upd. rewrite !get3_gen3. destruct e; [discriminate| |]; cbn [get3 vs_i vs_x c0 c1 c2]; rewrite plus_IZR; ring.
    + apply vb_cell_balances; tauto.
  - intros e He. apply (vb_cell_touch _ _ _ _ _ _ He).
  - unfold halfs, vb_upd. cbn [vs_x c1 c2]. rewrite O1, O2. destruct Hd as [Ed|Ed]; rewrite Ed in *; cbn [dim3_eqb get3 oth] in *; fold x in Hx1, Hx2, HA |- *; rewrite E1, E2 in *;
      unfold half in *; rewrite ?Rminus_0_r; split; try tauto; lra.
  - unfold vend, vb_upd. rewrite !get3_gen3. cbn [get3 vs_i vs_x vs_dx c0 c1 c2]. rewrite !plus_IZR. split; ring.
  - unfold vb_upd. cbn [vs_i]. rewrite O1, O2. apply v3_ext. intros e. destruct Hd as [Ed|Ed]; rewrite Ed in *; destruct e; cbn [dim3_eqb get3 set3 c0 c1 c2]; lia.
  - unfold vb_upd. cbn [vs_x vs_dx]. destruct Hd as [Ed|Ed]; rewrite Ed in *; cbn [get3 c0 c1 c2 dim3_eqb oth] in *; rewrite ?O1, ?O2, E1; fold x dx;
      match goal with |- half ?a => match type of Hb with half ?b => replace a with b by ring end end; exact Hb.
  - unfold vb_upd. cbn [vs_x vs_dx]. destruct Hd as [Ed|Ed]; rewrite Ed in *; cbn [get3 c0 c1 c2 dim3_eqb oth] in *; rewrite ?O1, ?O2; fold x dx; ring.
  - unfold vb_upd. cbn [vs_x vs_dx]. destruct Hd as [Ed|Ed]; rewrite Ed in *; cbn [get3 c0 c1 c2 dim3_eqb oth] in *; rewrite ?O1, ?O2, E1; fold x dx; field.
Qed.

(** ** Runs *)

Section Runs.
  Variables (g : cgrid) (q : R) (idiff lg : V3 Z).
  Hypothesis Hg : wf_cg g.

  Definition rng (e : dim3) (i : Z) : Prop := (Z.min (get3 lg e) (get3 lg e + get3 idiff e) <= i <= Z.max (get3 lg e) (get3 lg e + get3 idiff e))%Z.
  Definition within_run (e : entry) : Prop :=
    let j := snd (fst e) in c0 j = 0%Z /\ (Z.min (c1 lg) (c1 lg + c1 idiff) <= c1 j <= Z.max (c1 lg) (c1 lg + c1 idiff) + 1)%Z /\
      (Z.min (c2 lg) (c2 lg + c2 idiff) <= c2 j <= Z.max (c2 lg) (c2 lg + c2 idiff) + 1)%Z.

  Definition run_good (dirs : list dim3) (s : vstate) : Prop :=
    balances inv_yz (cg_dx g) (qdt g q) (vb_run g q idiff dirs s) (vpos s) (vend s) /\ Forall within_run (vb_run g q idiff dirs s).

  Lemma run0 s : halfs s -> half (c1 (vs_x s) + c1 (vs_dx s)) -> half (c2 (vs_x s) + c2 (vs_dx s)) -> rng D1 (c1 (vs_i s)) -> rng D2 (c2 (vs_i s)) -> run_good [] s.
  Proof.
    intros [H1 H2] H3 H4 R1 R2. split; cbn [vb_run].
    - apply vb_cell_balances; assumption.
    - apply Forall_forall. intros e He. apply vb_cell_touch in He. unfold rng, within_run in *. cbn [get3] in *. cbv zeta in *. lia.
  Qed.

  Lemma run_step dir dirs s : let o := get3 idiff dir in dir = D1 \/ dir = D2 -> halfs s -> beyond o (get3 (vs_x s) dir + get3 (vs_dx s) dir) ->
    half (get3 (vs_x s) (oth dir) + frac o (get3 (vs_x s) dir) (get3 (vs_dx s) dir) * get3 (vs_dx s) (oth dir)) ->
    get3 (vs_i s) dir = get3 lg dir -> rng (oth dir) (get3 (vs_i s) (oth dir)) ->
    (forall s', halfs s' -> half (get3 (vs_x s') dir + get3 (vs_dx s') dir) ->
       get3 (vs_x s') (oth dir) + get3 (vs_dx s') (oth dir) = get3 (vs_x s) (oth dir) + get3 (vs_dx s) (oth dir) ->
       rng dir (get3 (vs_i s') dir) -> get3 (vs_i s') (oth dir) = get3 (vs_i s) (oth dir) -> run_good dirs s') ->
    run_good (dir :: dirs) s.
  Proof.
    intros o Hd Hs Hb Ht Hi Hr K. pose proof (vb_step_ok g q idiff dir s Hg Hd Hs Hb Ht) as St.
    unfold run_good. cbn [vb_run]. destruct (vb_step g q idiff dir s) as [l s']. destruct St as (B & T & Hs' & (E1 & E2) & Ei & Hh & Ho & _).
    assert (Rd : rng dir (get3 (vs_i s') dir) /\ get3 (vs_i s') (oth dir) = get3 (vs_i s) (oth dir)).
    { rewrite Ei. unfold rng. destruct Hd as [Ed|Ed]; rewrite Ed in *; cbn [get3 set3 oth c0 c1 c2] in *; lia. }
    destruct (K s' Hs' Hh Ho (proj1 Rd) (proj2 Rd)) as [B' T'].
    split.
    - apply (balances_app _ _ _ _ _ _ (vpos s')); [exact B|]. apply (balances_ext _ _ _ _ (vpos s') _ (vend s')); [reflexivity| |exact B'].
      intros [] He; [discriminate He|exact E1|exact E2].
    - apply Forall_app. split; [|exact T']. apply Forall_forall. intros e He. specialize (T e He). cbv zeta in T. unfold within_run, rng in *. cbv zeta.
      destruct Hd as [Ed|Ed]; rewrite Ed in *; cbn [get3 oth] in *; lia.
  Qed.

  Lemma half_mid x dx t : half x -> half (x + dx) -> 0 <= t <= 1 -> half (x + t * dx).
  Proof.
    unfold half. intros H1 H2 H3. assert (0 <= t * (/ 2 - (x + dx))) by (apply Rmult_le_pos; lra). assert (0 <= t * (x + dx + / 2)) by (apply Rmult_le_pos; lra).
    assert (0 <= (1 - t) * (/ 2 - x)) by (apply Rmult_le_pos; lra). assert (0 <= (1 - t) * (x + / 2)) by (apply Rmult_le_pos; lra). lra.
  Qed.

  Lemma halfs_get s dir : dir = D1 \/ dir = D2 -> halfs s -> half (get3 (vs_x s) dir).
  Proof. intros [-> | ->] [H1 H2]; assumption. Qed.

  Lemma oth_dir dir : dir = D1 \/ dir = D2 -> oth dir = D1 \/ oth dir = D2.
  Proof. intros [-> | ->]; cbn; tauto. Qed.

  Lemma oth_oth dir : dir = D1 \/ dir = D2 -> oth (oth dir) = dir.
  Proof. intros [-> | ->]; reflexivity. Qed.

  Lemma run1 dir s : dir = D1 \/ dir = D2 -> halfs s -> beyond (get3 idiff dir) (get3 (vs_x s) dir + get3 (vs_dx s) dir) ->
    half (get3 (vs_x s) (oth dir) + get3 (vs_dx s) (oth dir)) ->
    get3 (vs_i s) dir = get3 lg dir -> rng (oth dir) (get3 (vs_i s) (oth dir)) -> run_good [dir] s.
  Proof.
    intros Hd Hs Hb Ho Hi Hr. apply run_step; try assumption.
    - apply half_mid; [apply halfs_get; [apply oth_dir; exact Hd|exact Hs]|exact Ho|].
      apply (frac_facts (get3 idiff dir) (get3 (vs_x s) dir) (get3 (vs_dx s) dir)); [apply halfs_get; assumption|exact Hb].
    - intros s' Hs' Hh Eo Rd Eio. rewrite <- Eo in Ho. rewrite <- Eio in Hr. destruct Hd as [Ed|Ed]; rewrite Ed in *; cbn [get3 oth] in *; apply run0; assumption.
  Qed.

  Lemma run2 dir s : dir = D1 \/ dir = D2 -> halfs s -> beyond (get3 idiff dir) (get3 (vs_x s) dir + get3 (vs_dx s) dir) ->
    beyond (get3 idiff (oth dir)) (get3 (vs_x s) (oth dir) + get3 (vs_dx s) (oth dir)) ->
    half (get3 (vs_x s) (oth dir) + frac (get3 idiff dir) (get3 (vs_x s) dir) (get3 (vs_dx s) dir) * get3 (vs_dx s) (oth dir)) ->
    get3 (vs_i s) dir = get3 lg dir -> get3 (vs_i s) (oth dir) = get3 lg (oth dir) -> run_good [dir; oth dir] s.
  Proof.
    intros Hd Hs Hb Hbo Ho Hi Hio. apply run_step; try assumption.
    - unfold rng. rewrite Hio. lia.
    - intros s' Hs' Hh Eo Rd Eio. apply run1; try assumption.
      + apply oth_dir. exact Hd.
      + rewrite Eo. exact Hbo.
      + rewrite (oth_oth dir Hd). exact Hh.
      + congruence.
      + rewrite (oth_oth dir Hd). exact Rd.
  Qed.

  (** the order of the crossings *)
  Lemma first_z s : halfs s -> beyond (c1 idiff) (c1 (vs_x s) + c1 (vs_dx s)) -> beyond (c2 idiff) (c2 (vs_x s) + c2 (vs_dx s)) ->
    Rabs (c2 (vs_x s) + frac (c1 idiff) (c1 (vs_x s)) (c1 (vs_dx s)) * c2 (vs_dx s)) > / 2 ->
    half (c1 (vs_x s) + frac (c2 idiff) (c2 (vs_x s)) (c2 (vs_dx s)) * c1 (vs_dx s)).
  Proof.
    intros [H1 H2] B1 B2 Hgt.
    destruct (frac_facts _ _ _ H1 B1) as [F1 E1]. destruct (frac_facts _ _ _ H2 B2) as [F2 E2].
    fold (frac (c1 idiff) (c1 (vs_x s)) (c1 (vs_dx s))) in F1, E1. fold (frac (c2 idiff) (c2 (vs_x s)) (c2 (vs_dx s))) in F2, E2.
    set (t1 := frac (c1 idiff) (c1 (vs_x s)) (c1 (vs_dx s))) in *. set (t2 := frac (c2 idiff) (c2 (vs_x s)) (c2 (vs_dx s))) in *.
    clearbody t1 t2. set (x1 := c1 (vs_x s)) in *. set (x2 := c2 (vs_x s)) in *. set (d1 := c1 (vs_dx s)) in *. set (d2 := c2 (vs_dx s)) in *. clearbody x1 x2 d1 d2.
    assert (T : t2 < t1).
    { destruct (Rlt_dec t2 t1) as [L|L]; [exact L|]. exfalso. apply Rnot_lt_le in L. apply (Rlt_not_le _ _ Hgt). apply Rabs_le. unfold half in *.
      destruct B2 as [[Eo B2]|[Eo B2]]; rewrite Eo in *.
      - assert (0 <= d2) by lra. assert (0 <= t1 * d2) by (apply Rmult_le_pos; lra). assert (0 <= (t2 - t1) * d2) by (apply Rmult_le_pos; lra). lra.
      - assert (0 <= - d2) by lra. assert (0 <= t1 * - d2) by (apply Rmult_le_pos; lra). assert (0 <= (t2 - t1) * - d2) by (apply Rmult_le_pos; lra). lra. }
    assert (Hh : half (x1 + t1 * d1)) by (rewrite <- E1; unfold half; destruct (beyond_o _ _ B1) as [[Eo|Eo] _]; rewrite Eo; lra).
    replace (x1 + t2 * d1) with (x1 + t2 / t1 * (t1 * d1)) by (field; lra). apply half_mid; [exact H1|exact Hh|].
    split; [apply Rmult_le_pos; [lra|left; apply Rinv_0_lt_compat; lra]|]. apply Rmult_le_reg_r with t1; [lra|]. unfold Rdiv. rewrite Rmult_assoc, Rinv_l by lra. lra.
  Qed.

  Lemma vb_dirs_run s : halfs s -> vs_i s = v3 0%Z (c1 lg) (c2 lg) ->
    (if (c1 idiff =? 0)%Z then half (c1 (vs_x s) + c1 (vs_dx s)) else beyond (c1 idiff) (c1 (vs_x s) + c1 (vs_dx s))) ->
    (if (c2 idiff =? 0)%Z then half (c2 (vs_x s) + c2 (vs_dx s)) else beyond (c2 idiff) (c2 (vs_x s) + c2 (vs_dx s))) ->
    run_good (vb_dirs idiff (vs_x s) (vs_dx s)) s.
  Proof.
    intros Hs Ei B1 B2. unfold vb_dirs.
    assert (R1 : rng D1 (c1 (vs_i s))) by (unfold rng; rewrite Ei; cbn [get3 c1]; lia).
    assert (R2 : rng D2 (c2 (vs_i s))) by (unfold rng; rewrite Ei; cbn [get3 c2]; lia).
    destruct (c1 idiff =? 0)%Z eqn:Z1, (c2 idiff =? 0)%Z eqn:Z2; cbn [andb].
    - apply run0; assumption.
    - apply run1; cbn [get3 oth]; try tauto. rewrite Ei. reflexivity.
    - apply run1; cbn [get3 oth]; try tauto. rewrite Ei. reflexivity.
    - assert (E : (if Req_EM_T (c1 (vs_dx s)) 0 then 0 else c2 (vs_dx s) / c1 (vs_dx s) * (/ 2 * IZR (c1 idiff) - c1 (vs_x s))) =
        frac (c1 idiff) (c1 (vs_x s)) (c1 (vs_dx s)) * c2 (vs_dx s)).
      { unfold frac. destruct (Req_EM_T (c1 (vs_dx s)) 0); [ring|]. unfold Rdiv. ring. }
      rewrite E. destruct (Rgt_dec _ _) as [G|G].
      + apply (run2 D2); cbn [get3 oth]; try tauto; try (rewrite Ei; reflexivity). apply first_z; assumption.
      + apply (run2 D1); cbn [get3 oth]; try tauto; try (rewrite Ei; reflexivity). apply Rnot_gt_le in G. unfold half. apply Rabs_le_inv. exact G.
  Qed.
End Runs.

Lemma near_beyond a b : near a b -> let o := (fint b - fint a)%Z in let x := a - (IZR (fint a) + / 2) in
  half x /\ if (o =? 0)%Z then half (x + (b - a)) else beyond o (x + (b - a)).
Proof.
  intros H o x. pose proof (floor_spec a). pose proof (floor_spec b). unfold near in H. unfold half, beyond, x.
  assert (Eb : IZR (fint b) = IZR (fint a) + IZR o) by (unfold o; rewrite minus_IZR; ring).
  split; [lra|]. destruct (Z.eqb_spec o 0) as [E|E]; [rewrite E in Eb; lra|].
  assert (Ho : o = 1%Z \/ o = (-1)%Z) by lia. destruct Ho as [Ho|Ho]; rewrite Ho in *; [left|right]; (split; [reflexivity|lra]).
Qed.

Lemma calc_j_var1_run g q xm xp lf lg v : wf_cg g -> crossing inv_yz xm xp ->
  (forall e, get3 inv_yz e = false -> get3 lg e = fint (get3 xm e) /\ get3 lf e = fint (get3 xp e)) ->
  balances inv_yz (cg_dx g) (qdt g q) (calc_j_var1 g q xm xp lf lg v) xm xp /\ Forall (touches inv_yz xm xp) (calc_j_var1 g q xm xp lf lg v).
Proof.
  intros Hg Hc Hl. destruct (Hl D1 eq_refl) as [G1 F1]. destruct (Hl D2 eq_refl) as [G2 F2]. cbn [get3] in *.
  destruct (near_beyond _ _ (Hc D1 eq_refl)) as [X1 Y1]. destruct (near_beyond _ _ (Hc D2 eq_refl)) as [X2 Y2]. cbn [get3] in *. rewrite <- ?G1, <- ?F1, <- ?G2, <- ?F2 in *.
  unfold calc_j_var1. set (idiff := v3 0%Z (c1 lf - c1 lg)%Z (c2 lf - c2 lg)%Z).
  set (s := {| vs_i := v3 0%Z (c1 lg) (c2 lg);
     vs_x := v3 0 (c1 xm - (IZR (c1 (v3 0%Z (c1 lg) (c2 lg))) + / 2)) (c2 xm - (IZR (c2 (v3 0%Z (c1 lg) (c2 lg))) + / 2));
     vs_dx := v3 (c0 v * cg_dt g * (1 / c0 (cg_dx g))) (c1 xp - c1 xm) (c2 xp - c2 xm) |}).
  destruct (vb_dirs_run g q idiff lg Hg s) as [B T]; [split; assumption|reflexivity|exact Y1|exact Y2|].
  change (vb_run g q idiff (vb_dirs idiff (v3 0 (c1 xm - (IZR (c1 (v3 0%Z (c1 lg) (c2 lg))) + / 2)) (c2 xm - (IZR (c2 (v3 0%Z (c1 lg) (c2 lg))) + / 2)))
    (v3 (c0 v * cg_dt g * (1 / c0 (cg_dx g))) (c1 xp - c1 xm) (c2 xp - c2 xm))) s) with (vb_run g q idiff (vb_dirs idiff (vs_x s) (vs_dx s)) s).
  split.
  - apply (balances_ext _ _ _ _ (vpos s) _ (vend s)); [| |exact B]; intros [] He; try discriminate He; unfold vpos, vend; rewrite get3_gen3; cbn [s get3 vs_i vs_x vs_dx c0 c1 c2]; ring.
  - rewrite Forall_forall in *. intros e He d. specialize (T e He). unfold within_run in T. cbv zeta in *. cbn [idiff c1 c2] in T. destruct T as (T0 & T1 & T2).
    destruct d; cbn [inv_yz get3 c0 c1 c2]; [exact T0| |]; lia.
Qed.

(** ** The 2d variant deposits the same in-plane current *)

Definition sim (s2 : v2state) (s : vstate) : Prop :=
  v2_i s2 = (c1 (vs_i s), c2 (vs_i s)) /\ v2_x s2 = (c1 (vs_x s), c2 (vs_x s)) /\ v2_dx s2 = (c1 (vs_dx s), c2 (vs_dx s)).

Lemma sim_cell g q s2 s dx2 dx d n : sim s2 s -> dx2 = (c1 dx, c2 dx) -> d <> D0 ->
  jcur (curr_2d_vb_cell g (v2_i s2) (v2_x s2) dx2 q) d n = jcur (curr_3d_vb_cell g (vs_i s) (vs_x s) dx q) d n.
Proof.
  intros (Ei & Ex & Ed) -> Hd. rewrite Ei, Ex. unfold curr_2d_vb_cell, curr_3d_vb_cell, jcur. cbn [fst snd].
  destruct d; [congruence| |]; cbn [map add fst snd dim3_eqb]; rewrite !rsum_cons; cbn [map]; unfold rsum; cbn [fold_right]; unfold z3; ring.
Qed.

Lemma sim_cell_idx g q s2 s dx2 dx e : sim s2 s -> In e (curr_2d_vb_cell g (v2_i s2) (v2_x s2) dx2 q) -> exists e', In e' (curr_3d_vb_cell g (vs_i s) (vs_x s) dx q) /\ fst e' = fst e.
Proof.
  intros (Ei & _ & _) H. rewrite Ei in H. unfold curr_2d_vb_cell in H. cbn [In fst snd] in H. unfold curr_3d_vb_cell. cbn [In].
  destruct H as [<-|[<-|[<-|[<-|[]]]]].
  - eexists. split; [do 4 right; left; reflexivity|reflexivity].
  - eexists. split; [do 5 right; left; reflexivity|reflexivity].
  - eexists. split; [do 6 right; left; reflexivity|reflexivity].
  - eexists. split; [do 7 right; left; reflexivity|reflexivity].
Qed.

Definition dirmap (dir : bool) : dim3 := if dir then D2 else D1.

Lemma sim_step g q idiff2 idiff dir s2 s : sim s2 s -> idiff2 = (c1 idiff, c2 idiff) -> get3 idiff (dirmap dir) <> 0%Z ->
  let '(l2, s2') := v2_step g q idiff2 dir s2 in let '(l, s') := vb_step g q idiff (dirmap dir) s in
  sim s2' s' /\ (forall d n, d <> D0 -> jcur l2 d n = jcur l d n) /\ (forall e, In e l2 -> exists e', In e' l /\ fst e' = fst e).
Proof.
  intros S -> Ho. unfold v2_step, vb_step.
  set (dx1 := calc_3d_dx1 (vs_x s) (vs_dx s) (set3 (v3 0%Z 0%Z 0%Z) (dirmap dir) (get3 idiff (dirmap dir)))).
  set (off2 := if dir then (0, snd (c1 idiff, c2 idiff))%Z else (fst (c1 idiff, c2 idiff), 0)%Z).
  assert (E : calc_dx1 (v2_x s2) (v2_dx s2) off2 = (c1 dx1, c2 dx1)).
  { destruct S as (_ & Ex & Ed). rewrite Ex, Ed. unfold dx1, off2, calc_dx1, calc_3d_dx1. destruct dir; cbn [dirmap get3 set3 c0 c1 c2 fst snd] in *.
    - replace (c2 idiff =? 0)%Z with false by lia. destruct (Req_EM_T (c2 (vs_dx s)) 0); reflexivity.
    - cbn [Z.eqb]. destruct (Req_EM_T (c1 (vs_dx s)) 0); reflexivity. }
  assert (O2 : off2 = (c1 (set3 (v3 0%Z 0%Z 0%Z) (dirmap dir) (get3 idiff (dirmap dir))), c2 (set3 (v3 0%Z 0%Z 0%Z) (dirmap dir) (get3 idiff (dirmap dir)))))
    by (unfold off2; destruct dir; reflexivity).
  rewrite E. split; [|split].
  - destruct S as (Ei & Ex & Ed). unfold sim, v2_upd, vb_upd. rewrite Ei, Ex, Ed, O2. cbn [v2_i v2_x v2_dx vs_i vs_x vs_dx c0 c1 c2 fst snd]. auto.
  - intros d n Hd. apply sim_cell; auto.
  - intros e. apply sim_cell_idx. exact S.
Qed.

Lemma sim_run g q idiff2 idiff : idiff2 = (c1 idiff, c2 idiff) -> forall dirs s2 s, sim s2 s -> (forall dir, In dir dirs -> get3 idiff (dirmap dir) <> 0%Z) ->
  (forall d n, d <> D0 -> jcur (v2_run g q idiff2 dirs s2) d n = jcur (vb_run g q idiff (map dirmap dirs) s) d n) /\
  (forall e, In e (v2_run g q idiff2 dirs s2) -> exists e', In e' (vb_run g q idiff (map dirmap dirs) s) /\ fst e' = fst e).
Proof.
  intros Ed. induction dirs as [|dir dirs IH]; intros s2 s S Hd; cbn [v2_run vb_run map].
  - split; [intros d n; apply sim_cell; [exact S|apply S]|intros e; apply sim_cell_idx; exact S].
  - pose proof (sim_step g q idiff2 idiff dir s2 s S Ed (Hd dir (or_introl eq_refl))) as St.
    destruct (v2_step g q idiff2 dir s2) as [l2 s2'], (vb_step g q idiff (dirmap dir) s) as [l s']. destruct St as (S' & J & I).
    destruct (IH s2' s' S' (fun k Hk => Hd k (or_intror Hk))) as [J' I']. split.
    + intros d n Hn. rewrite !jcur_app, (J d n Hn), (J' d n Hn). reflexivity.
    + intros e He. apply in_app_or in He. destruct He as [He|He]; [destruct (I e He) as (e' & H1 & H2)|destruct (I' e He) as (e' & H1 & H2)]; exists e'; (split; [apply in_or_app; auto|exact H2]).
Qed.

Lemma v2_dirs_map idiff x dx : map dirmap (v2_dirs (c1 idiff, c2 idiff) (c1 x, c2 x) (c1 dx, c2 dx)) = vb_dirs idiff x dx.
Proof.
  unfold v2_dirs, vb_dirs. cbn [fst snd]. destruct (c1 idiff =? 0)%Z, (c2 idiff =? 0)%Z; cbn [andb]; try reflexivity.
  destruct (Rgt_dec _ _); reflexivity.
Qed.

Lemma v2_dirs_nonzero idiff2 x dx dir : In dir (v2_dirs idiff2 x dx) -> (if dir then snd idiff2 else fst idiff2) <> 0%Z.
Proof.
  unfold v2_dirs. destruct (Z.eqb_spec (fst idiff2) 0), (Z.eqb_spec (snd idiff2) 0); cbn [andb].
  - intros [].
  - intros [<-|[]]; assumption.
  - intros [<-|[]]; assumption.
  - destruct (Rgt_dec _ _); intros [<-|[<-|[]]]; assumption.
Qed.

Lemma calc_j_2d_run g q xm xp lf lg : wf_cg g -> crossing inv_yz xm xp ->
  (forall e, get3 inv_yz e = false -> get3 lg e = fint (get3 xm e) /\ get3 lf e = fint (get3 xp e)) ->
  balances inv_yz (cg_dx g) (qdt g q) (calc_j_2d g q xm xp lf lg) xm xp /\ Forall (touches inv_yz xm xp) (calc_j_2d g q xm xp lf lg).
Proof.
  intros Hg Hc Hl. destruct (calc_j_var1_run g q xm xp lf lg (v3 0 0 0) Hg Hc Hl) as [B T].
  unfold calc_j_var1, calc_j_2d in *. cbn [c0 c1 c2 fst snd] in *.
  set (idiff := v3 0%Z (c1 lf - c1 lg)%Z (c2 lf - c2 lg)%Z) in *.
  set (x := v3 0 (c1 xm - (IZR (c1 lg) + / 2)) (c2 xm - (IZR (c2 lg) + / 2))) in *.
  set (dx := v3 (0 * cg_dt g * (1 / c0 (cg_dx g))) (c1 xp - c1 xm) (c2 xp - c2 xm)) in *.
  set (s := {| vs_i := v3 0%Z (c1 lg) (c2 lg); vs_x := x; vs_dx := dx |}) in *.
  set (s2 := {| v2_i := (c1 lg, c2 lg); v2_x := (c1 xm - (IZR (c1 lg) + / 2), c2 xm - (IZR (c2 lg) + / 2)); v2_dx := (c1 xp - c1 xm, c2 xp - c2 xm) |}).
  change (c1 lf - c1 lg, c2 lf - c2 lg)%Z with (c1 idiff, c2 idiff).
  change (v2_dirs (c1 idiff, c2 idiff) _ _) with (v2_dirs (c1 idiff, c2 idiff) (c1 x, c2 x) (c1 dx, c2 dx)).
  destruct (sim_run g q (c1 idiff, c2 idiff) idiff eq_refl (v2_dirs (c1 idiff, c2 idiff) (c1 x, c2 x) (c1 dx, c2 dx)) s2 s) as [J I].
  - repeat split.
  - intros dir Hd. apply v2_dirs_nonzero in Hd. destruct dir; exact Hd.
  - rewrite v2_dirs_map in J, I. split.
    + intros n. rewrite <- (B n). f_equal. unfold div_minus. cbn [dminus inv_yz get3 c0].
      unfold dminus. cbn [inv_yz get3 c0 c1 c2]. rewrite !J by discriminate. reflexivity.
    + rewrite Forall_forall in *. intros e He. destruct (I e He) as (e' & H1 & H2). intros d. specialize (T e' H1 d). rewrite H2 in T. exact T.
Qed.
