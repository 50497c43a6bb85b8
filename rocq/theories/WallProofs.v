From Coq Require Import Reals Lra.
From Verif Require Import Base RSum FieldModel FieldSpec FieldProofs WallModel WallSpec.
Local Open Scope R_scope.

(** ** Statements along one column *)

Inductive rstmt := RZ (e : dim3) (y : Z) | RC (e : dim3) (y s : Z) | RN (e : dim3) (y s : Z) | RA (e : dim3) (y s : Z) | RS (e : dim3) (y s : Z).

Definition rcomp (r : rstmt) : dim3 := match r with RZ e _ | RC e _ _ | RN e _ _ | RA e _ _ | RS e _ _ => e end.
Definition rtgt (r : rstmt) : Z := match r with RZ _ y | RC _ y _ | RN _ y _ | RA _ y _ | RS _ y _ => y end.
Definition rsrc (r : rstmt) : list Z := match r with RZ _ _ => [] | RC _ _ s | RN _ _ s => [s] | RA _ y s | RS _ y s => [y; s] end.
Definition rval (u : Z -> R) (r : rstmt) : R := match r with RZ _ _ => 0 | RC _ _ s => u s | RN _ _ s => - u s | RA _ y s => u y + u s | RS _ y s => u y - u s end.
Definition rexec (e : dim3) (u : Z -> R) (r : rstmt) : Z -> R :=
  if dim3_eqb (rcomp r) e then fun y => if (y =? rtgt r)%Z then rval u r else u y else u.
Definition RL (l : list rstmt) (e : dim3) (u : Z -> R) : Z -> R := fold_left (rexec e) l u.

Definition to_stmt (q : qty) (d : dim3) (c : V3 Z) (r : rstmt) : stmt :=
  match r with
  | RZ e y => Zero (q, e, set3 c d y)
  | RC e y s => Copy (q, e, set3 c d y) (q, e, set3 c d s)
  | RN e y s => CopyNeg (q, e, set3 c d y) (q, e, set3 c d s)
  | RA e y s => WallModel.Add (q, e, set3 c d y) (q, e, set3 c d s)
  | RS e y s => WallModel.Sub (q, e, set3 c d y) (q, e, set3 c d s)
  end.

Definition row (f : pf) (q : qty) (d e : dim3) (i : V3 Z) (s : Z) : R := f q e (set3 i d s).

(** rows which are stored *)
Definition rows_in (lo hi : Z) (r : rstmt) : Prop := (lo <= rtgt r < hi)%Z /\ forall s, In s (rsrc r) -> (lo <= s < hi)%Z.

Lemma RL_agree lo hi l e : Forall (rows_in lo hi) l -> forall u v, (forall s, (lo <= s < hi)%Z -> u s = v s) ->
  forall y, (lo <= y < hi)%Z -> RL l e u y = RL l e v y.
Proof.
  unfold RL. induction l as [|r l IH]; intros HF u v H y Hy; cbn [fold_left]; [apply H; exact Hy|].
  inversion HF as [|? ? [Ht Hs] HF']; subst. apply IH; [exact HF'| |exact Hy]. intros s Hb. unfold rexec.
  destruct (dim3_eqb (rcomp r) e); [|apply H; exact Hb]. destruct (s =? rtgt r)%Z; [|apply H; exact Hb].
  destruct r; cbn [rval rsrc In] in *; rewrite ?(H y0), ?(H s0) by (first [lia | apply Hs; tauto]); try reflexivity;
  rewrite ?(H y0), ?(H s0) by (first [lia | apply Hs; tauto]); reflexivity.
Qed.

Lemma RL_lin l e : forall a u b v w, (forall s, w s = a * u s + b * v s) -> forall y, RL l e w y = a * RL l e u y + b * RL l e v y.
Proof.
  unfold RL. induction l as [|r l IH]; intros a u b v w H y; cbn [fold_left]; [apply H|].
  apply IH. intros s. unfold rexec. destruct (dim3_eqb (rcomp r) e); [|apply H]. destruct (s =? rtgt r)%Z; [|apply H].
  destruct r; cbn [rval]; rewrite ?H; ring.
Qed.

Lemma RL_ext l e u v : (forall s, u s = v s) -> forall y, RL l e u y = RL l e v y.
Proof.
  intros H y. rewrite (RL_lin l e 1 v 0 v u) by (intros; rewrite H; ring). ring.
Qed.

Lemma set3_set3 {A} (i : V3 A) d x y : set3 (set3 i d x) d y = set3 i d y.
Proof. destruct i, d; reflexivity. Qed.
Lemma set3_swap {A} (i : V3 A) d e x y : d <> e -> set3 (set3 i d x) e y = set3 (set3 i e y) d x.
Proof. destruct i, d, e; intros; try congruence; reflexivity. Qed.
Lemma set3_get {A} (i : V3 A) d : set3 i d (get3 i d) = i.
Proof. destruct i, d; reflexivity. Qed.

Lemma fnorm_set inv c d y : get3 inv d = false -> fnorm inv (set3 c d y) = set3 (fnorm inv c) d y.
Proof. intros H. apply v3_ext. intros e. unfold fnorm. rewrite get3_gen3. destruct d, e, c, inv; cbn in *; rewrite ?H; reflexivity. Qed.

Lemma v3_eqb_set n d y i : get3 n d = 0%Z -> v3_eqb (set3 n d y) i = v3_eqb n (set3 i d 0%Z) && (get3 i d =? y)%Z.
Proof. intros H. unfold v3_eqb. destruct n, i, d; cbn in *; subst; rewrite ?Z.eqb_refl, ?andb_true_r; cbn; rewrite (Z.eqb_sym _ y);
  repeat match goal with |- context [Z.eqb ?a ?b] => destruct (Z.eqb a b) end; reflexivity. Qed.

Section Op.
  Context (g : fgrid) (q : qty) (d : dim3).
  Hypothesis (Hd : get3 (invar g) d = false).

  Definition stores (c : V3 Z) (r : rstmt) : Prop := forall y, In y (rtgt r :: rsrc r) -> in_store g (q, rcomp r, set3 c d y) = true.

  Definition on (c i : V3 Z) : bool := v3_eqb (fnorm (invar g) (set3 c d 0%Z)) (set3 i d 0%Z).

  Lemma exec_row c r f : stores c r ->
    exec g f (to_stmt q d c r) = Some (fset (invar g) f q (rcomp r) (set3 c d (rtgt r)) (rval (fun s => f q (rcomp r) (set3 (fnorm (invar g) (set3 c d 0%Z)) d s)) r)).
  Proof.
    intros H.
    assert (V : forall e y, fget (invar g) f q e (set3 c d y) = f q e (set3 (fnorm (invar g) (set3 c d 0%Z)) d y)).
    { intros e y. unfold fget. rewrite !fnorm_set by exact Hd. rewrite set3_set3. reflexivity. }
    destruct r; cbn [to_stmt exec rcomp rtgt rsrc rval forallb] in *; unfold exec;
    repeat rewrite H by (cbn; tauto); cbn [forallb andb]; rewrite ?V; try reflexivity.
    all: repeat match goal with |- context [in_store g ?r] => rewrite (H _ : in_store g r = true) by (cbn; tauto) end; cbn [andb]; reflexivity.
  Qed.

  Lemma run_rows c l : forall f, Forall (stores c) l -> exists f', run g f (map (to_stmt q d c) l) = Some f' /\
    forall q' e i, f' q' e i = if qty_eqb q q' && on c i then RL l e (row f q d e i) (get3 i d) else f q' e i.
  Proof.
    induction l as [|r l IH]; intros f HF.
    - exists f. split; [reflexivity|]. intros q' e i. unfold RL, row. cbn [fold_left].
      destruct (qty_eqb q q') eqn:Eq; [|reflexivity]. apply qty_eqb_eq in Eq. subst q'. cbn [andb]. destruct (on c i); [|reflexivity]. rewrite set3_get. reflexivity.
    - inversion HF as [|? ? Hr HF']; subst.
      unfold run. cbn [map fold_left]. rewrite (exec_row c r f Hr).
      destruct (IH (fset (invar g) f q (rcomp r) (set3 c d (rtgt r)) (rval (fun s => f q (rcomp r) (set3 (fnorm (invar g) (set3 c d 0%Z)) d s)) r)) HF') as [f' [E V]].
      exists f'. split; [exact E|]. intros q' e i. rewrite V. clear E V IH.
      set (n := fnorm (invar g) (set3 c d 0%Z)).
      assert (Hn : get3 n d = 0%Z) by (unfold n, fnorm; rewrite get3_gen3, Hd, get3_set3_same; reflexivity).
      assert (EN : fnorm (invar g) (set3 c d (rtgt r)) = set3 n d (rtgt r)).
      { unfold n. rewrite !fnorm_set by exact Hd. rewrite set3_set3. reflexivity. }
      destruct (qty_eqb q q') eqn:Eq; cbn [andb]; [|unfold fset; rewrite Eq; reflexivity].
      apply qty_eqb_eq in Eq. subst q'.
      destruct (on c i) eqn:Eo.
      + unfold RL at 2. cbn [fold_left]. apply RL_ext. intros s. unfold row, rexec, fset. rewrite EN, v3_eqb_set by exact Hn.
        rewrite set3_set3, get3_set3_same. unfold on in Eo. fold n in Eo. rewrite Eo. cbn [andb].
        assert (qty_eqb q q = true) as -> by (destruct q; reflexivity). cbn [andb].
        destruct (dim3_eqb (rcomp r) e) eqn:Ee; [|reflexivity]. apply dim3_eqb_eq in Ee. subst e. cbn [andb].
        destruct (s =? rtgt r)%Z; [|reflexivity]. apply v3_eqb_eq in Eo. rewrite Eo.
        destruct r; cbn [rval]; rewrite ?set3_set3; reflexivity.
      + unfold fset. rewrite EN, v3_eqb_set by exact Hn. unfold on in Eo. fold n in Eo. rewrite Eo. cbn [andb]. rewrite !andb_false_r. reflexivity.
  Qed.

  (** idempotent rows *)
  Definition idem (l : list rstmt) : Prop := forall e u y, RL l e (RL l e u) y = RL l e u y.

  Lemma run_app f l1 l2 : run g f (l1 ++ l2) = match run g f l1 with Some f' => run g f' l2 | None => None end.
  Proof.
    unfold run. rewrite fold_left_app. destruct (fold_left _ l1 (Some f)); [reflexivity|].
    induction l2 as [|s l2 IH]; [reflexivity|]. cbn [fold_left]. exact IH.
  Qed.

  Lemma run_cols l cs : idem l -> forall f, (forall c, In c cs -> Forall (stores c) l) ->
    exists f', run g f (flat_map (fun c => map (to_stmt q d c) l) cs) = Some f' /\
    forall q' e i, f' q' e i = if qty_eqb q q' && existsb (fun c => on c i) cs then RL l e (row f q d e i) (get3 i d) else f q' e i.
  Proof.
    intros HI. induction cs as [|c cs IH]; intros f Hc.
    - exists f. split; [reflexivity|]. intros. cbn [existsb]. rewrite andb_false_r. reflexivity.
    - cbn [flat_map]. rewrite run_app. destruct (run_rows c l f (Hc c (or_introl eq_refl))) as [f1 [-> V1]].
      destruct (IH f1 (fun c' H => Hc c' (or_intror H))) as [f2 [-> V2]]. exists f2. split; [reflexivity|].
      intros q' e i. rewrite V2. cbn [existsb].
      assert (OS : forall s, on c (set3 i d s) = on c i) by (intros s; unfold on; rewrite set3_set3; reflexivity).
      destruct (qty_eqb q q') eqn:Eq; cbn [andb]; [|rewrite V1, Eq; reflexivity]. apply qty_eqb_eq in Eq. subst q'.
      destruct (existsb _ cs) eqn:Ex; [rewrite orb_true_r|rewrite orb_false_r].
      + destruct (on c i) eqn:Eo.
        * rewrite <- (HI e (row f q d e i)). apply RL_ext. intros s. unfold row at 1. rewrite V1, OS, ?Eo. assert (qty_eqb q q = true) as -> by (destruct q; reflexivity). cbn [andb].
          rewrite get3_set3_same. apply RL_ext. intros t. unfold row. rewrite set3_set3. reflexivity.
        * apply RL_ext. intros s. unfold row. rewrite V1, OS, ?Eo, ?andb_false_r. reflexivity.
      + rewrite V1. assert (qty_eqb q q = true) as -> by (destruct q; reflexivity). reflexivity.
  Qed.
End Op.

(** ** A wall of the code *)

Definition across (d : dim3) : dim3 := match d with D1 => D2 | _ => D1 end.
Definition col (d : dim3) (ix t : Z) : V3 Z := match d with D1 => v3 ix 0%Z t | _ => v3 ix t 0%Z end.

Definition wall_op (g : fgrid) (q : qty) (d : dim3) (from : Z) (l : list rstmt) (f : pf) : option pf :=
  run g f (loops g from (across d) (fun ix t => map (to_stmt q d (col d ix t)) l)).

(** the positions along the wall which are treated *)
Definition treated (g : fgrid) (d : dim3) (from : Z) (i : V3 Z) : bool :=
  forallb (fun e => if dim3_eqb e d then true else if get3 (invar g) e then (get3 i e =? 0)%Z
    else ((match e with D0 => -2 | _ => from end)%Z <=? get3 i e)%Z && (get3 i e <? get3 (ldims g) e + 2)%Z) dims3.

Lemma treated_iff g d from i : treated g d from i = true <-> beside g d from i.
Proof.
  unfold treated, beside. rewrite forallb_forall. split.
  - intros H e He. specialize (H e). assert (In e dims3) as K by (destruct e; cbn; tauto). specialize (H K).
    destruct (dim3_eqb e d) eqn:E; [apply dim3_eqb_eq in E; congruence|]. destruct (get3 (invar g) e); [lia|]. destruct e; lia.
  - intros H e _. destruct (dim3_eqb e d) eqn:E; [reflexivity|]. assert (e <> d) as K by (intros ->; rewrite dim3_eqb_refl in E; discriminate).
    specialize (H e K). destruct (get3 (invar g) e); [lia|]. destruct e; lia.
Qed.

Lemma loops_cols g from d l q : loops g from (across d) (fun ix t => map (to_stmt q d (col d ix t)) l) =
  flat_map (fun c => map (to_stmt q d c) l) (flat_map (fun t => map (fun ix => col d ix t) (ixs g)) (zrange from (get3 (ldims g) (across d) + 2))).
Proof.
  unfold loops. generalize (zrange from (get3 (ldims g) (across d) + 2)) as ts. induction ts as [|t ts IH]; [reflexivity|].
  cbn [flat_map]. rewrite IH, flat_map_app. f_equal. generalize (ixs g). induction l0 as [|x xs IHx]; [reflexivity|]. cbn [flat_map map]. rewrite IHx. reflexivity.
Qed.

Section Wall.
  Context (g : fgrid) (W : wf_grid g) (q : qty) (d : dim3).
  Hypothesis (Hd : get3 (invar g) d = false) (Hx : d <> D0).

  Lemma wf_facts e : (0 < get3 (ldims g) e)%Z /\ (get3 (invar g) e = true -> get3 (ldims g) e = 1%Z /\ get3 (ibn g) e = 0%Z) /\ (get3 (invar g) e = false -> (2 <= get3 (ibn g) e)%Z).
  Proof. destruct (W e) as [A [_ B]]. split; [exact A|]. destruct (get3 (invar g) e); split; intros; try discriminate; assumption. Qed.

  Lemma on_cols from i : (-2 <= from <= 0)%Z ->
    existsb (fun c => on g d c i) (flat_map (fun t => map (fun ix => col d ix t) (ixs g)) (zrange from (get3 (ldims g) (across d) + 2))) = treated g d from i.
  Proof.
    intros Hf. pose proof (wf_facts D0) as [L0 [I0 N0]]. pose proof (wf_facts (across d)) as [L1 [I1 N1]].
    apply eq_true_iff_eq. rewrite treated_iff, existsb_exists. split.
    - intros [c [Hc Ho]]. apply in_flat_map in Hc. destruct Hc as [t [Ht Hc]]. apply in_map_iff in Hc. destruct Hc as [ix [<- Hix]].
      apply in_zrange in Ht. unfold ixs in Hix. apply in_zrange in Hix. unfold on in Ho. apply v3_eqb_eq in Ho.
      assert (forall e, get3 (fnorm (invar g) (set3 (col d ix t) d 0%Z)) e = get3 (set3 i d 0%Z) e) as K by (intros e; rewrite Ho; reflexivity).
      intros e He. specialize (K e). rewrite (get3_set3_other i) in K by congruence. unfold fnorm in K. rewrite get3_gen3 in K. rewrite <- K.
      destruct (get3 (invar g) e) eqn:Ei; [reflexivity|].
      rewrite get3_set3_other by congruence. pose proof (wf_facts e) as [_ [_ Ne]]. specialize (Ne Ei).
      destruct d, e; try congruence; cbn [col get3 across c0 c1 c2] in *; lia.
    - intros H.
      assert (H0 := H D0 ltac:(congruence)). assert (H1 := H (across d) ltac:(destruct d; cbn; congruence)).
      pose (ix := if get3 (invar g) D0 then 0%Z else get3 i D0). pose (t := if get3 (invar g) (across d) then 0%Z else get3 i (across d)).
      exists (col d ix t). split.
      + apply in_flat_map. exists t. split; [apply in_zrange; clear H H0 I0 N0 L0; unfold t; clear t ix; destruct (get3 (invar g) (across d)); [lia|]; destruct d; try congruence; cbn [across get3] in *; lia|].
        apply in_map_iff. exists ix. split; [reflexivity|]. unfold ixs. apply in_zrange. unfold ix. cbn [get3] in *. destruct (c0 (invar g)); [specialize (I0 eq_refl)|specialize (N0 eq_refl)]; lia.
      + unfold on. apply v3_eqb_eq. apply v3_ext. intros e. unfold fnorm. rewrite get3_gen3.
        destruct d, e; try congruence; cbn [set3 get3 col across] in *; unfold ix, t; cbn [get3]; rewrite ?Hd;
        repeat match goal with |- context [if ?b then _ else _] => destruct b eqn:?; cbn [c0 c1 c2] in * end; congruence || reflexivity || lia.
  Qed.

  Lemma stores_cols from l : (-2 <= from <= 0)%Z -> Forall (rows_in (-2) (get3 (ldims g) d + 2)) l ->
    forall c, In c (flat_map (fun t => map (fun ix => col d ix t) (ixs g)) (zrange from (get3 (ldims g) (across d) + 2))) -> Forall (stores g q d c) l.
  Proof.
    intros Hf HF c Hc. rewrite Forall_forall in HF |- *. intros r Hr. destruct (HF r Hr) as [Ht Hs]. intros y Hy.
    assert (-2 <= y < get3 (ldims g) d + 2)%Z as Hy' by (destruct Hy as [<-|Hy]; [exact Ht|apply Hs; exact Hy]). clear Hy Ht Hs.
    apply in_flat_map in Hc. destruct Hc as [t [Ht Hc]]. apply in_map_iff in Hc. destruct Hc as [ix [<- Hix]].
    apply in_zrange in Ht. unfold ixs in Hix. apply in_zrange in Hix.
    pose proof (wf_facts D0) as [L0 [I0 N0]]. pose proof (wf_facts (across d)) as [L1 [I1 N1]]. pose proof (wf_facts d) as [Ld [_ Nd]]. specialize (Nd Hd).
    unfold in_store. cbn [snd]. apply forallb_forall. intros e _. unfold fnorm. rewrite get3_gen3.
    destruct (get3 (invar g) e) eqn:Ei.
    - pose proof (wf_facts e) as [Le [Ie _]]. specialize (Ie Ei). lia.
    - pose proof (wf_facts e) as [Le [_ Ne]]. specialize (Ne Ei). destruct d, e; try congruence; cbn [set3 get3 col across c0 c1 c2] in *; lia.
  Qed.

  Lemma wall_val from l f : (-2 <= from <= 0)%Z -> idem l -> Forall (rows_in (-2) (get3 (ldims g) d + 2)) l ->
    exists f', wall_op g q d from l f = Some f' /\
    forall q' e i, f' q' e i = if qty_eqb q q' && treated g d from i then RL l e (row f q d e i) (get3 i d) else f q' e i.
  Proof.
    intros Hf HI HF. unfold wall_op. rewrite loops_cols.
    destruct (run_cols g q d Hd l (flat_map (fun t => map (fun ix => col d ix t) (ixs g)) (zrange from (get3 (ldims g) (across d) + 2))) HI f) as [f' [E V]].
    - apply (stores_cols from l Hf HF).
    - exists f'. split; [exact E|]. intros q' e i. rewrite V, on_cols by exact Hf. reflexivity.
  Qed.
End Wall.

(** ** The walls of one patch *)

Section Sides.
  Context (g : fgrid) (W : wf_grid g) (q : qty) (rows : dim3 -> side -> list rstmt) (from : dim3 -> side -> Z)
          (rels : dim3 -> side -> list (dim3 * (R * Z * R * Z))).

  Definition rel (d : dim3) (fr : Z) (r : dim3 * (R * Z * R * Z)) (f : pf) : Prop :=
    let '(e, (a, y1, b, y2)) := r in forall i, beside g d fr i -> a * f q e (set3 i d y1) + b * f q e (set3 i d y2) = 0.

  Definition untouched (d : dim3) (s : side) (e : dim3) (y : Z) : Prop := forall u, RL (rows d s) e u y = u y.

  (** walls as the code can have them *)
  Definition fits (d : dim3) : Prop := d <> D0 /\ get3 (invar g) d = false /\ (2 <= get3 (ldims g) d)%Z.

  Hypothesis (Hfrom : forall d s, (-2 <= from d s <= -1)%Z).
  Hypothesis (Hidem : forall d s, fits d -> idem (rows d s)).
  Hypothesis (Hrows : forall d s, fits d -> Forall (rows_in (-1) (get3 (ldims g) d + 2)) (rows d s)).
  Hypothesis (Hest : forall d s e a y1 b y2, fits d -> In (e, (a, y1, b, y2)) (rels d s) -> forall u, a * RL (rows d s) e u y1 + b * RL (rows d s) e u y2 = 0).
  Hypothesis (Hin : forall d s e a y1 b y2, fits d -> In (e, (a, y1, b, y2)) (rels d s) -> (-1 <= y1 < get3 (ldims g) d + 2)%Z /\ (-1 <= y2 < get3 (ldims g) d + 2)%Z).
  Hypothesis (Hkeep : forall d s s' e a y1 b y2, fits d -> s <> s' -> In (e, (a, y1, b, y2)) (rels d s) -> untouched d s' e y1 /\ untouched d s' e y2).

  Definition inv (f0 : pf) (ws : list (dim3 * side)) (f : pf) : Prop :=
    (forall d s r, In (d, s) ws -> In r (rels d s) -> rel d (from d s) r f) /\
    (forall q' e i, q' <> q \/ (forall d s, In (d, s) ws -> untouched d s e (get3 i d)) -> f q' e i = f0 q' e i).

  Lemma rows_weak d s : fits d -> Forall (rows_in (-2) (get3 (ldims g) d + 2)) (rows d s).
  Proof.
    intros Hd. generalize (Hrows d s Hd). apply Forall_impl. intros r [A B]. split; [lia|]. intros t Ht. specialize (B t Ht). lia.
  Qed.

  Lemma inv_step f0 ws f d s : inv f0 ws f -> (forall d s, In (d, s) ws -> fits d) -> fits d -> ~ In (d, s) ws ->
    exists f', wall_op g q d (from d s) (rows d s) f = Some f' /\ inv f0 ((d, s) :: ws) f'.
  Proof.
    intros [I1 I2] Hws [Hd0 [Hd HN]] Hnew. assert (Hf : fits d) by (repeat split; assumption).
    destruct (wall_val g W q d Hd Hd0 (from d s) (rows d s) f) as [f' [E V]]; [pose proof (Hfrom d s); lia|apply Hidem; exact Hf|apply rows_weak; exact Hf|].
    assert (Q : qty_eqb q q = true) by (destruct q; reflexivity).
    exists f'. split; [exact E|]. split.
    - intros d' s' [e [[[a y1] b] y2]] Hw Hr. unfold rel. intros i Hi.
      rewrite !V, Q. cbn [andb].
      destruct (dim3_eqb d' d) eqn:Ed.
      + apply dim3_eqb_eq in Ed. subst d'.
        assert (TS : forall y, treated g d (from d s) (set3 i d y) = treated g d (from d s) i).
        { intros y. apply eq_true_iff_eq. rewrite !treated_iff. unfold beside. split; intros H e' He; specialize (H e' He); rewrite get3_set3_other in * by congruence; exact H. }
        rewrite !TS, !get3_set3_same.
        assert (RR : forall y z, RL (rows d s) e (row f q d e (set3 i d y)) z = RL (rows d s) e (row f q d e i) z).
        { intros y z. apply RL_ext. intros t. unfold row. rewrite set3_set3. reflexivity. }
        rewrite !RR. destruct Hw as [Hw|Hw].
        * assert (s' = s) by congruence. subst s'. rewrite (proj2 (treated_iff _ _ _ _) Hi). apply (Hest d s); [exact Hf|exact Hr].
        * assert (s' <> s) as Hss by (intros ->; apply Hnew; exact Hw).
          destruct (Hkeep d s' s e a y1 b y2 Hf Hss Hr) as [K1 K2]. rewrite K1, K2. unfold row.
          pose proof (I1 d s' _ Hw Hr) as J. cbn in J. specialize (J i Hi). destruct (treated g d (from d s) i); exact J.
      + assert (Hdd : d' <> d) by (intros ->; rewrite dim3_eqb_refl in Ed; discriminate).
        destruct Hw as [Hw|Hw]; [congruence|]. pose proof (Hws d' s' Hw) as Hf'. destruct (Hin d' s' e a y1 b y2 Hf' Hr) as [R1 R2].
        assert (TS : forall y, (-1 <= y < get3 (ldims g) d' + 2)%Z -> treated g d (from d s) (set3 i d' y) = treated g d (from d s) (set3 i d' 0%Z)).
        { intros y Hy. apply eq_true_iff_eq. rewrite !treated_iff. unfold beside. destruct Hf' as [Hd0' [Hd' HN']].
          split; intros H e' He; specialize (H e' He); destruct (dim3_eqb e' d') eqn:Ee.
          - apply dim3_eqb_eq in Ee. subst e'. rewrite Hd' in *. rewrite get3_set3_same in *. pose proof (Hfrom d s). destruct d'; try congruence; lia.
          - rewrite get3_set3_other in * by (intros ->; rewrite dim3_eqb_refl in Ee; discriminate). exact H.
          - apply dim3_eqb_eq in Ee. subst e'. rewrite Hd' in *. rewrite get3_set3_same in *. pose proof (Hfrom d s). destruct d'; try congruence; lia.
          - rewrite get3_set3_other in * by (intros ->; rewrite dim3_eqb_refl in Ee; discriminate). exact H. }
        rewrite (TS y1 R1), (TS y2 R2). rewrite !get3_set3_other by congruence.
        pose proof (I1 d' s' _ Hw Hr) as J. cbn in J.
        destruct (treated g d (from d s) (set3 i d' 0%Z)); [|apply J; exact Hi].
        rewrite <- (RL_lin (rows d s) e a (row f q d e (set3 i d' y1)) b (row f q d e (set3 i d' y2)) (fun t => a * row f q d e (set3 i d' y1) t + b * row f q d e (set3 i d' y2) t)) by reflexivity.
        assert (Bd : (from d' s' <= get3 i d < get3 (ldims g) d + 2)%Z).
        { specialize (Hi d ltac:(congruence)). rewrite Hd in Hi. destruct d; try congruence; exact Hi. }
        rewrite (RL_agree (from d' s') (get3 (ldims g) d + 2) (rows d s) e) with (v := fun _ => 0).
        * rewrite (RL_lin (rows d s) e 0 (fun _ => 0) 0 (fun _ => 0) (fun _ => 0)) by (intros; ring). ring.
        * generalize (Hrows d s Hf). apply Forall_impl. pose proof (Hfrom d' s'). intros r [A B]. split; [lia|]. intros t Ht. specialize (B t Ht). lia.
        * intros t Ht. unfold row. rewrite !(set3_swap i d' d) by congruence. apply J.
          intros e' He'. destruct (dim3_eqb e' d) eqn:Ee.
          -- apply dim3_eqb_eq in Ee. subst e'. rewrite Hd, get3_set3_same. destruct d; try congruence; exact Ht.
          -- rewrite get3_set3_other by (intros ->; rewrite dim3_eqb_refl in Ee; discriminate). apply Hi. exact He'.
        * exact Bd.
    - intros q' e i H. rewrite V. destruct (qty_eqb q q') eqn:Eq; cbn [andb].
      + apply qty_eqb_eq in Eq. subst q'. destruct H as [H|H]; [congruence|].
        rewrite (H d s (or_introl eq_refl)). unfold row. rewrite set3_get.
        assert (f q e i = f0 q e i) as K by (apply I2; right; intros d' s' Hw; apply H; right; exact Hw).
        destruct (treated g d (from d s) i); exact K.
      + apply I2. destruct H as [H|H]; [left; exact H|right; intros d' s' Hw; apply H; right; exact Hw].
  Qed.

  Context (at_ : side -> V3 bool) (bc : side -> V3 bnd_fld) (op : side -> bnd_fld -> dim3 -> pf -> option pf).
  Definition is_wall (d : dim3) (s : side) : Prop := get3 (at_ s) d = true /\ get3 (bc s) d = BND_FLD_CONDUCTING_WALL.
  Hypothesis (Hbc : forall d s, get3 (at_ s) d = true -> get3 (bc s) d = BND_FLD_PERIODIC \/ get3 (bc s) d = BND_FLD_CONDUCTING_WALL /\ fits d).
  Hypothesis (Hper : forall d s f, op s BND_FLD_PERIODIC d f = Some f).
  Hypothesis (Hwall : forall d s f, d <> D0 -> op s BND_FLD_CONDUCTING_WALL d f = wall_op g q d (from d s) (rows d s) f).

  Definition step (o : option pf) (ds : dim3 * side) : option pf :=
    match o with Some f => if get3 (at_ (snd ds)) (fst ds) then op (snd ds) (get3 (bc (snd ds)) (fst ds)) (fst ds) f else Some f | None => None end.

  Lemma steps_inv f0 todo : forall ws f, inv f0 ws f -> (forall d s, In (d, s) ws -> is_wall d s) -> NoDup (ws ++ todo) ->
    exists ws' f', fold_left step todo (Some f) = Some f' /\ inv f0 ws' f' /\ (forall d s, In (d, s) ws' <-> In (d, s) ws \/ In (d, s) todo /\ is_wall d s).
  Proof.
    induction todo as [|[d s] todo IH]; intros ws f HI HW ND.
    - exists ws, f. split; [reflexivity|]. split; [exact HI|]. intros d s. cbn. tauto.
    - assert (HF : forall d s, In (d, s) ws -> fits d).
      { intros d' s' H. destruct (HW d' s' H) as [A B]. destruct (Hbc d' s' A) as [C|[_ C]]; [congruence|exact C]. }
      cbn [fold_left]. unfold step at 2. cbn [fst snd].
      assert (SK : (~ is_wall d s -> (if get3 (at_ s) d then op s (get3 (bc s) d) d f else Some f) = Some f)).
      { intros HN. destruct (get3 (at_ s) d) eqn:Ea; [|reflexivity]. destruct (Hbc d s Ea) as [->|[C _]]; [apply Hper|]. exfalso. apply HN. split; assumption. }
      assert (DE : is_wall d s \/ ~ is_wall d s).
      { unfold is_wall. destruct (get3 (at_ s) d); [|right; intros [? _]; discriminate]. destruct (get3 (bc s) d); [right; intros [_ ?]; discriminate|right; intros [_ ?]; discriminate|left; split; reflexivity|right; intros [_ ?]; discriminate]. }
      destruct DE as [HD|HD].
      + pose proof HD as [A B]. destruct (Hbc d s A) as [C|[_ Hf]]; [congruence|]. rewrite A, B, Hwall by (apply Hf).
        destruct (inv_step f0 ws f d s HI HF Hf) as [f1 [-> HI1]].
        { intros H. apply NoDup_remove_2 in ND. apply ND. apply in_or_app. left. exact H. }
        destruct (IH ((d, s) :: ws) f1 HI1) as [ws' [f' [E [HI' HW']]]].
        * intros d' s' [H|H]; [injection H as <- <-; exact HD|apply HW; exact H].
        * cbn [app]. apply (Permutation_NoDup (l := ws ++ (d, s) :: todo)); [symmetry; apply Permutation_middle|exact ND].
        * exists ws', f'. split; [exact E|]. split; [exact HI'|]. intros d' s'. rewrite HW'. cbn [In]. split; [intros [[H|H]|H]|intros [H|[[H|H] H']]]; try tauto.
          injection H as <- <-. tauto.
      + rewrite SK by exact HD. destruct (IH ws f HI HW) as [ws' [f' [E [HI' HW']]]].
        * apply NoDup_remove_1 in ND. exact ND.
        * exists ws', f'. split; [exact E|]. split; [exact HI'|]. intros d' s'. rewrite HW'. cbn [In]. split; [intros [H|H]; tauto|]. intros [H|[[H|H] H']]; try tauto.
          injection H as <- <-. tauto.
  Qed.

  Lemma sides_inv f : exists f', sides (at_ Lo) (at_ Hi) (bc Lo) (bc Hi) (op Lo) (op Hi) f = Some f' /\
    (forall d s r, is_wall d s -> In r (rels d s) -> rel d (from d s) r f') /\
    (forall q' e i, q' <> q \/ (forall d s, is_wall d s -> untouched d s e (get3 i d)) -> f' q' e i = f q' e i).
  Proof.
    destruct (steps_inv f [(D0, Lo); (D1, Lo); (D2, Lo); (D0, Hi); (D1, Hi); (D2, Hi)] [] f) as [ws [f' [E [[I1 I2] HW]]]].
    - split; [intros d s r []|reflexivity].
    - intros d s [].
    - cbn. repeat constructor; cbn; intuition discriminate.
    - assert (HW' : forall d s, In (d, s) ws <-> is_wall d s).
      { intros d s. rewrite HW. cbn. destruct d, s; tauto. }
      exists f'. split; [exact E|]. split.
      + intros d s r H. apply I1. apply HW'. exact H.
      + intros q' e i [H|H]; apply I2; [left; exact H|right]. intros d s Hw. apply H. apply HW'. exact Hw.
  Qed.
End Sides.

(** ** The rows of the code *)

Definition out_n (s : side) (n : Z) : Z := match s with Lo => -1 | Hi => n + 1 end%Z.
Definition in_n (s : side) (n : Z) : Z := match s with Lo => 1 | Hi => n - 1 end%Z.
Definition out_h (s : side) (n : Z) : Z := match s with Lo => -1 | Hi => n end%Z.
Definition in_h (s : side) (n : Z) : Z := match s with Lo => 0 | Hi => n - 1 end%Z.

Definition rowsE (g : fgrid) (d : dim3) (s : side) : list rstmt :=
  let n := get3 (ldims g) d in
  let t e := [RZ e (wall_at s n); RC e (out_n s n) (in_n s n)] in
  let nn := [RN d (out_h s n) (in_h s n)] in
  match d with D1 => t D0 ++ nn ++ t D2 | _ => t D0 ++ t D1 ++ nn end.
Definition rowsH (g : fgrid) (d : dim3) (s : side) : list rstmt :=
  let n := get3 (ldims g) d in
  let t e := [RN e (out_h s n) (in_h s n)] in
  let nn := [RC d (out_n s n) (in_n s n)] in
  match d with D1 => t D0 ++ nn ++ t D2 | _ => t D0 ++ t D1 ++ nn end.
Definition rowsJ (g : fgrid) (d : dim3) (s : side) : list rstmt :=
  let n := get3 (ldims g) d in
  let t e := [RA e (in_n s n) (out_n s n); RZ e (out_n s n)] in
  let nn := [RS d (in_h s n) (out_h s n); RZ d (out_h s n)] in
  match d with D1 => t D0 ++ nn ++ t D2 | _ => t D0 ++ t D1 ++ nn end.
Definition fromH (d : dim3) (s : side) : Z := match d, s with D1, Lo => -1 | _, _ => -2 end%Z.

Lemma E_lo_op g d f : d <> D0 -> conducting_wall_E_lo g d f = wall_op g QE d (-2) (rowsE g d Lo) f.
Proof. destruct d; [congruence|reflexivity|reflexivity]. Qed.
Lemma E_hi_op g d f : d <> D0 -> conducting_wall_E_hi g d f = wall_op g QE d (-2) (rowsE g d Hi) f.
Proof. destruct d; [congruence|reflexivity|reflexivity]. Qed.
Lemma H_lo_op g d f : d <> D0 -> conducting_wall_H_lo g d f = wall_op g QH d (fromH d Lo) (rowsH g d Lo) f.
Proof. destruct d; [congruence|reflexivity|reflexivity]. Qed.
Lemma H_hi_op g d f : d <> D0 -> conducting_wall_H_hi g d f = wall_op g QH d (fromH d Hi) (rowsH g d Hi) f.
Proof. destruct d; [congruence|reflexivity|reflexivity]. Qed.
Lemma J_lo_op g d f : d <> D0 -> conducting_wall_J_lo g d f = wall_op g QJ d (-2) (rowsJ g d Lo) f.
Proof. destruct d; [congruence|reflexivity|reflexivity]. Qed.
Lemma J_hi_op g d f : d <> D0 -> conducting_wall_J_hi g d f = wall_op g QJ d (-2) (rowsJ g d Hi) f.
Proof. destruct d; [congruence|reflexivity|reflexivity]. Qed.

Ltac ifz := repeat match goal with |- context [(?a =? ?b)%Z] => destruct (Z.eqb_spec a b); try lia end.
Ltac rlcbn := unfold RL; cbn [fold_left app]; unfold rexec; cbn [rcomp rtgt rval dim3_eqb].

Lemma RL_E g d s e u y : d <> D0 -> RL (rowsE g d s) e u y =
  let n := get3 (ldims g) d in
  if dim3_eqb d e then (if (y =? out_h s n)%Z then - u (in_h s n) else u y)
  else (if (y =? out_n s n)%Z then u (in_n s n) else if (y =? wall_at s n)%Z then 0 else u y).
Proof.
  intros Hd. cbv zeta. unfold rowsE. cbv zeta. set (n := get3 (ldims g) d).
  destruct d; [congruence| |]; destruct e, s; rlcbn; unfold out_n, out_h, in_n, in_h, wall_at; ifz; reflexivity.
Qed.

Lemma RL_H g d s e u y : d <> D0 -> RL (rowsH g d s) e u y =
  let n := get3 (ldims g) d in
  if dim3_eqb d e then (if (y =? out_n s n)%Z then u (in_n s n) else u y)
  else (if (y =? out_h s n)%Z then - u (in_h s n) else u y).
Proof.
  intros Hd. cbv zeta. unfold rowsH. cbv zeta. set (n := get3 (ldims g) d).
  destruct d; [congruence| |]; destruct e, s; rlcbn; unfold out_n, out_h, in_n, in_h; ifz; reflexivity.
Qed.

Lemma RL_J g d s e u y : d <> D0 -> RL (rowsJ g d s) e u y =
  let n := get3 (ldims g) d in
  if dim3_eqb d e then (if (y =? out_h s n)%Z then 0 else if (y =? in_h s n)%Z then u y - u (out_h s n) else u y)
  else (if (y =? out_n s n)%Z then 0 else if (y =? in_n s n)%Z then u y + u (out_n s n) else u y).
Proof.
  intros Hd. cbv zeta. unfold rowsJ. cbv zeta. set (n := get3 (ldims g) d).
  destruct d; [congruence| |]; destruct e, s; rlcbn; unfold out_n, out_h, in_n, in_h; ifz; try (subst; ring); reflexivity.
Qed.
