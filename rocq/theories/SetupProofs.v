(** Proofs about SetupModel. *)
From Coq Require Import Reals Lra Permutation Sorted.
From Flocq Require Import Core.
From Verif Require Import Base Arr RSum IndexerModel RangeModel RangeProofs FieldModel SetupModel SetupSpec.
Local Open Scope R_scope.

Lemma floor_in_cell i h dx : 0 < dx -> 0 <= h < 1 -> Zfloor ((IZR i + h) * dx / dx) = i.
Proof.
  intros D H. replace ((IZR i + h) * dx / dx) with (IZR i + h) by (field; lra).
  apply Zfloor_imp. rewrite plus_IZR. lra.
Qed.

Lemma all_some_some {A} (l : list (option A)) r : all_some l = Some r -> l = map Some r.
Proof.
  revert r. induction l as [|[a|] l IH]; intros r H; cbn in H; [injection H as <-; reflexivity| |discriminate].
  destruct (all_some l); [|discriminate]. injection H as <-. cbn. rewrite (IH l0); reflexivity.
Qed.

Lemma all_some_fun {A B} (f : A -> option B) (g : A -> B) l : (forall x, In x l -> f x = Some (g x)) -> all_some (map f l) = Some (map g l).
Proof.
  intros H. induction l as [|a l IH]; [reflexivity|]. cbn. rewrite (H a (or_introl eq_refl)), IH; [reflexivity|].
  intros x Hx. apply H. now right.
Qed.

Lemma all_some_elem {A B} (f : A -> option B) l r : all_some (map f l) = Some r -> forall x, In x l -> exists y, f x = Some y /\ In y r.
Proof.
  revert r. induction l as [|a l IH]; intros r H x Hx; [contradiction|]. cbn in H. destruct (f a) as [b|] eqn:E; [|discriminate].
  destruct (all_some (map f l)) as [r'|] eqn:E'; [|discriminate]. injection H as <-. destruct Hx as [->|Hx].
  - exists b. split; [exact E|now left].
  - destruct (IH r' eq_refl x Hx) as [y [Y1 Y2]]. exists y. split; [exact Y1|now right].
Qed.

Lemma cells_ok ld : (forall d, (0 < get3 ld d)%Z) -> cells_of ld = Some (nested_loops [0; 0; 0]%Z [c0 ld; c1 ld; c2 ld]).
Proof.
  intros H. pose proof (H D0) as H0. pose proof (H D1) as H1. pose proof (H D2) as H2. cbn in H0, H1, H2. unfold cells_of.
  apply vr_visits_nested; [discriminate|repeat constructor; assumption|].
  cbn [nested_loops]. 
  assert (L : forall A B (f : A -> list B) l n, (forall x, In x l -> length (f x) = n) -> length (flat_map f l) = (length l * n)%nat).
  { intros A B f l n Hn. induction l as [|a l IH]; [reflexivity|]. cbn. rewrite app_length, IH, (Hn a (or_introl eq_refl)); [lia|].
    intros x Hx. apply Hn. now right. }
  rewrite (L _ _ _ _ (Z.to_nat (c1 ld) * (Z.to_nat (c2 ld) * 1))%nat).
  - rewrite zrange_length. rewrite !Z2Nat.inj_mul by lia. lia.
  - intros x _. rewrite map_length. rewrite (L _ _ _ _ (Z.to_nat (c2 ld) * 1)%nat); [rewrite zrange_length; lia|].
    intros y _. rewrite map_length. rewrite (L _ _ _ _ 1%nat); [rewrite zrange_length; lia|]. intros z _. reflexivity.
Qed.

(** the cells of a patch, in order *)
Definition cell_list (ld : V3 Z) : list (V3 Z) := map idx3 (nested_loops [0; 0; 0]%Z [c0 ld; c1 ld; c2 ld]).

Lemma in_cell_list g c : In c (cell_list (sg_ld g)) <-> is_cell g c.
Proof.
  unfold cell_list. rewrite in_map_iff. split.
  - intros [l [E Hl]]. apply nested_loops_in in Hl; [|reflexivity]. cbn [combine] in Hl.
    inversion Hl as [|i0 ? l0 ? H0 Hl0]; subst. inversion Hl0 as [|i1 ? l1 ? H1 Hl1]; subst. inversion Hl1 as [|i2 ? l2 ? H2 Hl2]; subst.
    inversion Hl2; subst. cbn [fst snd] in *. intros [| |]; cbn; assumption.
  - intros H. exists [c0 c; c1 c; c2 c]. split; [destruct c; reflexivity|]. apply nested_loops_in; [reflexivity|].
    cbn [combine]. pose proof (H D0). pose proof (H D1). pose proof (H D2). repeat constructor; cbn in *; lia.
Qed.

Lemma NoDup_cell_list ld : NoDup (cell_list ld).
Proof.
  unfold cell_list. assert (N : NoDup (nested_loops [0; 0; 0]%Z [c0 ld; c1 ld; c2 ld])).
  { pose proof (nested_loops_lex [0; 0; 0]%Z [c0 ld; c1 ld; c2 ld]) as S. induction S as [|x l S IH H]; constructor; [|exact IH].
    intros Hx. rewrite Forall_forall in H. specialize (H x Hx). clear -H. induction x as [|a x IH]; cbn in H; [exact H|].
    destruct H as [H|[_ H]]; [lia|auto]. }
  revert N. assert (L : forall v, In v (nested_loops [0; 0; 0]%Z [c0 ld; c1 ld; c2 ld]) -> length v = 3%nat) by (intros v Hv; apply (nested_length _ _ v) in Hv; [exact Hv|reflexivity]).
  revert L. generalize (nested_loops [0; 0; 0]%Z [c0 ld; c1 ld; c2 ld]). intros l L N. induction N as [|x l Hx N IH]; [constructor|].
  cbn [map]. constructor.
  - rewrite in_map_iff. intros [y [E Hy]]. apply Hx. replace x with y; [exact Hy|].
    pose proof (L x (or_introl eq_refl)) as Lx. pose proof (L y (or_intror Hy)) as Ly.
    destruct x as [|? [|? [|? [|? ?]]]]; try discriminate Lx. destruct y as [|? [|? [|? [|? ?]]]]; try discriminate Ly.
    unfold idx3 in E. cbn in E. congruence.
  - apply IH. intros v Hv. apply L. now right.
Qed.

(** ** one particle *)

(** the offset in units of the spacing from the lower corner of the cell *)
Definition frac_pos (s : setup_prm) (g : sgeom) (off : dim3 -> R) (d : dim3) : R :=
  if get3 (sg_inv g) d then 0
  else match st_center s with CC => / 2 | NC => 0 end + (if st_random s then off d else 0).

Definition made (s : setup_prm) (g : sgeom) (c : V3 Z) (p : pop_t) (off : dim3 -> R) : sprt :=
  {| sp_x := gen3 (fun d => (IZR (get3 c d) + frac_pos s g off d) * get3 (sg_dx g) d);
     sp_qw := get_weight s (po_density p) (po_n p) * q_of s (po_kind p); sp_kind := po_kind p |}.

Lemma frac_pos_range s g (off : dim3 -> R) d :
  (match st_center s with CC => - / 2 <= off d < / 2 | NC => 0 <= off d < 1 end) -> 0 <= frac_pos s g off d < 1.
Proof. intros H. unfold frac_pos. destruct (get3 (sg_inv g) d); [lra|]. destruct (st_center s), (st_random s); lra. Qed.

Lemma make_prt_ok s g c p (off : dim3 -> R) : wf_geom g -> is_cell g c ->
  (forall d, match st_center s with CC => - / 2 <= off d < / 2 | NC => 0 <= off d < 1 end) ->
  (exists q, aget (st_q s) (po_kind p) = Some q) -> make_prt s g c p off = Some (made s g c p off).
Proof.
  intros W C O [q Q]. unfold make_prt, inject.
  set (x := if st_random s then _ else _).
  assert (X : forall d, get3 x d = get3 (sg_xb g) d + (IZR (get3 c d) + frac_pos s g off d) * get3 (sg_dx g) d).
  { intros d. unfold x, frac_pos, cell_pos, get_nc, get_cc. destruct (st_random s).
    - rewrite !get3_gen3. destruct (get3 (sg_inv g) d); [ring|]. destruct (st_center s); ring.
    - rewrite get3_gen3. destruct (get3 (sg_inv g) d); [ring|]. destruct (st_center s); ring. }
  assert (B : forallb (fun d => Rle_bool (get3 (sg_xb g) d) (get3 x d) && Rle_bool (get3 x d) (get3 (sg_xe g) d)) dims3 = true).
  { apply forallb_forall. intros d _. rewrite X. destruct (W d) as [D [L E]]. pose proof (frac_pos_range s g off d (O d)) as F.
    pose proof (C d) as Cd. assert (IZR (get3 c d) + 1 <= IZR (get3 (sg_ld g) d)) by (rewrite <- plus_IZR; apply IZR_le; lia).
    assert (0 <= IZR (get3 c d)) by (apply IZR_le; lia). apply andb_true_intro. split; apply Rle_bool_true.
    - assert (0 <= (IZR (get3 c d) + frac_pos s g off d) * get3 (sg_dx g) d) by (apply Rmult_le_pos; lra). lra.
    - rewrite E. apply Rplus_le_compat_l, Rmult_le_compat_r; lra. }
  rewrite B, Q. unfold made, q_of. rewrite Q. f_equal. f_equal. apply v3_ext. intros d. rewrite !get3_gen3, X. ring.
Qed.

Lemma in_cell_made s g c p (off : dim3 -> R) c' : wf_geom g ->
  (forall d, match st_center s with CC => - / 2 <= off d < / 2 | NC => 0 <= off d < 1 end) ->
  in_cell g c' (made s g c p off) = v3_eqb c c'.
Proof.
  intros W O. assert (F : forall d, Zfloor (get3 (sp_x (made s g c p off)) d / get3 (sg_dx g) d) = get3 c d).
  { intros d. cbn [sp_x made]. rewrite get3_gen3. apply floor_in_cell; [apply W|apply frac_pos_range, O]. }
  unfold in_cell, dims3. cbn [forallb]. rewrite !F. unfold v3_eqb. cbn [get3]. rewrite Bool.andb_true_r, <- Bool.andb_assoc. reflexivity.
Qed.

Lemma v3_eqb_spec a b : v3_eqb a b = true <-> a = b.
Proof.
  unfold v3_eqb. rewrite !andb_true_iff, !Z.eqb_eq. split; [|intros ->; auto]. destruct a, b. cbn. intros [[-> ->] ->]. reflexivity.
Qed.

(** ** all particles *)

(** the kinds of the populations exist *)
Definition kinds_ok (s : setup_prm) (ps : list pop_t) : Prop := forall p, In p ps -> exists q, aget (st_q s) (po_kind p) = Some q.

Definition made_all (s : setup_prm) (g : sgeom) (off : V3 Z -> Z -> Z -> dim3 -> R) (c : V3 Z) (ps : list pop_t) : list sprt :=
  flat_map (fun p => map (fun cnt => made s g c p (off c (po_kind p) cnt)) (zrange 0 (po_n p))) ps.

Lemma pops_kinds s init pos c u : forall pops n_q ps, pops_loop s init pos c u n_q pops = Some ps -> kinds_ok s ps.
Proof.
  induction pops as [|pop pops IH]; intros n_q ps H p Hp; cbn in H; [injection H as <-; contradiction|].
  destruct (pop_step s init pos c u n_q pop) as [[x n_q']|] eqn:E; [|discriminate].
  destruct (pops_loop s init pos c u n_q' pops) as [ps'|] eqn:E'; [|discriminate]. injection H as <-.
  destruct Hp as [<-|Hp]; [|exact (IH _ _ E' p Hp)].
  unfold pop_step in E. destruct (init pop pos c _) as [density kind].
  destruct (negb (pop =? st_neutral s)%Z).
  - destruct (n_in_cell density (st_ppud s) (st_frac s) (u pop)); [|discriminate].
    destruct (aget (st_q s) kind) as [q|] eqn:Q; [|discriminate]. destruct (to_int _); [|discriminate].
    injection E as <- _. exists q. exact Q.
  - destruct (negb _); [discriminate|]. destruct (aget (st_q s) kind) as [q|] eqn:Q; [|discriminate].
    destruct (Req_EM_T q 0); [discriminate|]. destruct (to_int _); [|discriminate]. injection E as <- _. exists q. exact Q.
Qed.

Lemma concat_map_flat {A B} (f : A -> list B) l : concat (map f l) = flat_map f l.
Proof. induction l as [|a l IH]; [reflexivity|]. cbn. rewrite IH. reflexivity. Qed.

Lemma flat_map_flat_map {A B C} (f : B -> list C) (g : A -> list B) l : flat_map f (flat_map g l) = flat_map (fun a => flat_map f (g a)) l.
Proof. induction l as [|a l IH]; [reflexivity|]. cbn. rewrite flat_map_app, IH. reflexivity. Qed.

Lemma flat_map_map_r {A B C} (f : B -> list C) (g : A -> B) l : flat_map f (map g l) = flat_map (fun a => f (g a)) l.
Proof. induction l as [|a l IH]; [reflexivity|]. cbn. rewrite IH. reflexivity. Qed.

(** when every cell is fine, the calls of op are those of the cells one after the other *)
Lemma op_cellwise_calls s init g u calls : wf_geom g -> op_cellwise s init g u = Some calls ->
  exists ps, (forall c, is_cell g c -> cell_pops s init g u c = Some (ps c)) /\
             calls = flat_map (fun c => map (pair c) (ps c)) (cell_list (sg_ld g)).
Proof.
  intros W H. unfold op_cellwise in H. rewrite cells_ok in H by (intros d; apply W).
  destruct (all_some _) as [r|] eqn:E in H; [|discriminate]. injection H as <-.
  exists (fun c => match cell_pops s init g u c with Some ps => ps | None => [] end).
  assert (K : forall l, In l (nested_loops [0; 0; 0]%Z [c0 (sg_ld g); c1 (sg_ld g); c2 (sg_ld g)]) ->
     exists ps, cell_pops s init g u (idx3 l) = Some ps).
  { intros l Hl. destruct (all_some_elem _ _ _ E l Hl) as [y [Y _]]. cbn in Y.
    destruct (cell_pops s init g u (idx3 l)) as [ps|]; [exists ps; reflexivity|discriminate]. }
  split.
  - intros c Hc. apply in_cell_list in Hc. apply in_map_iff in Hc. destruct Hc as [l [<- Hl]]. destruct (K l Hl) as [ps Hps].
    rewrite Hps. reflexivity.
  - rewrite (all_some_fun _ (fun l => map (pair (idx3 l)) (match cell_pops s init g u (idx3 l) with Some ps => ps | None => [] end))) in E.
    + injection E as <-. rewrite concat_map_flat. unfold cell_list. rewrite flat_map_map_r. reflexivity.
    + intros l Hl. destruct (K l Hl) as [ps Hps]. rewrite Hps. reflexivity.
Qed.

Lemma setup_patch_made s init g u off : wf_geom g -> offsets_ok s off ->
  forall calls, op_cellwise s init g u = Some calls ->
  exists ps, (forall c, is_cell g c -> cell_pops s init g u c = Some (ps c)) /\
             setup_patch s init g u off = Some (flat_map (fun c => made_all s g off c (ps c)) (cell_list (sg_ld g))).
Proof.
  intros W O calls H. destruct (op_cellwise_calls _ _ _ _ _ W H) as [ps [P E]]. exists ps. split; [exact P|].
  unfold setup_patch. rewrite H, E.
  rewrite (all_some_fun _ (fun c => map (fun cnt => made s g (fst c) (snd c) (off (fst c) (po_kind (snd c)) cnt)) (zrange 0 (po_n (snd c))))).
  - cbn [option_map]. f_equal. rewrite concat_map_flat, flat_map_flat_map. apply flat_map_ext. intros c. rewrite flat_map_map_r. reflexivity.
  - intros [c p] Hp. apply in_flat_map in Hp. destruct Hp as [c' [Hc Hp]]. apply in_map_iff in Hp. destruct Hp as [p' [Ep Hp]].
    injection Ep as -> ->. apply in_cell_list in Hc. unfold make_prts. apply all_some_fun. intros cnt _. cbn [fst snd].
    apply make_prt_ok; [exact W|exact Hc|intros d; apply O|]. exact (pops_kinds _ _ _ _ _ _ _ _ (P c Hc) p Hp).
Qed.

Lemma filter_flat_map {A B} (f : B -> bool) (h : A -> list B) l : filter f (flat_map h l) = flat_map (fun a => filter f (h a)) l.
Proof. induction l as [|a l IH]; [reflexivity|]. cbn. rewrite filter_app, IH. reflexivity. Qed.

Lemma filter_all_none {A} (f : A -> bool) (b : bool) l : (forall x, In x l -> f x = b) -> filter f l = if b then l else [].
Proof.
  intros H. induction l as [|a l IH]; [destruct b; reflexivity|]. cbn. rewrite (H a (or_introl eq_refl)), IH by (intros x Hx; apply H; now right).
  destruct b; reflexivity.
Qed.

Lemma flat_map_pick {A B} (h : A -> list B) l a : NoDup l -> In a l -> (forall x, In x l -> x <> a -> h x = []) -> flat_map h l = h a.
Proof.
  intros N. induction N as [|x l Hx N IH]; intros Ha H; [contradiction|]. cbn. destruct Ha as [->|Ha].
  - assert (Q : flat_map h l = []); [|rewrite Q; apply app_nil_r].
    assert (Q : forall y, In y l -> h y = []); [intros y Hy|clear -Q; induction l as [|y l IH]; [reflexivity|]; cbn; rewrite (Q y (or_introl eq_refl)), IH; [reflexivity|]; intros z Hz; apply Q; now right]. apply H; [now right|]. intros ->. contradiction.
  - rewrite (H x (or_introl eq_refl)) by (intros ->; contradiction). cbn. apply IH; [exact Ha|]. intros y Hy. apply H. now right.
Qed.

Lemma prts_in_made s g off c ps : wf_geom g -> offsets_ok s off -> is_cell g c ->
  prts_in g c (flat_map (fun c => made_all s g off c (ps c)) (cell_list (sg_ld g))) = made_all s g off c (ps c).
Proof.
  intros W O C. unfold prts_in. rewrite filter_flat_map.
  assert (F : forall c', filter (in_cell g c) (made_all s g off c' (ps c')) = if v3_eqb c' c then made_all s g off c' (ps c') else []).
  { intros c'. apply filter_all_none. intros x Hx. unfold made_all in Hx. apply in_flat_map in Hx. destruct Hx as [p [_ Hx]].
    apply in_map_iff in Hx. destruct Hx as [n [<- _]]. apply in_cell_made; [exact W|intros d; apply O]. }
  rewrite (flat_map_ext _ _ F). rewrite (flat_map_pick _ _ c).
  - rewrite (proj2 (v3_eqb_spec c c) eq_refl). reflexivity.
  - apply NoDup_cell_list.
  - apply in_cell_list, C.
  - intros x _ Hx. destruct (v3_eqb x c) eqn:E; [apply v3_eqb_spec in E; contradiction|reflexivity].
Qed.

(** ** numbers of particles *)

Lemma aget_zrange' lo hi i : (lo <= i < hi)%Z -> nth_error (zrange lo hi) (Z.to_nat (i - lo)) = Some i.
Proof.
  intros H. pose proof (aget_zrange lo hi (i - lo)) as A. unfold aget in A.
  destruct (Z.ltb_spec (i - lo) 0); [lia|]. rewrite A. destruct (Z.leb_spec 0 (i - lo)); [|lia]. destruct (Z.ltb_spec (i - lo) (hi - lo)); [|lia].
  cbn. f_equal. lia.
Qed.

(** how the populations of a cell come out *)
Definition came_out (s : setup_prm) (init : init_t) (pos : V3 R) (c : V3 Z) (u : Z -> R) (pop : Z) (p : pop_t) : Prop :=
  (po_density p, po_kind p) = init pop pos c (if (pop <? alen (st_q s))%Z then pop else 0%Z) /\
  (pop <> st_neutral s -> n_in_cell (po_density p) (st_ppud s) (st_frac s) (u pop) = Some (po_n p)).

Lemma pop_step_out s init pos c u n_q pop p n_q' : pop_step s init pos c u n_q pop = Some (p, n_q') ->
  came_out s init pos c u pop p /\
  (pop <> st_neutral s -> to_int (IZR n_q + q_of s (po_kind p) * IZR (po_n p)) = Some n_q') /\
  (pop = st_neutral s -> st_neutral s = (st_npop s - 1)%Z /\ q_of s (po_kind p) <> 0 /\ to_int (IZR (- n_q) / q_of s (po_kind p)) = Some (po_n p)).
Proof.
  unfold pop_step, came_out, q_of. destruct (init pop pos c _) as [density kind] eqn:EI. intros H.
  destruct (Z.eqb_spec pop (st_neutral s)) as [EN|EN]; cbn [negb] in H.
  - destruct (Z.eqb_spec (st_neutral s) (st_npop s - 1)) as [E1|E1]; cbn [negb] in H; [|discriminate].
    destruct (aget (st_q s) kind) as [q|] eqn:Q; [|discriminate]. destruct (Req_EM_T q 0) as [|NQ]; [discriminate|].
    destruct (to_int (IZR (- n_q) / q)) as [n|] eqn:EN'; [|discriminate]. injection H as <- <-. cbn [po_density po_kind po_n].
    repeat split; try (intros; contradiction); try (rewrite Q); assumption.
  - destruct (n_in_cell density (st_ppud s) (st_frac s) (u pop)) as [n|] eqn:N; [|discriminate].
    destruct (aget (st_q s) kind) as [q|] eqn:Q; [|discriminate]. destruct (to_int (IZR n_q + q * IZR n)) as [m|] eqn:M; [|discriminate].
    injection H as <- <-. cbn [po_density po_kind po_n]. repeat split; try (intros; contradiction); intros _; [exact N|]. rewrite Q. exact M.
Qed.

Lemma pops_loop_out s init pos c u : forall pops n_q ps, pops_loop s init pos c u n_q pops = Some ps -> Forall2 (came_out s init pos c u) pops ps.
Proof.
  induction pops as [|pop pops IH]; intros n_q ps H; cbn in H; [injection H as <-; constructor|].
  destruct (pop_step s init pos c u n_q pop) as [[x n_q']|] eqn:E; [|discriminate].
  destruct (pops_loop s init pos c u n_q' pops) as [ps'|] eqn:E'; [|discriminate]. injection H as <-.
  constructor; [apply (pop_step_out _ _ _ _ _ _ _ _ _ E)|exact (IH _ _ E')].
Qed.

Lemma int_op_some x y : int_op x = Some y -> y = x.
Proof. unfold int_op. destruct (is_int x); intros H; [injection H as <-; reflexivity|discriminate]. Qed.

Lemma n_in_cell_count s density u n : 0 <= density -> 0 <= st_ppud s -> 0 <= u < 1 ->
  n_in_cell density (st_ppud s) (st_frac s) u = Some n -> count_ok s u density n /\ (0 <= n)%Z.
Proof.
  intros D P U H. assert (X : 0 <= density * st_ppud s) by (apply Rmult_le_pos; assumption).
  unfold n_in_cell in H. destruct (Req_EM_T density 0) as [E|E].
  - injection H as <-. split; [|lia]. unfold count_ok. repeat split; intros; contradiction.
  - destruct (st_frac s) eqn:F.
    + unfold to_int in H. apply int_op_some in H. rewrite Ztrunc_floor in H by lra.
      set (x := density * st_ppud s) in *. pose proof (Zfloor_lb x) as L. pose proof (Zfloor_ub x) as UB.
      assert (N : n = (Zfloor x + (if Rle_bool (1 - (x - IZR (Zfloor x))) u then 1 else 0))%Z).
      { rewrite H. destruct (Rle_bool_spec (1 - (x - IZR (Zfloor x))) u) as [G|G].
        - apply Zfloor_imp. rewrite !plus_IZR. lra.
        - apply Zfloor_imp. rewrite !plus_IZR. lra. }
      split.
      * unfold count_ok. repeat split; intros; try contradiction; try congruence. exact N.
      * rewrite N. assert (0 <= Zfloor x)%Z by (apply Zfloor_lub; exact X). destruct (Rle_bool _ _); lia.
    + destruct (to_int (density * st_ppud s + / 2)) as [m|] eqn:M; [|discriminate]. injection H as <-.
      unfold to_int in M. apply int_op_some in M. rewrite Ztrunc_floor in M by lra.
      set (x := density * st_ppud s) in *. pose proof (Zfloor_lb (x + / 2)) as L. pose proof (Zfloor_ub (x + / 2)) as UB.
      rewrite <- M in L, UB. split; [|lia].
      unfold count_ok. split; [intros; contradiction|]. split; [|intros; congruence]. intros _ _. split; [lia|]. fold x. split.
      * intros G. assert (1 <= m)%Z by (rewrite M; apply Zfloor_lub; lra). rewrite Z.max_r by lia. lra.
      * intros G. assert (m < 1)%Z by (apply lt_IZR; lra). lia.
Qed.

Lemma charge_of_app l l' : charge_of (l ++ l') = charge_of l + charge_of l'.
Proof. unfold charge_of. rewrite map_app. apply rsum_app. Qed.

Lemma charge_const {A} (f : A -> sprt) q l : (forall x, sp_qw (f x) = q) -> charge_of (map f l) = IZR (alen l) * q.
Proof.
  intros H. unfold charge_of. induction l as [|a l IH]; [rewrite alen_nil; cbn; ring|].
  cbn [map]. rewrite rsum_cons, IH, H. rewrite alen_cons, plus_IZR. ring.
Qed.

Lemma charge_made_all s g off c ps :
  charge_of (made_all s g off c ps) = rsum (map (fun p => IZR (Z.max 0 (po_n p)) * (get_weight s (po_density p) (po_n p) * q_of s (po_kind p))) ps).
Proof.
  induction ps as [|p ps IH]; [reflexivity|]. unfold made_all. cbn [flat_map map]. rewrite charge_of_app, rsum_cons. f_equal; [|exact IH].
  rewrite (charge_const _ (get_weight s (po_density p) (po_n p) * q_of s (po_kind p))) by reflexivity. f_equal. f_equal.
  unfold alen. rewrite zrange_length. lia.
Qed.

Lemma alen_made_all s g off c ps : alen (made_all s g off c ps) = zsum (map (fun p => Z.max 0 (po_n p)) ps).
Proof.
  induction ps as [|p ps IH]; [reflexivity|]. unfold made_all. cbn [flat_map map zsum]. rewrite alen_app. f_equal; [|exact IH].
  unfold alen. rewrite map_length, zrange_length. lia.
Qed.

Lemma of_kind_made s g off c k ps : of_kind k (made_all s g off c ps) = made_all s g off c (filter (fun p => (po_kind p =? k)%Z) ps).
Proof.
  unfold of_kind, made_all. rewrite filter_flat_map. induction ps as [|p ps IH]; [reflexivity|]. cbn [flat_map filter].
  rewrite (filter_all_none _ (po_kind p =? k)%Z) by (intros x Hx; apply in_map_iff in Hx; destruct Hx as [n [<- _]]; reflexivity).
  rewrite IH. destruct (po_kind p =? k)%Z; reflexivity.
Qed.

Lemma rsum_filter {A} (f : A -> bool) (h : A -> R) l : rsum (map h (filter f l)) = rsum (map (fun x => if f x then h x else 0) l).
Proof. induction l as [|a l IH]; [reflexivity|]. cbn [filter map]. rewrite rsum_cons. destruct (f a); cbn [map]; rewrite ?rsum_cons, IH; ring. Qed.

Lemma zsum_filter {A} (f : A -> bool) (h : A -> Z) l : zsum (map h (filter f l)) = zsum (map (fun x => if f x then h x else 0%Z) l).
Proof. induction l as [|a l IH]; [reflexivity|]. cbn. destruct (f a); cbn; rewrite IH; reflexivity. Qed.

(** a patch that is set up, cell by cell *)
Lemma setup_cells s init g u off prts : wf_geom g -> offsets_ok s off -> setup_patch s init g u off = Some prts ->
  exists ps, (forall c, is_cell g c -> cell_pops s init g u c = Some (ps c)) /\
             (forall c, is_cell g c -> prts_in g c prts = made_all s g off c (ps c)) /\
             prts = flat_map (fun c => made_all s g off c (ps c)) (cell_list (sg_ld g)).
Proof.
  intros W O H. destruct (op_cellwise s init g u) as [calls|] eqn:E; [|unfold setup_patch in H; rewrite E in H; discriminate].
  destruct (setup_patch_made _ _ _ _ off W O _ E) as [ps [P K]]. rewrite K in H. injection H as <-. exists ps. split; [exact P|].
  split; [|reflexivity]. intros c C. apply prts_in_made; assumption.
Qed.

Lemma not_neutral s pop : ~ (0 <= st_neutral s < st_npop s)%Z -> In pop (zrange 0 (st_npop s)) -> pop <> st_neutral s.
Proof. intros N H ->. apply in_zrange in H. contradiction. Qed.

Lemma Forall2_sum s init g c u k (h : pop_t -> R) (h' : Z -> R) pops ps :
  Forall2 (came_out s init (cell_pos (st_center s) g c) c u) pops ps ->
  (forall pop p, In pop pops -> came_out s init (cell_pos (st_center s) g c) c u pop p -> po_kind p = k -> h p = h' pop) ->
  rsum (map (fun p => if (po_kind p =? k)%Z then h p else 0) ps) =
  rsum (map (fun pop => if (snd (asked s init g c pop) =? k)%Z then h' pop else 0) pops).
Proof.
  intros F. induction F as [|pop p pops ps Hp F IH]; intros H; [reflexivity|]. cbn [map]. rewrite !rsum_cons. f_equal.
  - assert (K : snd (asked s init g c pop) = po_kind p) by (unfold asked; rewrite <- (proj1 Hp); reflexivity). rewrite K.
    destruct (Z.eqb_spec (po_kind p) k) as [E|E]; [|reflexivity]. apply H; [now left|exact Hp|exact E].
  - apply IH. intros pop' p' Hi. apply H. now right.
Qed.

Theorem density s init g u off prts : wf_geom g -> offsets_ok s off -> st_frac s = false -> ~ (0 <= st_neutral s < st_npop s)%Z ->
  setup_patch s init g u off = Some prts ->
  forall c k, is_cell g c -> charge_of (of_kind k (prts_in g c prts)) = q_of s k * st_ppud s * density_of s init g c k.
Proof.
  intros W O F N H c k C. destruct (setup_cells _ _ _ _ _ _ W O H) as [ps [P [K _]]]. rewrite (K c C), of_kind_made, charge_made_all, rsum_filter.
  unfold density_of. rewrite <- rsum_mul. pose proof (pops_loop_out _ _ _ _ _ _ _ _ (P c C)) as F2.
  rewrite (rsum_ext (fun x => q_of s k * st_ppud s * (if (snd (asked s init g c x) =? k)%Z then fst (asked s init g c x) else 0))
             (fun pop => if (snd (asked s init g c pop) =? k)%Z then q_of s k * st_ppud s * fst (asked s init g c pop) else 0))
    by (intros pop _; destruct (_ =? k)%Z; ring).
  apply (Forall2_sum _ _ _ _ _ _ _ _ _ _ F2). intros pop p Hpop [E1 E2] Hk.
  assert (A : fst (asked s init g c pop) = po_density p) by (unfold asked; rewrite <- E1; reflexivity). rewrite A, Hk.
  specialize (E2 (not_neutral _ _ N Hpop)). unfold n_in_cell in E2. unfold get_weight. rewrite F in *.
  destruct (Req_EM_T (po_density p) 0) as [Z0|Z0].
  - rewrite Z0. injection E2 as <-. unfold Rdiv. ring.
  - destruct (to_int _) as [m|]; [|discriminate]. injection E2 as <-. rewrite (Z.max_r 0) by lia. field.
    apply not_0_IZR. lia.
Qed.

Theorem counts s init g u off prts : wf_geom g -> offsets_ok s off -> ~ (0 <= st_neutral s < st_npop s)%Z -> 0 <= st_ppud s ->
  (forall c pop, is_cell g c -> (0 <= pop < st_npop s)%Z -> 0 <= fst (asked s init g c pop) /\ 0 <= u c pop < 1) ->
  setup_patch s init g u off = Some prts ->
  exists n, forall c, is_cell g c ->
    (forall pop, (0 <= pop < st_npop s)%Z -> count_ok s (u c pop) (fst (asked s init g c pop)) (n c pop)) /\
    (forall k, let l := of_kind k (prts_in g c prts) in
      alen l = zsum (map (fun pop => if (snd (asked s init g c pop) =? k)%Z then n c pop else 0%Z) (zrange 0 (st_npop s))) /\
      (st_frac s = true -> charge_of l = IZR (alen l) * q_of s k)).
Proof.
  intros W O N PP D H. destruct (setup_cells _ _ _ _ _ _ W O H) as [ps [P [K _]]].
  exists (fun c pop => match nth_error (ps c) (Z.to_nat pop) with Some p => po_n p | None => 0%Z end).
  intros c C. rewrite (K c C). pose proof (pops_loop_out _ _ _ _ _ _ _ _ (P c C)) as F2. clear H.
  assert (G : forall pop, (0 <= pop < st_npop s)%Z -> exists p, nth_error (ps c) (Z.to_nat pop) = Some p /\ came_out s init (cell_pos (st_center s) g c) c (u c) pop p).
  { assert (G0 : forall pops ps, Forall2 (came_out s init (cell_pos (st_center s) g c) c (u c)) pops ps -> forall i pop, nth_error pops i = Some pop ->
        exists p, nth_error ps i = Some p /\ came_out s init (cell_pos (st_center s) g c) c (u c) pop p).
    { intros pops qs F. induction F as [|a b pops qs Hab F IH]; intros [|i] pop Hi; try discriminate Hi.
      - injection Hi as <-. exists b. split; [reflexivity|exact Hab].
      - apply IH. exact Hi. }
    intros pop Hpop. apply (G0 _ _ F2). pose proof (aget_zrange' 0 (st_npop s) pop Hpop) as A. rewrite Z.sub_0_r in A. exact A. }
  assert (CO : forall pop p, (0 <= pop < st_npop s)%Z -> came_out s init (cell_pos (st_center s) g c) c (u c) pop p ->
     count_ok s (u c pop) (fst (asked s init g c pop)) (po_n p) /\ (0 <= po_n p)%Z /\ snd (asked s init g c pop) = po_kind p).
  { intros pop p Hpop [E1 E2]. destruct (D c pop C Hpop) as [D1 D2]. unfold asked in *. rewrite <- E1 in *. cbn [fst snd] in *.
    destruct (n_in_cell_count s (po_density p) (u c pop) (po_n p) D1 PP D2) as [Q1 Q2]; [|auto].
    apply E2. apply (not_neutral _ _ N). apply in_zrange. exact Hpop. }
  split.
  - intros pop Hpop. destruct (G pop Hpop) as [p [-> Hp]]. apply (CO pop p Hpop Hp).
  - intros k l. unfold l. rewrite of_kind_made. split.
    + rewrite alen_made_all, zsum_filter.
      assert (Q : map (fun p => if (po_kind p =? k)%Z then Z.max 0 (po_n p) else 0%Z) (ps c) =
                  map (fun pop => if (snd (asked s init g c pop) =? k)%Z then match nth_error (ps c) (Z.to_nat pop) with Some p => po_n p | None => 0%Z end else 0%Z) (zrange 0 (st_npop s))).
      { apply nth_error_ext'. intros i.
        rewrite !nth_error_map. destruct (nth_error (ps c) i) as [p|] eqn:E.
        - assert (Hi : (i < length (ps c))%nat) by (apply nth_error_Some; congruence).
          rewrite <- (Forall2_length _ _ _ F2), zrange_length in Hi.
          pose proof (aget_zrange' 0 (st_npop s) (Z.of_nat i) ltac:(lia)) as A. rewrite Z.sub_0_r, Nat2Z.id in A. rewrite A. cbn [option_map].
          rewrite Nat2Z.id, E. destruct (G (Z.of_nat i) ltac:(lia)) as [p' [E' Hp']]. rewrite Nat2Z.id, E in E'. injection E' as <-.
          destruct (CO (Z.of_nat i) p ltac:(lia) Hp') as [_ [C2 ->]]. rewrite Z.max_r by lia. reflexivity.
        - apply nth_error_None in E. rewrite <- (Forall2_length _ _ _ F2) in E. apply nth_error_None in E. rewrite E. reflexivity. }
      rewrite Q. reflexivity.
    + intros F. rewrite alen_made_all, charge_made_all. unfold get_weight. rewrite F. clear. induction (ps c) as [|p l IH]; [cbn; ring|].
      cbn [filter]. destruct (Z.eqb_spec (po_kind p) k) as [E|E]; [|exact IH]. cbn [map]. rewrite rsum_cons, IH. cbn [zsum].
      rewrite plus_IZR, E. ring.
Qed.

(** ** neutrality *)

Lemma zrange_last n : (0 < n)%Z -> zrange 0 n = zrange 0 (n - 1) ++ [n - 1]%Z.
Proof. intros H. replace n with ((n - 1) + 1)%Z at 1 by lia. apply zrange_snoc. lia. Qed.

Lemma to_int_IZR x y : to_int (IZR x) = Some y -> y = x.
Proof. unfold to_int. rewrite Ztrunc_IZR. apply int_op_some. Qed.

Lemma loop_neutral s init pos c u z zl : st_ppud s >= 0 -> integer_charges s z ->
  z (snd (init (st_neutral s) pos c (if (st_neutral s <? alen (st_q s))%Z then st_neutral s else 0%Z))) = zl ->
  forall pops, (forall pop, In pop pops -> pop <> st_neutral s /\
      let a := init pop pos c (if (pop <? alen (st_q s))%Z then pop else 0%Z) in
      0 <= fst a /\ 0 <= u pop < 1 /\ (zl | z (snd a))%Z /\ (zl * z (snd a) <= 0)%Z) ->
  forall n_q ps, (zl | n_q)%Z -> (zl * n_q <= 0)%Z -> pops_loop s init pos c u n_q (pops ++ [st_neutral s]) = Some ps ->
  IZR n_q + rsum (map (fun p => IZR (Z.max 0 (po_n p)) * q_of s (po_kind p)) ps) = 0.
Proof.
  intros PP I ZL. induction pops as [|pop pops IH]; intros HP n_q ps Dv Sg H; cbn [app pops_loop] in H.
  - destruct (pop_step s init pos c u n_q _) as [[p n_q']|] eqn:E; [|discriminate H]. cbn in H. injection H as <-. destruct (pop_step_out _ _ _ _ _ _ _ _ _ E) as [[O1 _] [_ N]]. destruct (N eq_refl) as [_ [NQ T]]. clear N.
    rewrite <- O1 in ZL. cbn [snd] in ZL. cbn [map]. rewrite rsum_cons. cbn [rsum fold_right].
    assert (Q : q_of s (po_kind p) = IZR zl).
    { rewrite <- ZL. unfold q_of in *. destruct (aget (st_q s) (po_kind p)) as [q|] eqn:A; [apply (I _ _ A)|contradiction]. }
    rewrite Q in *. assert (ZN : zl <> 0%Z) by (intros ->; apply NQ; reflexivity).
    destruct Dv as [m ->]. assert (M : (m <= 0)%Z) by nia.
    replace (IZR (- (m * zl)) / IZR zl) with (IZR (- m)) in T by (unfold Rdiv; rewrite !opp_IZR, mult_IZR, <- Ropp_mult_distr_l, Rmult_assoc, Rinv_r by exact NQ; ring).
    apply to_int_IZR in T. rewrite T, Z.max_r by lia. rewrite mult_IZR, opp_IZR. ring.
  - destruct (pop_step s init pos c u n_q _) as [[p n_q']|] eqn:E; [|discriminate H].
    destruct (pops_loop s init pos c u n_q' (pops ++ [st_neutral s])) as [ps'|] eqn:E'; [|discriminate]. injection H as <-.
    destruct (HP pop (or_introl eq_refl)) as [NE [D [U [D1 D2]]]].
    destruct (pop_step_out _ _ _ _ _ _ _ _ _ E) as [[O1 O2] [N _]]. specialize (N NE). specialize (O2 NE). rewrite <- O1 in D, D1, D2. cbn [fst snd] in *.
    destruct (n_in_cell_count s _ _ _ D (Rge_le _ _ PP) U O2) as [_ N0].
    assert (Q : q_of s (po_kind p) = IZR (z (po_kind p))).
    { pose proof (pops_kinds s init pos c u [pop] n_q [p]) as K. cbn [pops_loop] in K. rewrite E in K. destruct (K eq_refl p (or_introl eq_refl)) as [q A].
      unfold q_of. rewrite A. apply (I _ _ A). }
    rewrite Q in N. rewrite <- mult_IZR, <- plus_IZR in N. apply to_int_IZR in N.
    cbn [map]. rewrite rsum_cons, Q, Z.max_r by exact N0.
    assert (IHr : IZR n_q' + rsum (map (fun p => IZR (Z.max 0 (po_n p)) * q_of s (po_kind p)) ps') = 0).
    { apply (IH (fun pop' Hp => HP pop' (or_intror Hp)) n_q'); [| |exact E'].
      - rewrite N. apply Z.divide_add_r; [exact Dv|]. apply Z.divide_mul_l. exact D1.
      - rewrite N. nia. }
    rewrite N, plus_IZR, mult_IZR in IHr. lra.
Qed.

(** the populations have charges that the last one's divides, and of the opposite sign *)
Theorem neutral s init g u off prts z : wf_geom g -> offsets_ok s off -> 0 <= st_ppud s -> integer_charges s z ->
  (0 <= st_neutral s)%Z -> st_neutral s = (st_npop s - 1)%Z ->
  setup_patch s init g u off = Some prts ->
  forall c, is_cell g c -> let zl := z (snd (asked s init g c (st_neutral s))) in
  (forall pop, (0 <= pop < st_neutral s)%Z -> 0 <= fst (asked s init g c pop) /\ 0 <= u c pop < 1 /\
      (zl | z (snd (asked s init g c pop)))%Z /\ (zl * z (snd (asked s init g c pop)) <= 0)%Z) ->
  rsum (map (fun p => q_of s (sp_kind p)) (prts_in g c prts)) = 0 /\
  (st_frac s = true -> charge_of (prts_in g c prts) = 0).
Proof.
  intros W O PP I N0 NL H c C zl HP. destruct (setup_cells _ _ _ _ _ _ W O H) as [ps [P [K _]]]. rewrite (K c C).
  pose proof (P c C) as L. unfold cell_pops in L. rewrite zrange_last in L by lia. rewrite <- NL in L.
  assert (S : rsum (map (fun p => IZR (Z.max 0 (po_n p)) * q_of s (po_kind p)) (ps c)) = 0).
  { pose proof (loop_neutral s init (cell_pos (st_center s) g c) c (u c) z zl (Rle_ge _ _ PP) I eq_refl (zrange 0 (st_neutral s))) as M.
    rewrite <- (Rplus_0_l (rsum _)). apply M; [| | |exact L].
    - intros pop Hp. apply in_zrange in Hp. split; [lia|exact (HP pop Hp)].
    - apply Z.divide_0_r.
    - lia. }
  assert (S' : rsum (map (fun p => q_of s (sp_kind p)) (made_all s g off c (ps c))) = 0).
  { rewrite <- S. clear. induction (ps c) as [|p l IH]; [reflexivity|]. unfold made_all. cbn [flat_map map]. rewrite map_app, rsum_app, rsum_cons. f_equal; [|exact IH].
    rewrite map_map. cbn [made sp_kind]. replace (Z.max 0 (po_n p)) with (alen (zrange 0 (po_n p))) by (unfold alen; rewrite zrange_length; lia).
    induction (zrange 0 (po_n p)) as [|a r IHr]; [rewrite alen_nil; cbn; ring|]. cbn [map]. rewrite rsum_cons, IHr, alen_cons, plus_IZR. ring. }
  split; [exact S'|]. intros F. rewrite charge_made_all, <- S. apply rsum_ext. intros p _. unfold get_weight. rewrite F. ring.
Qed.

(** ** all particles are where they belong *)
Theorem placed s init g u off prts : wf_geom g -> offsets_ok s off -> setup_patch s init g u off = Some prts ->
  forall p, In p prts -> (exists q, aget (st_q s) (sp_kind p) = Some q) /\
    (forall d, 0 <= get3 (sp_x p) d < get3 (sg_xe g) d - get3 (sg_xb g) d) /\ exists c, is_cell g c /\ In p (prts_in g c prts).
Proof.
  intros W O H p Hp. destruct (setup_cells _ _ _ _ _ _ W O H) as [ps [P [K E]]].
  pose proof Hp as Hp'. rewrite E in Hp. apply in_flat_map in Hp. destruct Hp as [c [Hc Hm]]. apply in_cell_list in Hc.
  split; [|split].
  - unfold made_all in Hm. apply in_flat_map in Hm. destruct Hm as [x [Hx Hm]]. apply in_map_iff in Hm. destruct Hm as [n [<- _]].
    cbn [made sp_kind]. exact (pops_kinds _ _ _ _ _ _ _ _ (P c Hc) x Hx).
  - unfold made_all in Hm. apply in_flat_map in Hm. destruct Hm as [x [Hx Hm]]. apply in_map_iff in Hm. destruct Hm as [n [<- _]].
    intros d. cbn [made sp_x]. rewrite get3_gen3. destruct (W d) as [DX [LD ->]]. specialize (Hc d).
    pose proof (frac_pos_range s g (off c (po_kind x) n) d (O c (po_kind x) n d)) as FR.
    pose proof (IZR_le 0 (get3 c d) ltac:(lia)) as L. assert (U : IZR (get3 c d) + 1 <= IZR (get3 (sg_ld g) d)) by (rewrite <- (plus_IZR _ 1); apply IZR_le; lia).
    split; [apply Rmult_le_pos; lra|]. replace (get3 (sg_xb g) d + IZR (get3 (sg_ld g) d) * get3 (sg_dx g) d - get3 (sg_xb g) d) with (IZR (get3 (sg_ld g) d) * get3 (sg_dx g) d) by ring.
    apply Rmult_lt_compat_r; lra.
  - exists c. split; [exact Hc|]. rewrite (K c Hc). exact Hm.
Qed.

(** ** nothing fails if the numbers are not too large *)

Lemma Ztrunc_le x : IZR (Z.abs (Ztrunc x)) <= Rabs x.
Proof. rewrite <- Ztrunc_abs, Ztrunc_floor by apply Rabs_pos. apply Zfloor_lb. Qed.

Lemma to_int_ok x : Rabs x < 2 ^ 31 -> to_int x = Some (Ztrunc x).
Proof.
  intros H. pose proof (Ztrunc_le x) as T. unfold to_int, int_op, is_int.
  assert (B : (Z.abs (Ztrunc x) < 2 ^ 31)%Z) by (apply lt_IZR; replace (IZR (2 ^ 31)) with (2 ^ 31) by (cbn; lra); lra).
  destruct (Z.leb_spec (- 2 ^ 31) (Ztrunc x)); [|lia]. destruct (Z.ltb_spec (Ztrunc x) (2 ^ 31)); [reflexivity|lia].
Qed.

Lemma pops_some s init pos c u : 0 <= st_ppud s -> forall pops n_q,
  (forall pop, In pop pops -> let a := init pop pos c (if (pop <? alen (st_q s))%Z then pop else 0%Z) in
     0 <= fst a /\ 0 <= u pop < 1 /\ (exists q, aget (st_q s) (snd a) = Some q) /\
     (pop = st_neutral s -> st_neutral s = (st_npop s - 1)%Z /\ 1 <= Rabs (q_of s (snd a)))) ->
  IZR (Z.abs n_q) + rsum (map (fun pop => bound s (init pop pos c (if (pop <? alen (st_q s))%Z then pop else 0%Z))) pops) < 2 ^ 31 ->
  exists ps, pops_loop s init pos c u n_q pops = Some ps.
Proof.
  intros PP. induction pops as [|pop pops IH]; intros n_q HP B; [exists []; reflexivity|].
  cbn [map] in B. rewrite rsum_cons in B. destruct (HP pop (or_introl eq_refl)) as [D [U [[q Q] N]]].
  assert (B0 : 0 <= rsum (map (fun pop => bound s (init pop pos c (if (pop <? alen (st_q s))%Z then pop else 0%Z))) pops)).
  { apply rsum_nonneg. intros y Hy. destruct (HP y (or_intror Hy)) as [Dy _]. unfold bound. apply Rmult_le_pos; [pose proof (Rabs_pos (q_of s (snd (init y pos c (if (y <? alen (st_q s))%Z then y else 0%Z))))); lra|].
    assert (0 <= fst (init y pos c (if (y <? alen (st_q s))%Z then y else 0%Z)) * st_ppud s) by (apply Rmult_le_pos; assumption). lra. }
  cbn [pops_loop]. unfold pop_step, bound, q_of in *. destruct (init pop pos c _) as [density kind]. cbn [fst snd] in *. rewrite Q in *.
  assert (X : 0 <= density * st_ppud s) by (apply Rmult_le_pos; assumption). pose proof (Rabs_pos q) as AQ.
  assert (AN : 0 <= IZR (Z.abs n_q)) by (apply (IZR_le 0); lia).
  destruct (Z.eqb_spec pop (st_neutral s)) as [EN|EN]; cbn [negb].
  - destruct (N EN) as [E1 Q1]. rewrite <- E1, Z.eqb_refl. cbn [negb].
    destruct (Req_EM_T q 0) as [Z0|Z0]; [rewrite Z0, Rabs_R0 in Q1; lra|].
    assert (T : Rabs (IZR (- n_q) / q) <= IZR (Z.abs n_q)).
    { unfold Rdiv. rewrite Rabs_mult, Rabs_inv, <- abs_IZR, Z.abs_opp. 
      apply (Rmult_le_reg_r (Rabs q)); [lra|]. rewrite Rmult_assoc, Rinv_l by lra. rewrite Rmult_1_r. nra. }
    assert (BB : 0 <= (1 + Rabs q) * (density * st_ppud s + 1)) by (apply Rmult_le_pos; lra).
    rewrite to_int_ok by lra. cbn [option_map].
    destruct (IH n_q) as [ps ->]; [intros y Hy; apply HP; now right|lra|eexists; reflexivity].
  - assert (NN : exists n, n_in_cell density (st_ppud s) (st_frac s) (u pop) = Some n /\ (0 <= n)%Z /\ IZR n <= density * st_ppud s + 1).
    { unfold n_in_cell. destruct (Req_EM_T density 0) as [Z0|Z0]; [exists 0%Z; repeat split; [lia|lra]|].
      assert (BB : density * st_ppud s + 1 <= (1 + Rabs q) * (density * st_ppud s + 1)) by nra.
      destruct (st_frac s).
      - rewrite to_int_ok by (rewrite Rabs_pos_eq by lra; lra). exists (Ztrunc (density * st_ppud s + u pop)). split; [reflexivity|].
        rewrite Ztrunc_floor by lra. split; [apply Zfloor_lub; lra|]. pose proof (Zfloor_lb (density * st_ppud s + u pop)). lra.
      - rewrite to_int_ok by (rewrite Rabs_pos_eq by lra; lra). cbn [option_map]. eexists. split; [reflexivity|].
        rewrite Ztrunc_floor by lra. split; [lia|]. destruct (Z.max_spec 1 (Zfloor (density * st_ppud s + / 2))) as [[_ ->]|[_ ->]]; [|lra].
        pose proof (Zfloor_lb (density * st_ppud s + / 2)). lra. }
    destruct NN as [n [-> [N0 N1]]]. pose proof (IZR_le 0 n N0) as N2.
    assert (T : Rabs (IZR n_q + q * IZR n) <= IZR (Z.abs n_q) + Rabs q * (density * st_ppud s + 1)).
    { eapply Rle_trans; [apply Rabs_triang|]. rewrite <- abs_IZR, Rabs_mult, (Rabs_pos_eq (IZR n)) by exact N2. nra. }
    rewrite to_int_ok by nra. cbn [option_map].
    destruct (IH (Ztrunc (IZR n_q + q * IZR n))) as [ps ->]; [intros y Hy; apply HP; now right| |eexists; reflexivity].
    pose proof (Ztrunc_le (IZR n_q + q * IZR n)). nra.
Qed.

Theorem succeeds s init g u off : wf_geom g -> offsets_ok s off -> 0 <= st_ppud s ->
  (forall c pop, is_cell g c -> (0 <= pop < st_npop s)%Z ->
     0 <= fst (asked s init g c pop) /\ 0 <= u c pop < 1 /\ (exists q, aget (st_q s) (snd (asked s init g c pop)) = Some q) /\
     (pop = st_neutral s -> st_neutral s = (st_npop s - 1)%Z /\ 1 <= Rabs (q_of s (snd (asked s init g c pop))))) ->
  (forall c, is_cell g c -> rsum (map (fun pop => bound s (asked s init g c pop)) (zrange 0 (st_npop s))) < 2 ^ 31) ->
  exists prts, setup_patch s init g u off = Some prts.
Proof.
  intros W O PP HP B.
  assert (Pc : forall c, is_cell g c -> exists ps, cell_pops s init g u c = Some ps).
  { intros c C. apply (pops_some _ _ _ _ _ PP).
    - intros pop Hpop. apply (HP c pop C). apply in_zrange. exact Hpop.
    - cbn [Z.abs]. rewrite Rplus_0_l. exact (B c C). }
  assert (OC : exists calls, op_cellwise s init g u = Some calls).
  { unfold op_cellwise. rewrite cells_ok by (intros d; apply W).
    rewrite (all_some_fun _ (fun l => map (pair (idx3 l)) (match cell_pops s init g u (idx3 l) with Some ps => ps | None => [] end))).
    - eexists. reflexivity.
    - intros l Hl. destruct (Pc (idx3 l)) as [ps ->]; [|reflexivity]. apply in_cell_list. unfold cell_list. apply in_map. exact Hl. }
  destruct OC as [calls OC]. destruct (setup_patch_made _ _ _ _ _ W O _ OC) as [ps [_ E]]. eexists. exact E.
Qed.

(** ** the estimate *)

Lemma uint_fold (calls : list (V3 Z * pop_t)) : forall n, fold_left (fun n c => uint (n + po_n (snd c))) calls (uint n) = uint (n + zsum (map (fun c => po_n (snd c)) calls)).
Proof.
  induction calls as [|c calls IH]; intros n; cbn [fold_left map zsum]; [f_equal; lia|].
  replace (uint (uint n + po_n (snd c))) with (uint (n + po_n (snd c))) by (unfold uint; rewrite Zplus_mod_idemp_l; reflexivity).
  rewrite IH. f_equal. lia.
Qed.

Lemma pop_step_u s init pos c u u' n_q pop : st_frac s = false -> pop_step s init pos c u n_q pop = pop_step s init pos c u' n_q pop.
Proof. intros F. unfold pop_step, n_in_cell. rewrite F. reflexivity. Qed.

Lemma cell_pops_u s init g u u' c : st_frac s = false -> cell_pops s init g u c = cell_pops s init g u' c.
Proof.
  intros F. unfold cell_pops. generalize 0%Z at 1 3. induction (zrange 0 (st_npop s)) as [|pop pops IH]; intros n; [reflexivity|].
  cbn [pops_loop]. rewrite (pop_step_u s init _ c (u c) (u' c) n pop F). destruct (pop_step _ _ _ _ _ _ _) as [[x m]|]; [rewrite IH; reflexivity|reflexivity].
Qed.

Lemma op_cellwise_u s init g u u' : st_frac s = false -> op_cellwise s init g u = op_cellwise s init g u'.
Proof.
  intros F. unfold op_cellwise. destruct (cells_of _) as [l|]; [|reflexivity]. f_equal. f_equal. apply map_ext. intros c.
  rewrite (cell_pops_u s init g u u' _ F). reflexivity.
Qed.

Lemma sum_calls (h : pop_t -> Z) (ps : V3 Z -> list pop_t) l :
  zsum (map (fun c => h (snd c)) (flat_map (fun c => map (pair c) (ps c)) l)) = zsum (map (fun c => zsum (map h (ps c))) l).
Proof.
  induction l as [|c l IH]; [reflexivity|]. cbn [flat_map map zsum]. rewrite map_app, zsum_app, IH. f_equal. rewrite map_map. reflexivity.
Qed.

Lemma Ztrunc_sign x : (0 <= x -> (0 <= Ztrunc x)%Z) /\ (x <= 0 -> (Ztrunc x <= 0)%Z).
Proof.
  split; intros H.
  - rewrite Ztrunc_floor by exact H. apply Zfloor_lub. exact H.
  - rewrite Ztrunc_ceil by exact H. apply Zceil_glb. exact H.
Qed.

(** no population comes out negative *)
Lemma loop_nonneg s init pos c u (ql : R) : 0 <= st_ppud s ->
  forall pops, (forall pop, In pop pops -> let a := init pop pos c (if (pop <? alen (st_q s))%Z then pop else 0%Z) in
      (pop <> st_neutral s -> 0 <= fst a /\ 0 <= u pop < 1 /\ ql * q_of s (snd a) <= 0) /\
      (pop = st_neutral s -> ql = q_of s (snd a))) ->
  forall n_q ps, ql * IZR n_q <= 0 -> pops_loop s init pos c u n_q pops = Some ps -> Forall (fun p => 0 <= po_n p)%Z ps.
Proof.
  intros PP. induction pops as [|pop pops IH]; intros HP n_q ps Sg H; cbn [pops_loop] in H; [injection H as <-; constructor|].
  destruct (pop_step s init pos c u n_q _) as [[p n_q']|] eqn:E; [|discriminate].
  destruct (pops_loop s init pos c u n_q' pops) as [ps'|] eqn:E'; [|discriminate]. injection H as <-.
  destruct (pop_step_out _ _ _ _ _ _ _ _ _ E) as [[O1 O2] [N1 N2]]. destruct (HP pop (or_introl eq_refl)) as [A1 A2]. rewrite <- O1 in A1, A2. cbn [fst snd] in *.
  destruct (Z.eq_dec pop (st_neutral s)) as [EN|EN].
  - destruct (N2 EN) as [_ [NQ T]]. specialize (A2 EN). subst ql. constructor.
    + unfold to_int in T. apply int_op_some in T. rewrite T. apply Ztrunc_sign. rewrite opp_IZR.
      replace (- IZR n_q / q_of s (po_kind p)) with (- (q_of s (po_kind p) * IZR n_q) * (/ (q_of s (po_kind p) * q_of s (po_kind p)))) by (field; exact NQ).
      apply Rmult_le_pos; [lra|]. left. apply Rinv_0_lt_compat. apply Rsqr_pos_lt in NQ. exact NQ.
    + apply (IH (fun pop' Hp => HP pop' (or_intror Hp)) n_q'); [|exact E'].
      unfold pop_step in E. rewrite <- O1 in E. rewrite EN, Z.eqb_refl in E. cbn [negb] in E. destruct (negb _); [discriminate|].
      destruct (aget _ _); [|discriminate]. destruct (Req_EM_T _ _); [discriminate|]. destruct (to_int _); [|discriminate]. injection E as _ <-. exact Sg.
  - destruct (A1 EN) as [D [U S]]. destruct (n_in_cell_count s _ _ _ D PP U (O2 EN)) as [_ N0]. constructor; [exact N0|].
    apply (IH (fun pop' Hp => HP pop' (or_intror Hp)) n_q'); [|exact E'].
    specialize (N1 EN). unfold to_int in N1. apply int_op_some in N1. rewrite N1. pose proof (IZR_le 0 _ N0) as N0'.
    set (x := IZR n_q + q_of s (po_kind p) * IZR (po_n p)) in *.
    assert (QX : ql * x <= 0) by (unfold x; rewrite Rmult_plus_distr_l; pose proof (Rmult_le_compat_r _ _ _ N0' S) as M; rewrite Rmult_0_l, Rmult_assoc in M; lra).
    destruct (Rle_or_lt ql 0) as [Q0|Q0]; [destruct (Rle_or_lt 0 x) as [X0|X0]|].
    + pose proof (IZR_le _ _ (proj1 (Ztrunc_sign x) X0)). nra.
    + assert (ql = 0) by nra. rewrite H, Rmult_0_l. lra.
    + assert (X0 : x <= 0) by (apply Rnot_lt_le; intros X1; nra). pose proof (IZR_le _ _ (proj2 (Ztrunc_sign x) X0)). nra.
Qed.

Theorem estimate s init g u u' off prts : wf_geom g -> offsets_ok s off -> 0 <= st_ppud s -> st_frac s = false ->
  (forall c, is_cell g c -> exists ql, forall pop, (0 <= pop < st_npop s)%Z ->
      (pop <> st_neutral s -> 0 <= fst (asked s init g c pop) /\ ql * q_of s (snd (asked s init g c pop)) <= 0) /\
      (pop = st_neutral s -> ql = q_of s (snd (asked s init g c pop)))) ->
  setup_patch s init g u off = Some prts -> (alen prts < 2 ^ 32)%Z ->
  partition_patch s init g u' = Some (alen prts).
Proof.
  intros W O PP F HP H L. unfold partition_patch. rewrite (op_cellwise_u s init g u' u F).
  destruct (op_cellwise s init g u) as [calls|] eqn:E; [|unfold setup_patch in H; rewrite E in H; discriminate].
  destruct (op_cellwise_calls _ _ _ _ _ W E) as [ps [P Ec]]. destruct (setup_patch_made _ _ _ _ _ W O _ E) as [ps' [P' K]].
  cbn [option_map]. f_equal. change 0%Z with (uint 0) at 1. rewrite uint_fold, Ec, sum_calls, Z.add_0_l.
  rewrite K in H. injection H as <-.
  assert (S : alen (flat_map (fun c => made_all s g off c (ps' c)) (cell_list (sg_ld g))) = zsum (map (fun c => zsum (map po_n (ps c))) (cell_list (sg_ld g)))).
  { assert (G : forall l, (forall c, In c l -> is_cell g c) -> alen (flat_map (fun c => made_all s g off c (ps' c)) l) = zsum (map (fun c => zsum (map po_n (ps c))) l)).
    { induction l as [|c l IH]; intros Hl; [reflexivity|]. cbn [flat_map map zsum]. rewrite alen_app, alen_made_all, IH by (intros y Hy; apply Hl; now right).
      f_equal. pose proof (Hl c (or_introl eq_refl)) as C. pose proof (P c C) as Q. rewrite (P' c C) in Q. injection Q as ->.
      destruct (HP c C) as [ql HQ]. f_equal. apply map_ext_in. intros p Hp.
      assert (NN : Forall (fun p => 0 <= po_n p)%Z (ps c)).
      { apply (loop_nonneg s init (cell_pos (st_center s) g c) c (fun _ => 0) ql PP (zrange 0 (st_npop s))) with (n_q := 0%Z).
        - intros pop Hpop. apply in_zrange in Hpop. destruct (HQ pop Hpop) as [Q1 Q2]. cbv zeta. split; [|exact Q2]. intros NE. destruct (Q1 NE) as [Q3 Q4].
          split; [exact Q3|]. split; [lra|exact Q4].
        - lra.
        - rewrite <- (P c C). exact (cell_pops_u s init g (fun _ _ => 0) u c F). }
      rewrite Forall_forall in NN. specialize (NN p Hp). lia. }
    apply G. intros c Hc. apply in_cell_list. exact Hc. }
  rewrite <- S in *. unfold uint. apply Z.mod_small. split; [apply alen_nonneg|exact L].
Qed.
