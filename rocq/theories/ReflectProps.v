(** C48: folding of moments at reflecting walls. *)
From Coq Require Import Reals Lra.
From Verif Require Import Base RSum FieldModel GhostModel GhostSpec DepositModel DepositSpec DepositProofs ReflectModel ReflectSpec ReflectProofs.
Local Open Scope R_scope.

(** the centering of the model, by what the points are *)
Definition centered (nodes : bool) : centering := if nodes then NC else CC.
(** the sides of the patch where there is a reflecting wall *)
Definition walls_lo (off : V3 Z) (refl_lo : V3 bool) (d : dim3) : bool := (get3 off d =? 0)%Z && get3 refl_lo d.
Definition walls_hi (off ldims gdims : V3 Z) (refl_hi : V3 bool) (d : dim3) : bool := (get3 off d + get3 ldims d =? get3 gdims d)%Z && get3 refl_hi d.
Definition ghost_width (ib : V3 Z) : V3 Z := gen3 (fun d => - get3 ib d)%Z.
(** by position instead of by storage index *)
Definition content (ib : V3 Z) (u : moments) (m : Z) (x : V3 Z) : R := u m (gen3 (fun d => get3 x d - get3 ib d)%Z).

(** no access outside of the storage; each point that is not beyond a wall ends up with what was at the points whose mirror
    image it is; the components that are not asked for are unchanged *)
Theorem C48_fold : forall nodes off ldims gdims refl_lo refl_hi ib mb me u,
  let lo := walls_lo off refl_lo in let hi := walls_hi off ldims gdims refl_hi in let g := ghost_width ib in
  thick nodes lo hi ldims g ->
  exists u', maybe_add_ghosts_boundary off ldims gdims refl_lo refl_hi ib mb me (centered nodes) u = Some u' /\
    (forall m x, (mb <= m < me)%Z -> In x (with_ghosts nodes ldims g) -> kept nodes lo hi ldims x = true ->
       content ib u' m x = collected nodes lo hi ldims g (content ib u m) x) /\
    (forall m x, ~ (mb <= m < me)%Z -> content ib u' m x = content ib u m x).
Proof.
  intros nodes off ldims gdims refl_lo refl_hi ib mb me u lo hi g H.
  exact (all_sides nodes ldims ib lo hi mb me H u off gdims refl_lo refl_hi (fun d => eq_refl) (fun d => eq_refl)).
Qed.
Print Assumptions C48_fold.

(** nothing is lost and nothing is counted twice *)
Theorem C48_total : forall nodes off ldims gdims refl_lo refl_hi ib mb me u u' m,
  let lo := walls_lo off refl_lo in let hi := walls_hi off ldims gdims refl_hi in let g := ghost_width ib in
  thick nodes lo hi ldims g -> (mb <= m < me)%Z ->
  maybe_add_ghosts_boundary off ldims gdims refl_lo refl_hi ib mb me (centered nodes) u = Some u' ->
  rsum (map (content ib u' m) (filter (kept nodes lo hi ldims) (with_ghosts nodes ldims g))) = rsum (map (content ib u m) (with_ghosts nodes ldims g)).
Proof.
  intros nodes off ldims gdims refl_lo refl_hi ib mb me u u' m lo hi g H Hm E.
  destruct (C48_fold nodes off ldims gdims refl_lo refl_hi ib mb me u H) as [v [E' [A _]]]. rewrite E in E'. injection E' as <-.
  apply (all_sides_sum nodes ldims ib lo hi H u' (content ib u m) m). intros x Hx HK. apply A; assumption.
Qed.
Print Assumptions C48_total.

(** ** With the deposition: the moments of the particles of a patch *)
Definition on_nodes (s : dep_scheme) : bool := match s with dep_1st_cc => false | _ => true end.

Lemma rsum_flat {A} (f : A -> list R) l : rsum (flat_map f l) = rsum (map (fun a => rsum (f a)) l).
Proof. induction l as [|a l IH]; [reflexivity|]. cbn [flat_map map]. rewrite rsum_app, rsum_cons, IH. reflexivity. Qed.
Lemma map_flat {A B C} (h : B -> C) (f : A -> list B) l : map h (flat_map f l) = flat_map (fun a => map h (f a)) l.
Proof. induction l as [|a l IH]; [reflexivity|]. cbn [flat_map]. rewrite map_app, IH. reflexivity. Qed.
Lemma rsum_box lo hi u : rsum (map u (box lo hi)) = sum_nodes lo hi u.
Proof.
  rewrite sum_nodes_rsum. unfold box. rewrite map_flat, rsum_flat. apply rsum_ext. intros k _. rewrite map_flat, rsum_flat. apply rsum_ext. intros j _.
  rewrite map_map. reflexivity.
Qed.

Lemma covers3_mono s inv x lo hi lo' hi' : (forall d, get3 lo' d <= get3 lo d /\ get3 hi d <= get3 hi' d)%Z -> covers3 s inv x lo hi -> covers3 s inv x lo' hi'.
Proof.
  intros H C d. specialize (C d). specialize (H d). destruct (get3 inv d); [lia|]. destruct s; cbn [covers] in *; lia.
Qed.

Lemma deposited_total s d ld dx fnqs ib prts f' : wf_ib d ib -> (forall e, get3 (invar_of d) e = true -> get3 ld e = 1%Z) ->
  (forall e, get3 (invar_of d) e = false -> ghosts_hi s <= - get3 ib e)%Z ->
  (forall p, In p prts -> inside d ld dx (fst p)) ->
  dep_particles s d dx fnqs ib prts (fun _ => 0) = Some f' ->
  rsum (map (content ib (fun _ => f') 0) (with_ghosts (on_nodes s) ld (ghost_width ib))) = fnqs * rsum (map snd prts).
Proof.
  intros Hib Hld Hg Hin E. unfold with_ghosts. rewrite rsum_box.
  set (lo := gen3 (fun e => (- get3 (ghost_width ib) e + (if on_nodes s && negb (get3 (ghost_width ib) e =? 0) then 1 else 0))%Z)).
  set (hi := gen3 (fun e => (get3 ld e + get3 (ghost_width ib) e)%Z)).
  assert (NI : forall n, node ib (gen3 (fun e => get3 n e - get3 ib e)%Z) = n).
  { intros n. apply v3_ext. intros e. unfold node. rewrite !get3_gen3. lia. }
  rewrite (sum_nodes_ext _ _ _ (fun n => rsum (map (fun p => fnqs * snd p * share (shape_of s) (invar_of d) (place s dx (fst p)) n) prts))).
  2:{ intros n. unfold content. rewrite (dep_particles_share s d dx fnqs ib _ Hib prts _ _ E). rewrite NI. ring. }
  assert (HC : forall p, In p prts -> covers3 s (invar_of d) (place s dx (fst p)) lo hi).
  { intros p Hp. apply (covers3_mono _ _ _ (gen3 (fun e => if get3 (invar_of d) e then 0 else - ghosts_lo s)%Z) (gen3 (fun e => if get3 (invar_of d) e then 1 else get3 ld e + ghosts_hi s)%Z)).
    - intros e. unfold lo, hi, ghost_width. rewrite !get3_gen3. specialize (Hg e). specialize (Hib e). specialize (Hld e). destruct (get3 (invar_of d) e).
      + rewrite (Hib eq_refl), (Hld eq_refl). destruct s; cbn; lia.
      + specialize (Hg eq_refl). destruct s; cbn [on_nodes ghosts_hi ghosts_lo andb] in *; destruct (Z.eqb_spec (- get3 ib e) 0); cbn [negb]; lia.
    - apply inside_covers, Hin, Hp. }
  clear E NI Hin. induction prts as [|p prts IH].
  - cbn. rewrite (sum_nodes_ext _ _ _ (fun _ => 0 * 0)) by (intros; ring). rewrite sum_nodes_mul. ring.
  - rewrite (sum_nodes_ext _ _ _ (fun n => fnqs * snd p * share (shape_of s) (invar_of d) (place s dx (fst p)) n +
      rsum (map (fun q => fnqs * snd q * share (shape_of s) (invar_of d) (place s dx (fst q)) n) prts))) by (intros n; reflexivity).
    rewrite sum_nodes_plus, IH by (intros q Hq; apply HC; right; exact Hq). cbn [map]. rewrite rsum_cons.
    rewrite sum_nodes_mul, share_sum by (apply HC; left; reflexivity). ring.
Qed.

(** deposition and folding together do not fail, and the points not beyond a wall have the whole moment *)
Theorem C48_moments : forall s d ld dx fnqs ib prts off gdims refl_lo refl_hi,
  let nodes := on_nodes s in let lo := walls_lo off refl_lo in let hi := walls_hi off ld gdims refl_hi in let g := ghost_width ib in
  dep_dim d -> wf_ib d ib -> (forall e, get3 (invar_of d) e = true -> get3 ld e = 1%Z) ->
  (forall e, get3 (invar_of d) e = false -> ghosts_hi s <= get3 g e)%Z -> thick nodes lo hi ld g ->
  (forall p, In p prts -> inside d ld dx (fst p)) ->
  exists f u', dep_particles s d dx fnqs ib prts (fun _ => 0) = Some f /\
    maybe_add_ghosts_boundary off ld gdims refl_lo refl_hi ib 0 1 (centered nodes) (fun _ => f) = Some u' /\
    rsum (map (content ib u' 0) (filter (kept nodes lo hi ld) (with_ghosts nodes ld g))) = fnqs * rsum (map snd prts).
Proof.
  intros s d ld dx fnqs ib prts off gdims refl_lo refl_hi nodes lo hi g Hd Hib Hld Hg HT Hin.
  destruct (dep_particles_total s d dx fnqs ib Hd prts (fun _ => 0)) as [f E].
  destruct (C48_fold nodes off ld gdims refl_lo refl_hi ib 0 1 (fun _ => f) HT) as [u' [E' _]].
  exists f, u'. split; [exact E|]. split; [exact E'|].
  eapply eq_trans; [exact (C48_total nodes off ld gdims refl_lo refl_hi ib 0 1 (fun _ => f) u' 0 HT ltac:(lia) E')|].
  apply (deposited_total s d ld dx fnqs ib prts f Hib Hld); [|exact Hin|exact E].
  intros e He. specialize (Hg e He). unfold g, ghost_width in Hg. rewrite get3_gen3 in Hg. exact Hg.
Qed.
Print Assumptions C48_moments.

(** ** Ghost layers wider than the patch: what lies beyond the second mirror image stays outside *)
Definition thin_u : moments := fun _ i => if v3_eqb i (v3 4 0 0)%Z then 1 else 0.

Theorem C48_thin_refuted : exists off ldims gdims refl_lo refl_hi ib u u',
  let lo := walls_lo off refl_lo in let hi := walls_hi off ldims gdims refl_hi in
  (forall d, 0 < get3 ldims d /\ 0 <= get3 (ghost_width ib) d)%Z /\
  maybe_add_ghosts_boundary off ldims gdims refl_lo refl_hi ib 0 1 CC u = Some u' /\
  rsum (map (content ib u' 0) (filter (kept false lo hi ldims) (with_ghosts false ldims (ghost_width ib)))) = 0 /\
  rsum (map (content ib u 0) (with_ghosts false ldims (ghost_width ib))) = 1.
Proof.
  exists (v3 0 0 0)%Z, (v3 1 1 1)%Z, (v3 1 1 1)%Z, (v3 true false false), (v3 true false false), (v3 (-2) 0 0)%Z, thin_u. eexists.
  split; [intros d; destruct d; cbn; lia|]. split; [reflexivity|]. split; vm_compute; lra.
Qed.
Print Assumptions C48_thin_refuted.

(** ** Examples *)
(** a patch of 4 x 3 x 2 cells with walls below in x, on both sides in z and none in y *)
Definition ex_ld : V3 Z := (v3 4 3 2)%Z.
Definition ex_ib : V3 Z := (v3 (-2) (-2) (-2))%Z.
Example ex_C48 : forall nodes, thick nodes (walls_lo (v3 0 3 0)%Z (v3 true true true)) (walls_hi (v3 0 3 0)%Z ex_ld (v3 8 6 2)%Z (v3 true false true)) ex_ld (ghost_width ex_ib) /\
  (** from the corner to the interior *)
  image3 nodes (walls_lo (v3 0 3 0)%Z (v3 true true true)) (walls_hi (v3 0 3 0)%Z ex_ld (v3 8 6 2)%Z (v3 true false true)) ex_ld (v3 (-1) (-1) 3)%Z =
    (if nodes then v3 1 (-1) 1 else v3 0 (-1) 0)%Z.
Proof. intros nodes. split; [intros d; destruct nodes, d; cbn; lia|]. destruct nodes; reflexivity. Qed.

(** a unit at (-1, 0, 3) arrives at (0, 0, 0) (cells) *)
Example ex_C48_run : exists u', maybe_add_ghosts_boundary (v3 0 3 0)%Z ex_ld (v3 8 6 2)%Z (v3 true true true) (v3 true false true) ex_ib 0 1 CC
    (fun _ i => if v3_eqb i (v3 1 2 5)%Z then 1 else 0) = Some u' /\ content ex_ib u' 0 (v3 0 0 0)%Z = 1.
Proof.
  destruct (C48_fold false (v3 0 3 0)%Z ex_ld (v3 8 6 2)%Z (v3 true true true) (v3 true false true) ex_ib 0 1 (fun _ i => if v3_eqb i (v3 1 2 5)%Z then 1 else 0) (proj1 (ex_C48 false))) as [u' [E [A _]]].
  exists u'. split; [exact E|]. rewrite A; [vm_compute; lra|lia|vm_compute; tauto|reflexivity].
Qed.

(** the hypotheses of C48_moments, with a particle in the lower corner *)
Example ex_C48_moments : let dx := v3 (1 / 2) (1 / 2) (1 / 2) in
  (forall s e, ghosts_hi s <= get3 (ghost_width ex_ib) e)%Z /\ inside dim_xyz ex_ld dx (v3 (1 / 8) (3 / 4) (7 / 8)) /\
  dep_dim dim_xyz /\ wf_ib dim_xyz ex_ib /\
  share (shape_of dep_1st_cc) (invar_of dim_xyz) (place dep_1st_cc dx (v3 (1 / 8) (3 / 4) (7 / 8))) (v3 (-1) 1 2)%Z = 1 / 4 * 1 * (1 / 4).
Proof.
  split; [intros s e; destruct s, e; cbn; lia|]. split; [intros e _; destruct e; cbn; lra|]. split; [left; reflexivity|]. split; [intros e; destruct e; discriminate|].
  rewrite share_get. unfold place, gen3. cbn [get3 c0 c1 c2 invar_of shape_of offset_of]. unfold hat, Rmax, Rabs.
  repeat (destruct (Rcase_abs _); try lra); repeat (destruct (Rle_dec _ _); try lra).
Qed.
