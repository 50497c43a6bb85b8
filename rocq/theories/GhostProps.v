(** C09, C10, C11: exchange of ghost points, on all processes. *)
From Coq Require Import Reals Lra.
From Verif Require Import Base Arr RSum DomainModel DomainSpec MpiModel DdcPrtSpec GhostModel GhostSpec GhostProofs.
Local Open Scope Z_scope.

(** a patch is at least as large as its ghost layers *)
Definition ghosts_fit (np gdims ibn : V3 Z) : Prop := forall d, 0 <= get3 ibn d <= get3 gdims d / get3 np d.

Lemma ghosts_fit_dm c np gdims per pr size dm ibn : domain_setup c np gdims per pr size = Some dm -> ghosts_fit np gdims ibn -> forall d, 0 <= get3 ibn d <= get3 (grid_ldims dm) d.
Proof. intros H G d. rewrite (ld_eq c np gdims per pr size dm H), get3_gen3. apply G. Qed.

(** ** C09 *)

(** What process r packs for r' and what r' unpacks from r correspond, entry by entry: the same
    number of values, from and for the same two patches, for boxes of the same shape whose
    corresponding points denote the same points of space; hence the whole messages have the same
    size.  Both for filling (send = true) and for adding (send = false) ghost points; reordering
    the receive entries ends and finds them all. *)
Theorem C09_layout : forall c np gdims per pr size dm ibn (send : bool) r r',
  all_pos np -> domain_setup c np gdims per pr size = Some dm -> counts_valid pr (volume np) size -> processes pr size ->
  0 <= r < size -> 0 <= r' < size ->
  exists ss rs, sr_entries send dm ibn r r' = Some ss /\ recv_list (negb send) dm ibn r' r = Some rs /\ total_len ss = total_len rs /\
    Forall2 (fun s e => sr_patch s = sr_nei_patch e /\ sr_nei_patch s = sr_patch e /\ sr_len s = sr_len e /\
      exists sh : V3 Z,
        (forall d, get3 (sr_ilo s) d = get3 (sr_ilo e) d + get3 sh d /\ get3 (sr_ihi s) d = get3 (sr_ihi e) d + get3 sh d) /\
        forall x, same_point dm (r', sr_patch e, x) (r, sr_patch s, gen3 (fun d => get3 x d + get3 sh d))) ss rs.
Proof.
  intros c np gdims per pr size dm ibn send r r' H1 H2 H3 H4 Hr Hr'.
  destruct (layout c np gdims per pr size dm H1 H2 H3 H4 ibn send r r' Hr Hr') as [ss [rs [E1 [E2 [E3 E4]]]]].
  exists ss, rs. split; [exact E1|]. split; [exact E2|]. split; [exact E3|]. clear - E4. induction E4 as [|s e ss rs (A & B & C & sh & D1 & D2 & D3) _ IH]; constructor; [|exact IH].
  repeat split; try assumption. exists sh. split; [|exact D3]. intros d. rewrite D1, D2, !plus3_get. auto.
Qed.
Print Assumptions C09_layout.

(** ** C10 *)

(** Every message sent is received; in whatever order they arrive, no access is out of bounds,
    and afterwards a stored point (own or ghost) of a component in [mb, me) holds the value the
    owner of the same point of space held before, or, if nobody owns it, its old value. *)
Theorem C10_fill : forall T c np gdims per pr size dm ibn n_comps mb me (F : Z -> flds T),
  all_pos np -> domain_setup c np gdims per pr size = Some dm -> counts_valid pr (volume np) size -> processes pr size -> ghosts_fit np gdims ibn ->
  0 <= mb /\ mb <= me /\ me <= n_comps ->
  exists msgs recvs, all_ddc_posts dm size ibn n_comps true mb me F = Some msgs /\ all_ddc_recvs dm size ibn true = Some recvs /\ balanced msgs recvs /\
    forall pool, Permutation pool msgs -> exists F' : Z -> flds T,
      (forall r, 0 <= r < size -> fill_ghosts dm size ibn n_comps mb me pool (F r) r = Some (F' r)) /\
      forall a m, In a (all_places dm size ibn) ->
        (mb <= m < me -> (forall o, In o (own_places dm size) -> same_point dm a o -> at_place F' m a = at_place F m o) /\
                         ((forall o, In o (own_places dm size) -> ~ same_point dm a o) -> at_place F' m a = at_place F m a)) /\
        (~ mb <= m < me -> at_place F' m a = at_place F m a).
Proof.
  intros T c np gdims per pr size dm ibn n_comps mb me F H1 H2 H3 H4 G Hm. pose proof (ghosts_fit_dm _ _ _ _ _ _ _ _ H2 G) as G'.
  eexists _, _. split; [exact (posts_val c np gdims per pr size dm H1 H2 H3 H4 ibn G' n_comps mb me true Hm F)|].
  split; [exact (recvs_val c np gdims per pr size dm H1 H2 H3 H4 ibn true)|]. split; [exact (msgs_balanced size dm ibn n_comps mb me true F)|].
  intros pool HP. eexists. split.
  - intros r Hr. exact (run_val c np gdims per pr size dm H1 H2 H3 H4 ibn G' n_comps mb me true Hm F (fun _ v => v) pool r HP Hr).
  - intros [[r p] x] m Ha. apply (in_all c np gdims per pr size dm H1 H2 H3 H4) in Ha. destruct Ha as [V S]. cbn [at_place]. split.
    + intros Hmm. destruct (fill_spec c np gdims per pr size dm H1 H2 H3 H4 ibn G' n_comps mb me F r p m x V S Hmm) as [A B]. cbv zeta in A, B. split.
      * intros [[r' p'] x'] Ho. apply (in_own c np gdims per pr size dm H1 H2 H3 H4) in Ho. destruct Ho as [V' I']. intros HS. exact (A r' p' x' V' I' HS).
      * intros HN. apply B. intros r' p' x' V' I' HS. apply (HN (r', p', x')); [|exact HS]. apply (in_own c np gdims per pr size dm H1 H2 H3 H4). auto.
    + intros Hmm. exact (fill_other c np gdims per pr size dm H1 H2 H3 H4 ibn G' n_comps mb me F r p m x V S Hmm).
Qed.
Print Assumptions C10_fill.

(** a point of space has at most one owner, so the value is determined *)
Theorem C10_owner_unique : forall c np gdims per pr size dm a b,
  all_pos np -> domain_setup c np gdims per pr size = Some dm -> counts_valid pr (volume np) size -> processes pr size ->
  In a (own_places dm size) -> In b (own_places dm size) -> same_point dm a b -> a = b.
Proof.
  intros c np gdims per pr size dm [[r p] x] [[r' p'] x'] H1 H2 H3 H4 Ha Hb HS.
  apply (in_own c np gdims per pr size dm H1 H2 H3 H4) in Ha, Hb. destruct Ha as [V I], Hb as [V' I'].
  destruct (place_unique c np gdims per pr size dm H1 H2 H3 H4 r p x r' p' x' V V' I I' HS) as [-> [-> ->]]. reflexivity.
Qed.
Print Assumptions C10_owner_unique.

(** ** C11 *)

(** After adding, an own point holds its old value plus those of all ghost points of all patches
    that denote the same point of space; everything else is unchanged; if all directions are
    periodic, the sum over all own points is the sum over all own and ghost points before.  All
    this in whatever order the messages arrive. *)
Theorem C11_add : forall c np gdims per pr size dm ibn n_comps mb me (F : Z -> flds R),
  all_pos np -> domain_setup c np gdims per pr size = Some dm -> counts_valid pr (volume np) size -> processes pr size -> ghosts_fit np gdims ibn ->
  0 <= mb /\ mb <= me /\ me <= n_comps ->
  exists msgs recvs, all_ddc_posts dm size ibn n_comps false mb me F = Some msgs /\ all_ddc_recvs dm size ibn false = Some recvs /\ balanced msgs recvs /\
    forall pool, Permutation pool msgs -> exists F' : Z -> flds R,
      (forall r, 0 <= r < size -> add_ghosts Rplus dm size ibn n_comps mb me pool (F r) r = Some (F' r)) /\
      (forall a m, In a (own_places dm size) -> mb <= m < me ->
         at_place F' m a = (at_place F m a + rsum (map (at_place F m) (filter (same_pointb dm a) (ghost_places dm size ibn))))%R) /\
      (forall a m, In a (all_places dm size ibn) -> is_own dm a = false \/ ~ mb <= m < me -> at_place F' m a = at_place F m a) /\
      (forall m, mb <= m < me -> (forall d, get3 per d = true) ->
         rsum (map (at_place F' m) (own_places dm size)) = rsum (map (at_place F m) (all_places dm size ibn))).
Proof.
  intros c np gdims per pr size dm ibn n_comps mb me F H1 H2 H3 H4 G Hm. pose proof (ghosts_fit_dm _ _ _ _ _ _ _ _ H2 G) as G'.
  eexists _, _. split; [exact (posts_val c np gdims per pr size dm H1 H2 H3 H4 ibn G' n_comps mb me false Hm F)|].
  split; [exact (recvs_val c np gdims per pr size dm H1 H2 H3 H4 ibn false)|]. split; [exact (msgs_balanced size dm ibn n_comps mb me false F)|].
  intros pool HP. eexists. split; [|split; [|split]].
  - intros r Hr. exact (run_val c np gdims per pr size dm H1 H2 H3 H4 ibn G' n_comps mb me false Hm F Rplus pool r HP Hr).
  - intros [[r p] x] m Ha Hmm. apply (in_own c np gdims per pr size dm H1 H2 H3 H4) in Ha. destruct Ha as [V I].
    exact (add_own c np gdims per pr size dm H1 H2 H3 H4 ibn G' n_comps mb me F r p m x V I Hmm).
  - intros [[r p] x] m Ha Hor. apply (in_all c np gdims per pr size dm H1 H2 H3 H4) in Ha. destruct Ha as [V S]. cbn [at_place].
    apply (add_other c np gdims per pr size dm H1 H2 H3 H4 ibn G' n_comps mb me F r p m x V).
    rewrite (is_own_val c np gdims per pr size dm H1 H2 H3 H4) in Hor by exact V. exact Hor.
  - intros m Hmm Hper. exact (add_total c np gdims per pr size dm H1 H2 H3 H4 ibn G' n_comps mb me F m Hmm Hper).
Qed.
Print Assumptions C11_add.

(** Without [ghosts_fit] this is false: with patches narrower than their ghost layers, ghost points
    two patches away receive what the neighbour's ghost points held before.  Nothing in the code
    rules such patches out. *)
Definition thin_field (r p m : Z) (x : V3 Z) : Z := if (c0 x =? 0) then 10 + p else -1.
Theorem C10_thin_refuted : exists c np gdims per pr size dm ibn msgs F' a o,
  all_pos np /\ domain_setup c np gdims per pr size = Some dm /\ counts_valid pr (volume np) size /\ processes pr size /\ (forall d, 0 <= get3 ibn d) /\
  all_ddc_posts dm size ibn 1 true 0 1 thin_field = Some msgs /\
  (forall r, 0 <= r < size -> fill_ghosts dm size ibn 1 0 1 msgs (thin_field r) r = Some (F' r)) /\
  In a (all_places dm size ibn) /\ In o (own_places dm size) /\ same_point dm a o /\ at_place F' 0 a <> at_place thin_field 0 o.
Proof.
  destruct (domain_setup CURVE_BYDIM (v3 4 1 1) (v3 4 1 1) (v3 true true true) None 1) as [dm|] eqn:E; [|vm_compute in E; discriminate E].
  destruct (all_ddc_posts dm 1 (v3 2 0 0) 1 true 0 1 thin_field) as [msgs|] eqn:EM; [|vm_compute in E; injection E as <-; vm_compute in EM; discriminate EM].
  destruct (fill_ghosts dm 1 (v3 2 0 0) 1 0 1 msgs (thin_field 0) 0) as [F'|] eqn:EF;
    [|vm_compute in E; injection E as <-; vm_compute in EM; injection EM as <-; vm_compute in EF; discriminate EF].
  exists CURVE_BYDIM, (v3 4 1 1), (v3 4 1 1), (v3 true true true), None, 1, dm, (v3 2 0 0), msgs, (fun _ => F'), (0, 0, v3 2 0 0), (0, 2, v3 0 0 0).
  split; [intros []; cbn; lia|]. split; [exact E|]. split; [cbn; lia|]. split; [exact I|]. split; [intros []; cbn; lia|]. split; [exact EM|].
  split; [intros r Hr; assert (r = 0) as -> by lia; exact EF|]. vm_compute in E. injection E as <-. vm_compute in EM. injection EM as <-.
  split; [vm_compute; tauto|]. split; [vm_compute; tauto|]. split; [vm_compute; reflexivity|].
  vm_compute in EF. injection EF as <-. vm_compute. discriminate.
Qed.
Print Assumptions C10_thin_refuted.

(** ** examples *)

(** four patches of 4 x 4 on two processes, periodic in x only, one ghost point in x and y *)
Definition ex_field (r p m : Z) (x : V3 Z) : Z :=
  (if (0 <=? c0 x) && (c0 x <? 4) && (0 <=? c1 x) && (c1 x <? 4) then 1000 else 0) + 400 * r + 200 * p + 100 * m + 10 * c1 x + c0 x.

Example ex_C09 : exists dm ss rs, domain_setup CURVE_BYDIM (v3 2 2 1) (v3 8 8 1) (v3 true false false) None 2 = Some dm /\
  all_pos (v3 2 2 1) /\ counts_valid None (volume (v3 2 2 1)) 2 /\ processes None 2 /\ ghosts_fit (v3 2 2 1) (v3 8 8 1) (v3 1 1 0) /\
  sr_entries true dm (v3 1 1 0) 0 1 = Some ss /\ recv_list false dm (v3 1 1 0) 1 0 = Some rs /\
  map (fun e => (sr_patch e, sr_nei_patch e, sr_dir1 e, sr_len e)) ss = [(0, 1, 15, 1); (0, 0, 16, 4); (0, 1, 17, 1); (1, 0, 15, 1); (1, 1, 16, 4); (1, 0, 17, 1)] /\
  map (fun e => (sr_patch e, sr_nei_patch e, sr_dir1 e, sr_len e)) rs = [(1, 0, 11, 1); (0, 0, 10, 4); (1, 0, 9, 1); (0, 1, 11, 1); (1, 1, 10, 4); (0, 1, 9, 1)].
Proof.
  eexists _, _, _. split; [vm_compute; reflexivity|]. split; [intros []; cbn; lia|]. split; [cbn; lia|]. split; [exact I|].
  split; [intros []; vm_compute; split; discriminate|]. repeat split; vm_compute; reflexivity.
Qed.

(** the ghost corner (-1, 4) of patch 0 of process 0 belongs to patch 1 of process 1; (1, -1) to
    nobody; component 1 is not exchanged *)
Example ex_C10 : exists dm msgs F', domain_setup CURVE_BYDIM (v3 2 2 1) (v3 8 8 1) (v3 true false false) None 2 = Some dm /\
  all_ddc_posts dm 2 (v3 1 1 0) 2 true 0 1 ex_field = Some msgs /\ length msgs = 2%nat /\
  fill_ghosts dm 2 (v3 1 1 0) 2 0 1 (rev msgs) (ex_field 0) 0 = Some F' /\
  In (0, 0, v3 (-1) 4 0) (all_places dm 2 (v3 1 1 0)) /\ same_point dm (0, 0, v3 (-1) 4 0) (1, 1, v3 3 0 0) /\
  F' 0 0 (v3 (-1) 4 0) = ex_field 1 1 0 (v3 3 0 0) /\ F' 0 0 (v3 1 (-1) 0) = ex_field 0 0 0 (v3 1 (-1) 0) /\
  F' 0 1 (v3 (-1) 4 0) = ex_field 0 0 1 (v3 (-1) 4 0).
Proof.
  eexists _, _, _. split; [vm_compute; reflexivity|]. split; [vm_compute; reflexivity|]. split; [vm_compute; reflexivity|]. split; [vm_compute; reflexivity|].
  split; [vm_compute; tauto|]. repeat split; vm_compute; reflexivity.
Qed.

(** the own corner (0, 3) of patch 0 of process 0 is a ghost point of the three other patches *)
Example ex_C11 : exists dm msgs F', domain_setup CURVE_BYDIM (v3 2 2 1) (v3 8 8 1) (v3 true false false) None 2 = Some dm /\
  all_ddc_posts dm 2 (v3 1 1 0) 1 false 0 1 ex_field = Some msgs /\
  add_ghosts Z.add dm 2 (v3 1 1 0) 1 0 1 (rev msgs) (ex_field 0) 0 = Some F' /\
  filter (same_pointb dm (0, 0, v3 0 3 0)) (ghost_places dm 2 (v3 1 1 0)) = [(0, 1, v3 4 3 0); (1, 0, v3 0 (-1) 0); (1, 1, v3 4 (-1) 0)] /\
  F' 0 0 (v3 0 3 0) = ex_field 0 0 0 (v3 0 3 0) + (ex_field 0 1 0 (v3 4 3 0) + ex_field 1 0 0 (v3 0 (-1) 0) + ex_field 1 1 0 (v3 4 (-1) 0)) /\
  F' 0 0 (v3 (-1) 3 0) = ex_field 0 0 0 (v3 (-1) 3 0).
Proof.
  eexists _, _, _. split; [vm_compute; reflexivity|]. split; [vm_compute; reflexivity|]. split; [vm_compute; reflexivity|]. repeat split; vm_compute; reflexivity.
Qed.
