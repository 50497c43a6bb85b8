(** The theorems about particle ids, index ranges, field storage, the bit field of
    active patches and the search tree (properties C18, C38 to C41, C50). *)
From Verif Require Import Base Arr DomainSpec CollisionModel UidModel UidProofs RangeModel RangeProofs StorageModel StorageProofs
  BintreeModel BintreeProofs BitfieldModel BitfieldProofs.
Local Open Scope Z_scope.

(** C18: the ids handed out to the injections of a run -- in any interleaving over
    the processes -- differ, as long as no process exhausts its share of the 64 bits. *)
Theorem C18_ids_unique : forall size evs, 0 < size -> no_rebalance evs -> ranks_ok size evs -> no_overflow size evs ->
  NoDup (run_ids size fresh_gens evs).
Proof. exact ids_unique. Qed.
Print Assumptions C18_ids_unique.

Example ex_C18 : let evs := [Inject 2; Inject 0; Inject 2; Inject 1; Inject 0] in
  0 < 3 /\ no_rebalance evs /\ ranks_ok 3 evs /\ run_ids 3 fresh_gens evs = [2; 0; 5; 1; 3].
Proof.
  cbv zeta. split; [lia|]. split; [repeat (constructor; [discriminate|]); constructor|].
  split; [repeat (constructor; [lia|]); constructor|]. reflexivity.
Qed.

(** without the bound, exactly these ids coincide: the injections number ki on
    process ri and number kj on process rj, when ki * size + ri and kj * size + rj
    agree modulo 2^64 *)
Theorem C18_overflow : forall size evs i j ki ri kj rj, no_rebalance evs ->
  nth_error (injections (fun _ => 0) evs) i = Some (ki, ri) ->
  nth_error (injections (fun _ => 0) evs) j = Some (kj, rj) ->
  exists a b, nth_error (run_ids size fresh_gens evs) i = Some a /\ nth_error (run_ids size fresh_gens evs) j = Some b /\
    (a = b <-> (2 ^ 64 | (ki * size + ri) - (kj * size + rj))).
Proof. exact ids_collide. Qed.
Print Assumptions C18_overflow.

(** (a fictitious number of processes shows a collision with two injections) *)
Example ex_C18_overflow :
  nth_error (injections (fun _ => 0) [Inject 5; Inject 5]) 1 = Some (1, 5) /\
  run_ids (2 ^ 64) fresh_gens [Inject 5; Inject 5] = [5; 5].
Proof. split; vm_compute; reflexivity. Qed.

(** C50 (uniqueness over the whole run, rebalancing included) is false: every
    rebalance replaces the particle storage and with it the generator, which starts
    again at 0.  An injection on a process with an injection before the rebalance
    then repeats an id. *)
Theorem C50_ids_after_rebalance_refuted : exists size evs,
  0 < size /\ ranks_ok size evs /\ no_overflow size evs /\ ~ NoDup (run_ids size fresh_gens evs).
Proof.
  exists 2, [Inject 0; Inject 1; Rebalance; Inject 1]. split; [lia|]. split; [repeat constructor; lia|]. split.
  - intros r Hr. assert (H : r = 0 \/ r = 1) by lia. destruct H; subst; vm_compute; discriminate.
  - apply (reset_repeats 2 1 [Inject 0] [] []); try reflexivity; try lia; repeat constructor; discriminate.
Qed.
Print Assumptions C50_ids_after_rebalance_refuted.

(** not only for this run: whenever a process injects before and after a rebalance *)
Theorem C50_repeats : forall size r evs1 evs2 evs3, 0 <= r < size -> size <= 2 ^ 64 ->
  requests r evs1 = 0 -> requests r evs3 = 0 -> no_rebalance evs1 -> no_rebalance evs3 ->
  ~ NoDup (run_ids size fresh_gens (evs1 ++ Inject r :: evs2 ++ Rebalance :: evs3 ++ [Inject r])).
Proof. exact reset_repeats. Qed.
Print Assumptions C50_repeats.

Example ex_C50_repeats :
  run_ids 2 fresh_gens ([Inject 0] ++ Inject 1 :: [Inject 1; Inject 0] ++ Rebalance :: [Inject 0] ++ [Inject 1])
  = [0; 1; 3; 2; 0; 1].
Proof. reflexivity. Qed.

(** what is left: rebalancing is harmless before the first injection.  (Full
    statement: [NoDup] for all runs.) *)
Theorem C50_ids_unique_partial : forall size n evs, 0 < size -> no_rebalance evs -> ranks_ok size evs ->
  no_overflow size evs -> NoDup (run_ids size fresh_gens (repeat Rebalance n ++ evs)).
Proof. intros size n evs H1 H2 H3 H4. rewrite run_ids_rebalances_first. exact (ids_unique size evs H1 H2 H3 H4). Qed.
Print Assumptions C50_ids_unique_partial.

Example ex_C50_partial : run_ids 2 fresh_gens (repeat Rebalance 3 ++ [Inject 1; Inject 1; Inject 0]) = [1; 3; 0].
Proof. reflexivity. Qed.

(** C38: on non-empty ranges, iteration gives the points of the nested loops ... *)
Theorem C38_range_partial : forall starts stops, starts <> [] -> Forall2 Z.lt starts stops ->
  forall fuel, (length (nested_loops starts stops) <= fuel)%nat ->
  vr_visits fuel starts stops = Some (nested_loops starts stops).
Proof. exact vr_visits_nested. Qed.
Print Assumptions C38_range_partial.

Example ex_C38_partial : Forall2 Z.lt [0; -1] [2; 2] /\
  vr_visits 6 [0; -1] [2; 2] = Some [[0; -1]; [0; 0]; [0; 1]; [1; -1]; [1; 0]; [1; 1]].
Proof. split; [repeat constructor; lia|reflexivity]. Qed.

(** ... which are the points of the box, in increasing lexicographic order (hence
    each once) *)
Theorem C38_nested_loops : forall starts stops, length starts = length stops ->
  (forall v, In v (nested_loops starts stops) <-> Forall2 (fun x se => fst se <= x < snd se) v (combine starts stops)) /\
  StronglySorted lex (nested_loops starts stops).
Proof. intros starts stops H. split; [intros v; exact (nested_loops_in starts stops v H)|exact (nested_loops_lex starts stops)]. Qed.
Print Assumptions C38_nested_loops.

Example ex_C38_nested : nested_loops [0; 3] [2; 5] = [[0; 3]; [0; 4]; [1; 3]; [1; 4]].
Proof. reflexivity. Qed.

(** The full statement (all start and stop vectors) is false: with an empty
    direction, the loop visits at least one point, which is outside. *)
Theorem C38_range_refuted : exists starts stops, starts <> [] /\ length stops = length starts /\
  nested_loops starts stops = [] /\ vr_visits 3 starts stops = Some [[0; 0]; [1; 0]; [2; 0]].
Proof. exists [0; 0], [3; 0]. repeat split. discriminate. Qed.
Print Assumptions C38_range_refuted.

Theorem C38_empty_ranges : forall starts stops, starts <> [] -> length stops = length starts ->
  nested_loops starts stops = [] -> forall fuel, vr_visits fuel starts stops <> Some [].
Proof. exact vr_visits_empty. Qed.
Print Assumptions C38_empty_ranges.

Example ex_C38_empty : nested_loops [2; 0; 0] [2; 4; 4] = [] /\ vr_visits 16 [2; 0; 0] [2; 4; 4] <> Some [].
Proof. split; [reflexivity|vm_compute; discriminate]. Qed.

(** C39: the storage positions of the declared points are inside the allocation
    and distinct; nothing of the allocation is unused. *)
Theorem C39_storage : forall f,
  (forall a, declared f a -> 0 <= pos_of f a < storage_size f) /\
  (forall a b, declared f a -> declared f b -> pos_of f a = pos_of f b -> a = b) /\
  ((forall d, 0 < get3 (im f) d) -> 0 < n_comps f ->
   forall x, 0 <= x < storage_size f -> exists a, declared f a /\ pos_of f a = x).
Proof.
  intros f. split; [exact (pos_in_allocation f)|]. split; [exact (pos_inj f)|].
  intros H1 H2 x. exact (pos_surj f x H1 H2).
Qed.
Print Assumptions C39_storage.

Example ex_C39 : let f := make_mfields (v3 4 1 8) (v3 2 0 2) 9 3 in
  declared f (Point 5 (v3 (-2) 0 9) 2) /\ pos_of f (Point 5 (v3 (-2) 0 9) 2) = 2296 /\ storage_size f = 2592.
Proof. split; [|split; reflexivity]. split; [intros []; cbn; lia|cbn; lia]. Qed.

(** the view of one patch, and the accessor which knows invariant directions,
    address the same locations *)
Theorem C39_views : forall f p m i j k,
  view_pos f p (i - c0 (ib f)) (j - c1 (ib f)) (k - c2 (ib f)) m = mf_pos f m i j k p /\
  (forall invar, (forall d, get3 invar d = true -> get3 (ib f) d = 0 /\ get3 (im f) d = 1) ->
     fields3d_pos invar f p m i j k =
     mf_pos f m (if c0 invar then 0 else i) (if c1 invar then 0 else j) (if c2 invar then 0 else k) p).
Proof. intros f p m i j k. split; [exact (view_same f p m i j k)|]. intros invar. exact (fields3d_same f invar p m i j k). Qed.
Print Assumptions C39_views.

Example ex_C39_views : let f := make_mfields (v3 1 4 8) (v3 0 2 2) 9 3 in
  (forall d, get3 (v3 true false false) d = true -> get3 (ib f) d = 0 /\ get3 (im f) d = 1) /\
  fields3d_pos (v3 true false false) f 1 3 7 2 5 = mf_pos f 3 0 2 5 1.
Proof. split; [intros []; cbn; split; congruence|reflexivity]. Qed.

(** the other layout: all components of a point together *)
Theorem C39_aos : forall (im : V3 Z) n i j k m, 0 <= i < c0 im -> 0 <= j < c1 im -> 0 <= k < c2 im -> 0 <= m < n ->
  0 <= span_pos (strides_aos im n) i j k m < c0 im * c1 im * c2 im * n /\
  forall i' j' k' m', 0 <= i' < c0 im -> 0 <= j' < c1 im -> 0 <= m' < n ->
  span_pos (strides_aos im n) i j k m = span_pos (strides_aos im n) i' j' k' m' -> i = i' /\ j = j' /\ k = k' /\ m = m'.
Proof.
  intros im n i j k m Hi Hj Hk Hm. split; [exact (aos_range im n i j k m Hi Hj Hk Hm)|].
  intros i' j' k' m' Hi' Hj' Hm'. exact (aos_inj im n i j k m i' j' k' m' Hi Hj Hm Hi' Hj' Hm').
Qed.
Print Assumptions C39_aos.

Example ex_C39_aos : span_pos (strides_aos (v3 4 2 3) 9) 3 1 2 8 = 215 /\ 4 * 2 * 3 * 9 = 216.
Proof. split; reflexivity. Qed.

(** and the flat index of a point numbers the points of the box in the order of
    iteration *)
Theorem C39_flatten_index : forall dims, dims <> [] -> Forall (fun n => 0 <= n) dims ->
  map (fun v => flatten_index v dims) (nested_loops (map (fun _ => 0) dims) dims) = map Some (zrange 0 (prod dims)).
Proof. exact flatten_range. Qed.
Print Assumptions C39_flatten_index.

Example ex_C39_flatten : flatten_index [1; 2; 3] [2; 3; 4] = Some 23 /\ prod [2; 3; 4] = 24.
Proof. split; reflexivity. Qed.

(** C40 is false.  Words are allocated for 64 bits each, but used for 32: a field
    with more than 32 bits is accessed out of bounds. *)
Theorem C40_bounds_refuted : exists size idx, small size /\ in_box size idx /\
  bf_isset (bf_create size) idx = None /\ bf_set (bf_create size) idx true = None.
Proof.
  exists (v3 4 4 4), (v3 0 0 2). split; [split; [intros []; cbn; lia|vm_compute; reflexivity]|].
  split; [intros []; cbn; lia|]. split; vm_compute; reflexivity.
Qed.
Print Assumptions C40_bounds_refuted.

(** precisely: *)
Theorem C40_in_bounds_iff : forall size, small size ->
  ((forall idx, in_box size idx -> exists b, bf_isset (bf_create size) idx = Some b) <-> volume size <= 32).
Proof. exact in_bounds_iff. Qed.
Print Assumptions C40_in_bounds_iff.

Example ex_C40_in_bounds : small (v3 4 4 2) /\ volume (v3 4 4 2) <= 32 /\ bf_isset (bf_create (v3 4 4 2)) (v3 3 3 1) = Some false.
Proof. split; [split; [intros []; cbn; lia|vm_compute; reflexivity]|]. split; [cbn; lia|]. reflexivity. Qed.

(** bitfield3d_set's own check does not stop all of these accesses *)
Theorem C40_check_insufficient : forall size, small size -> volume size = 64 ->
  exists idx, in_box size idx /\ bf_set (bf_create size) idx true = None /\
    bf_index (bf_create size) idx / 32 <= bf_length (bf_create size).
Proof. exact set_oob_not_asserted. Qed.
Print Assumptions C40_check_insufficient.

Example ex_C40_check : small (v3 8 8 1) /\ volume (v3 8 8 1) = 64.
Proof. split; [split; [intros []; cbn; lia|vm_compute; reflexivity]|reflexivity]. Qed.

(** even with 32 bits, the count is wrong: setting the last bit sets 33 *)
Theorem C40_count_refuted : exists size idx f, small size /\ in_box size idx /\ volume size = 32 /\
  bf_set (bf_create size) idx true = Some f /\ bf_count f = 33.
Proof.
  exists (v3 8 4 1), (v3 7 3 0), (Bitfield [2 ^ 64 - 2 ^ 31] 8 32 1). split; [split; [intros []; cbn; lia|vm_compute; reflexivity]|].
  split; [intros []; cbn; lia|]. split; [reflexivity|]. split; vm_compute; reflexivity.
Qed.
Print Assumptions C40_count_refuted.

(** and after filling, the count is a multiple of 64 *)
Theorem C40_fill_refuted : exists size, small size /\ volume size = 27 /\ bf_count (bf_fill (bf_create size) true) = 64.
Proof. exists (v3 3 3 3). split; [split; [intros []; cbn; lia|vm_compute; reflexivity]|]. split; vm_compute; reflexivity. Qed.
Print Assumptions C40_fill_refuted.

(** What holds (full statement: without [volume size <= 31]). *)
Theorem C40_bitfield_partial : forall size ops, all_pos size -> volume size <= 31 ->
  Forall (fun o => in_box size (fst o)) ops ->
  exists f, bf_sets (bf_create size) ops = Some f /\
    (forall idx, in_box size idx -> bf_isset f idx = Some (last_value ops idx false)) /\
    bf_count f = alen (filter (fun idx => last_value ops idx false) (foreach_3d size)).
Proof. exact bitfield_ok. Qed.
Print Assumptions C40_bitfield_partial.

Example ex_C40_partial : let ops := [(v3 2 2 2, true); (v3 0 1 0, true); (v3 2 0 1, true); (v3 0 1 0, false)] in
  Forall (fun o => in_box (v3 3 3 3) (fst o)) ops /\ option_map bf_count (bf_sets (bf_create (v3 3 3 3)) ops) = Some 2.
Proof.
  split; [|vm_compute; reflexivity]. repeat (constructor; [intros []; cbn; lia|]). constructor.
Qed.

(** C41: the tree built from sorted arrays finds exactly the keys inserted ... *)
Theorem C41_bintree : forall keys values, alen values = alen keys -> increasing keys -> exists t,
  create_from_ordered_list 0 keys values (alen keys) = Some t /\ numelements t = 0 /\
  forall key, exists r, bintree_get t key = Some r /\ looks_up keys values key r.
Proof. exact bintree_ok. Qed.
Print Assumptions C41_bintree.

Example ex_C41 : exists t, create_from_ordered_list 0 [1; 4; 6; 7; 9] [10; 40; 60; 70; 90] 5 = Some t /\
  bintree_get t 7 = Some (Some 70) /\ bintree_get t 5 = Some None.
Proof. eexists. split; [vm_compute; reflexivity|]. split; reflexivity. Qed.

(** ... so that the patch number of a curve index is its position among the active
    ones, and -1 for the inactive ones *)
Theorem C41_patch_map : forall sfc_indices, increasing sfc_indices -> Forall (fun i => 0 <= i) sfc_indices -> exists t,
  map_create sfc_indices = Some t /\
  (forall gp i, aget sfc_indices gp = Some i -> map_sfc_idx_to_gpatch t i = Some gp) /\
  (forall i, ~ In i sfc_indices -> map_sfc_idx_to_gpatch t i = Some (-1)).
Proof. exact map_ok. Qed.
Print Assumptions C41_patch_map.

Example ex_C41_map : exists t, map_create [0; 2; 3; 8] = Some t /\ map_sfc_idx_to_gpatch t 3 = Some 2 /\ map_sfc_idx_to_gpatch t 4 = Some (-1).
Proof. eexists. split; [vm_compute; reflexivity|]. split; reflexivity. Qed.
