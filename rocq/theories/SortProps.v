(** The theorems about cell indices, sorting and collision partners
    (properties C12, C19 to C21). *)
From Verif Require Import Base Arr DomainSpec IndexerModel IndexerProofs SortModel SortSpec SortProofs
  CollisionModel CollisionSpec CollisionProofs.
Local Open Scope Z_scope.

(** C12: on patches with fewer than 2^31 cells, the unsigned comparisons recognise
    exactly the positions in the patch among all [int] triples, and on these the
    index is a bijection onto [0, n_cells), computed without overflow. *)
Theorem C12_cell_index : forall ldims, all_pos ldims -> volume ldims < 2 ^ 31 ->
  n_cells ldims = Some (volume ldims) /\
  (forall cpos, int3 cpos -> ~ in_box ldims cpos ->
     cell_index ldims cpos = Some (-1) /\ is_valid_cell_position ldims cpos = false /\
     valid_cell_index ldims cpos = None) /\
  (forall cpos, in_box ldims cpos -> exists i, 0 <= i < volume ldims /\
     cell_index ldims cpos = Some i /\ is_valid_cell_position ldims cpos = true /\
     valid_cell_index ldims cpos = Some i) /\
  (forall p q i, in_box ldims p -> in_box ldims q ->
     cell_index ldims p = Some i -> cell_index ldims q = Some i -> p = q) /\
  (forall i, 0 <= i < volume ldims -> exists p, in_box ldims p /\ cell_index ldims p = Some i).
Proof. exact cell_index_full. Qed.
Print Assumptions C12_cell_index.

Example ex_C12 : all_pos (v3 4 1 8) /\ volume (v3 4 1 8) < 2 ^ 31 /\
  cell_index (v3 4 1 8) (v3 3 0 2) = Some 11 /\ cell_index (v3 4 1 8) (v3 3 (-1) 2) = Some (-1) /\
  cell_index (v3 4 1 8) (v3 4 0 2) = Some (-1).
Proof. split; [intros []; cbn; lia|]. repeat split; vm_compute; reflexivity. Qed.

(** C19: when all particles are in cells of the patch, the plain counting sort
    finishes and returns the stable sort by cell. *)
Theorem C19_sort : forall P (cell : P -> option Z) (c : P -> Z) n_cells prts, 0 <= n_cells ->
  (forall x, In x prts -> cell x = Some (c x) /\ 0 <= c x < n_cells) ->
  exists out, sort_countsort cell n_cells prts = Some out /\ stably_sorted c prts out.
Proof. intros P cell c. exact (sort_full cell c). Qed.
Print Assumptions C19_sort.

Example ex_C19 :
  sort_countsort (fun x : Z * Z => Some (fst x)) 4 [(2, 10); (0, 11); (2, 12); (3, 13); (0, 14)]
  = Some [(0, 11); (0, 14); (2, 10); (2, 12); (3, 13)].
Proof. reflexivity. Qed.

(** C20: the two sorts agree on all inputs, including those on which an assert
    fires or an index is out of bounds; with C19, neither leaves its arrays when
    all particles are in the patch. *)
Theorem C20_sorts_equal : forall P (cell : P -> option Z) n_cells prts,
  sort_countsort2 cell n_cells prts = sort_countsort cell n_cells prts.
Proof. intros P. exact sorts_equal. Qed.
Print Assumptions C20_sorts_equal.

Example ex_C20 :
  sort_countsort2 (fun x : Z * Z => Some (fst x)) 4 [(2, 10); (2, 12); (0, 11); (3, 13); (0, 14); (0, 15)]
  = Some [(0, 11); (0, 14); (0, 15); (2, 10); (2, 12); (3, 13)].
Proof. reflexivity. Qed.

(** C21: the offsets cut a sorted list into the cells ... *)
Theorem C21_offsets : forall P (cell : P -> option Z) (c : P -> Z) ldims prts,
  (forall d, 0 <= get3 ldims d) ->
  (forall x, In x prts -> cell x = Some (c x) /\ 0 <= c x < volume ldims) ->
  (forall i j a b, 0 <= i <= j -> aget prts i = Some a -> aget prts j = Some b -> c a <= c b) ->
  exists offs,
    find_cell_offsets cell (volume ldims) prts (repeat 0 (Z.to_nat (volume ldims + 1))) = Some offs /\
    partitions c (volume ldims) prts offs.
Proof. intros P. exact offsets_top. Qed.
Print Assumptions C21_offsets.

(** ... and whatever the shuffles, each particle that is not alone in its cell
    takes part in one or two collisions, of total weight one full collision, all
    with other particles of its cell. *)
Theorem C21_collisions : forall P (cell : P -> option Z) (c : P -> Z) ldims prts,
  (forall d, 0 <= get3 ldims d) ->
  (forall x, In x prts -> cell x = Some (c x) /\ 0 <= c x < volume ldims) ->
  (forall i j a b, 0 <= i <= j -> aget prts i = Some a -> aget prts j = Some b -> c a <= c b) ->
  forall shuffle, (forall k l, Permutation l (shuffle k l)) -> exists evs,
    collide_patch cell shuffle ldims prts = Some evs /\ collides_properly c prts evs.
Proof. intros P. exact collide_top. Qed.
Print Assumptions C21_collisions.

(** Sort, then collide: the sort establishes what the collisions need. *)
Theorem C21_after_sort : forall P (cell : P -> option Z) (c : P -> Z) ldims prts,
  (forall d, 0 <= get3 ldims d) ->
  (forall x, In x prts -> cell x = Some (c x) /\ 0 <= c x < volume ldims) ->
  forall shuffle, (forall k l, Permutation l (shuffle k l)) -> exists out evs,
    sort_countsort2 cell (volume ldims) prts = Some out /\ Permutation prts out /\
    collide_patch cell shuffle ldims out = Some evs /\ collides_properly c out evs.
Proof.
  intros P cell c ldims prts Hd Hc shuffle Hs.
  destruct (sort_full cell c (volume ldims) prts (volume_nonneg ldims Hd) Hc) as [out [E [HP [HS _]]]].
  assert (Hc' : forall x, In x out -> cell x = Some (c x) /\ 0 <= c x < volume ldims).
  { intros x Hx. apply Hc. eapply Permutation_in; [symmetry; exact HP|exact Hx]. }
  destruct (collide_top cell c ldims out Hd Hc' HS shuffle Hs) as [evs [E2 H2]].
  exists out, evs. rewrite sorts_equal. auto.
Qed.
Print Assumptions C21_after_sort.

(** five particles in cell 0, one in cell 1, two in cell 2; shuffles reverse *)
Example ex_C21 :
  collide_patch (fun x : Z => Some x) (fun _ l => rev l) (v3 3 1 1) [0; 0; 0; 0; 0; 1; 2; 2]
  = Some [(4, 3, 1); (4, 2, 1); (3, 2, 1); (1, 0, 2); (7, 6, 2)].
Proof. reflexivity. Qed.

Example ex_C21_hyps : (forall k l, Permutation l ((fun (_ : Z) (l : list Z) => rev l) k l)) /\
  (forall x, In x [0; 0; 0; 0; 0; 1; 2; 2] -> Some x = Some x /\ 0 <= x < volume (v3 3 1 1)).
Proof.
  split; [intros; apply Permutation_rev|]. intros x Hx. split; [reflexivity|]. cbn in Hx.
  unfold volume. cbn. repeat (destruct Hx as [<-|Hx]; [lia|]). destruct Hx.
Qed.
