(** C55: the HDF5 file of particles. *)
From Verif Require Import Base Arr DomainModel DomainSpec MpiModel BalanceModel CollisionProofs SortModel DdcPrtSpec GhostModel PatchListProofs OutPrtModel OutPrtSpec OutPrtLocalProofs OutPrtProofs.
Local Open Scope Z_scope.

Lemma adjusted gdims lo hi0 hi : adjust_params gdims lo hi0 = Some hi -> forall d, 0 <= get3 lo d /\ get3 hi d <= get3 gdims d.
Proof.
  unfold adjust_params, adjust_hi. intros H d.
  destruct ((0 <=? c0 lo) && _) eqn:E0 in H; [|discriminate]. destruct ((0 <=? c1 lo) && _) eqn:E1 in H; [|discriminate]. destruct ((0 <=? c2 lo) && _) eqn:E2 in H; [|discriminate].
  injection H as <-. apply andb_true_iff in E0, E1, E2. rewrite !Z.leb_le in *. destruct d; cbn [get3 c0 c1 c2]; lia.
Qed.

(** ** the file *)

(** The full claim is without [starts_at_patches]; that is refuted below. *)
Theorem C55_output_partial : forall P T S (cellpos : P -> V3 Z) kindof (written : patch_info -> P -> T) (selector : S -> P -> bool * S) selector0 lo hi0 hi nr_kinds c np gdims per pr size dm mprts,
  all_pos np -> all_pos gdims -> domain_setup c np gdims per pr size = Some dm -> counts_valid pr (volume np) size -> processes pr size ->
  per_patch dm size mprts -> particles_ok cellpos kindof dm size mprts nr_kinds -> 0 <= nr_kinds ->
  adjust_params gdims lo hi0 = Some hi -> (forall d, get3 lo d <= get3 hi d) -> starts_at_patches dm lo hi ->
  exists ms, messages cellpos kindof written selector selector0 lo hi nr_kinds dm size (grid_ldims dm) mprts = Some ms /\
    forall pool, Permutation pool ms -> exists f tb te,
      output cellpos kindof written selector selector0 lo hi nr_kinds dm size (grid_ldims dm) mprts pool = Some (f, (tb, te)) /\
      good_file cellpos kindof written selector selector0 dm size mprts lo hi nr_kinds f tb te.
Proof.
  intros P T S cellpos kindof written selector selector0 lo hi0 hi nr_kinds c np gdims per pr size dm mprts Hpos Hgd Hset Hcnt Hproc Hmp Hprt Hnk Hadj Hlh Hal.
  pose proof (adjusted _ _ _ _ Hadj) as Ha. assert (Hreg : forall d, 0 <= get3 lo d <= get3 hi d /\ get3 hi d <= get3 gdims d) by (intros d; specialize (Ha d); specialize (Hlh d); lia).
  eexists. split; [apply (messages_ok cellpos kindof written selector selector0 lo hi nr_kinds c np gdims per pr size dm mprts Hpos Hset Hcnt Hproc Hgd Hnk Hreg Hmp Hprt)|]. intros pool HP.
  destruct (output_ok cellpos kindof written selector selector0 lo hi nr_kinds c np gdims per pr size dm mprts Hpos Hset Hcnt Hproc Hgd Hnk Hreg Hmp Hprt pool) as [tb [te [E G]]]; [|exact HP|].
  - intros p j k Hp Hin d. pose proof (size_pos c np gdims per pr size dm Hpos Hset Hcnt Hproc) as Hs. destruct (inf_ok c np gdims per pr size dm Hpos Hset Hcnt Hproc 0 p) as [E1 [_ [_ [E2 _]]]]; [split; lia|].
    apply (Hal p _ d Hp E1). apply (in_cells_iff selector selector0 lo hi nr_kinds c np gdims per pr size dm Hpos Hset Hcnt Hproc Hgd Hreg) in Hin. destruct Hin as [Hj _].
    exists (gen3 (fun d => get3 (po dm 0 p) d + get3 j d)). split; intros e; rewrite get3_gen3, ?E2; specialize (Hj e); unfold po in *; lia.
  - eexists _, tb, te. split; [exact E|exact G].
Qed.
Print Assumptions C55_output_partial.

(** If the region starts in the middle of a patch of process 0, that process reads beyond the end of
    its table. *)
Theorem C55_region_within_patch : forall P T S (cellpos : P -> V3 Z) kindof (written : patch_info -> P -> T) (selector : S -> P -> bool * S) selector0 lo hi0 hi nr_kinds c np gdims per pr size dm mprts p info d pool,
  all_pos np -> all_pos gdims -> domain_setup c np gdims per pr size = Some dm -> counts_valid pr (volume np) size -> processes pr size ->
  per_patch dm size mprts -> particles_ok cellpos kindof dm size mprts nr_kinds -> 0 < nr_kinds ->
  adjust_params gdims lo hi0 = Some hi -> (forall d, get3 lo d <= get3 hi d) ->
  0 <= p < patches_of dm 0 -> get_local_patch_info dm 0 p = Some info -> overlaps lo hi info -> get3 (pi_off info) d < get3 lo d ->
  output cellpos kindof written selector selector0 lo hi nr_kinds dm size (grid_ldims dm) mprts pool = None.
Proof.
  intros P T S cellpos kindof written selector selector0 lo hi0 hi nr_kinds c np gdims per pr size dm mprts p info d pool Hpos Hgd Hset Hcnt Hproc Hmp Hprt Hnk Hadj Hlh Hp Hi [g [Hg Hr]] Hd.
  pose proof (adjusted _ _ _ _ Hadj) as Ha. assert (Hreg : forall d, 0 <= get3 lo d <= get3 hi d /\ get3 hi d <= get3 gdims d) by (intros e; specialize (Ha e); specialize (Hlh e); lia).
  pose proof (size_pos c np gdims per pr size dm Hpos Hset Hcnt Hproc) as Hs. destruct (inf_ok c np gdims per pr size dm Hpos Hset Hcnt Hproc 0 p) as [E1 [_ [_ [E2 _]]]]; [split; lia|]. rewrite Hi in E1. injection E1 as ->.
  unfold output. destruct (particle_data _ _ _ _ _ _ _ _ _ _ _ _); [|reflexivity].
  rewrite (root_stop cellpos kindof written selector selector0 lo hi nr_kinds c np gdims per pr size dm mprts Hpos Hset Hcnt Hproc Hgd ltac:(lia) Hreg Hmp Hprt pool p (cell_of dm g 0 p) 0 d); [reflexivity|exact Hp| |exact Hd].
  apply (in_cells_iff selector selector0 lo hi nr_kinds c np gdims per pr size dm Hpos Hset Hcnt Hproc Hgd Hreg). split; [|lia]. intros e. unfold cell_of, po. rewrite get3_gen3. specialize (Hg e). specialize (Hr e). rewrite E2 in Hg. lia.
Qed.
Print Assumptions C55_region_within_patch.

(** ** the selectors *)

Lemma chosen_all {P} (l : list P) : forall s, chosen select_all s l = (l, s).
Proof. induction l as [|q l IH]; intros s; [reflexivity|]. cbn [chosen]. unfold select_all at 1 3. cbn [fst snd]. rewrite IH. destruct s. reflexivity. Qed.

(** all particles are selected *)
Theorem C55_select_all : forall P (ll : list (list P)), chosen_patches select_all tt ll = ll.
Proof. intros P ll. induction ll as [|l ll IH]; [reflexivity|]. cbn [chosen_patches]. rewrite chosen_all. cbn [fst snd]. rewrite IH. reflexivity. Qed.
Print Assumptions C55_select_all.

Section Every.
  Context {P : Type}.
  Variable n : Z.
  Hypothesis Hn : 0 < n.

  Definition ev (c : Z) (l : list P) : list P :=
    flat_map (fun i => match aget l i with Some q => if (c + i) mod n =? 0 then [q] else [] | None => [] end) (zrange 0 (alen l)).

  Lemma ev_cons c q l : ev c (q :: l) = (if c mod n =? 0 then [q] else []) ++ ev (c + 1) l.
  Proof.
    unfold ev. rewrite alen_cons. pose proof (alen_nonneg l). rewrite zrange_cons by lia. cbn [flat_map]. rewrite aget_cons. cbn [Z.eqb]. rewrite Z.add_0_r. f_equal.
    replace (zrange (0 + 1) (1 + alen l)) with (map (fun i => 1 + i) (zrange 0 (alen l))) by (rewrite <- zrange_shift; f_equal; lia).
    rewrite flat_map_map, !flat_map_concat_map. f_equal. apply map_ext_in. intros i Hi. apply in_zrange in Hi. rewrite aget_cons.
    destruct (Z.eqb_spec (1 + i) 0) as [E|E]; [lia|]. replace (1 + i - 1) with i by lia. rewrite Z.add_assoc. reflexivity.
  Qed.

  Lemma chosen_ev : forall l c, 0 <= c -> chosen (select_every_nth n) c l = (ev c l, c + alen l).
  Proof.
    induction l as [|q l IH]; intros c Hc; [cbn [chosen]; rewrite Z.add_0_r; reflexivity|]. cbn [chosen]. change (snd (select_every_nth n c q)) with (c + 1). change (fst (select_every_nth n c q)) with (Z.rem c n =? 0). rewrite IH by lia. rewrite ev_cons, alen_cons, Z.rem_mod_nonneg by lia.
    f_equal; [destruct (c mod n =? 0); reflexivity|lia].
  Qed.

  Lemma ev_app : forall a b c, ev c (a ++ b) = ev c a ++ ev (c + alen a) b.
  Proof.
    induction a as [|q a IH]; intros b c; [change (alen []) with 0; rewrite Z.add_0_r; reflexivity|]. cbn [app]. rewrite !ev_cons, IH, alen_cons, <- app_assoc. replace (c + (1 + alen a)) with (c + 1 + alen a) by lia. reflexivity.
  Qed.

  Lemma every_patches : forall ll c, 0 <= c -> concat (chosen_patches (select_every_nth n) c ll) = ev c (concat ll).
  Proof.
    induction ll as [|l ll IH]; intros c Hc; [reflexivity|]. cbn [chosen_patches concat]. rewrite chosen_ev by lia. cbn [fst snd]. pose proof (alen_nonneg l). rewrite IH, ev_app by lia. reflexivity.
  Qed.
End Every.

(** of the particles of a process, patch by patch, every n-th is selected *)
Theorem C55_select_every_nth : forall P n (ll : list (list P)), 0 < n -> concat (chosen_patches (select_every_nth n) 0 ll) = every_nth n (concat ll).
Proof. intros P n ll Hn. rewrite every_patches by lia. reflexivity. Qed.
Print Assumptions C55_select_every_nth.

(** ** an example: 4 x 4 x 1 cells, four patches on two processes, two kinds; a particle is its cell in the
    patch, its kind and a number *)
Definition ex_dm : domain := ltac:(let x := eval vm_compute in (domain_setup CURVE_BYDIM (v3 2 2 1) (v3 4 4 1) (v3 true true true) None 2) in match x with Some ?d => exact d end).
Definition ex_prts (r : Z) : list (list (V3 Z * Z * Z)) :=
  if r =? 0 then [[(v3 1 1 0, 1, 10); (v3 0 0 0, 0, 11); (v3 1 1 0, 1, 12)]; [(v3 2 1 0, 0, 13); (v3 0 1 0, 0, 14)]]
  else [[(v3 1 2 1, 1, 20); (v3 0 0 0, 1, 21)]; []].
Definition ex_written (info : patch_info) (q : V3 Z * Z * Z) : V3 Z * Z := (gen3 (fun d => get3 (pi_off info) d + get3 (fst (fst q)) d), snd q).
Definition ex_output (lo hi : V3 Z) (pool : list (chan * list (option Z))) : option (list (V3 Z * Z) * tables) :=
  output (fun q : V3 Z * Z * Z => fst (fst q)) (fun q => snd (fst q)) ex_written select_all tt lo hi 2 ex_dm 2 (grid_ldims ex_dm) ex_prts pool.
Definition ex_messages (lo hi : V3 Z) : option (list (chan * list (option Z))) :=
  messages (fun q : V3 Z * Z * Z => fst (fst q)) (fun q => snd (fst q)) ex_written select_all tt lo hi 2 ex_dm 2 (grid_ldims ex_dm) ex_prts.

Lemma ex_setup : domain_setup CURVE_BYDIM (v3 2 2 1) (v3 4 4 1) (v3 true true true) None 2 = Some ex_dm.
Proof. vm_compute. reflexivity. Qed.

Lemma ex_ok : all_pos (v3 2 2 1) /\ all_pos (v3 4 4 1) /\ counts_valid None (volume (v3 2 2 1)) 2 /\ processes None 2 /\ per_patch ex_dm 2 ex_prts /\
  particles_ok (fun q : V3 Z * Z * Z => fst (fst q)) (fun q => snd (fst q)) ex_dm 2 ex_prts 2.
Proof.
  split; [intros []; cbn; lia|]. split; [intros []; cbn; lia|]. split; [cbn; lia|]. split; [exact I|]. split.
  - intros r Hr. assert (r = 0 \/ r = 1) as [-> | ->] by lia; reflexivity.
  - intros r p info l q Hr Hi Hl Hq. pose proof (aget_bounds _ _ _ Hl) as Hb.
    assert (H2 : forall r, 0 <= r < 2 -> alen (ex_prts r) = 2) by (intros r' Hr'; assert (r' = 0 \/ r' = 1) as [-> | ->] by lia; reflexivity). rewrite H2 in Hb by exact Hr.
    assert (r = 0 \/ r = 1) as [-> | ->] by lia; assert (p = 0 \/ p = 1) as [-> | ->] by lia; cbn in Hi, Hl; injection Hi as <-; injection Hl as <-; cbn in Hq;
      repeat (destruct Hq as [<- |Hq]); try contradiction; (split; [intros []; cbn; lia|cbn; lia]).
Qed.

(** the region of the first three columns meets the hypotheses of C55_output_partial *)
Example C55_example : exists ms f tb te,
  adjust_params (v3 4 4 1) (v3 0 0 0) (v3 3 0 0) = Some (v3 3 4 1) /\ starts_at_patches ex_dm (v3 0 0 0) (v3 3 4 1) /\
  ex_messages (v3 0 0 0) (v3 3 4 1) = Some ms /\ ms <> [] /\ ex_output (v3 0 0 0) (v3 3 4 1) ms = Some (f, (tb, te)) /\
  f = [(v3 0 0 0, 11); (v3 1 1 0, 10); (v3 1 1 0, 12); (v3 2 1 0, 14); (v3 0 2 0, 21); (v3 1 4 1, 20)] /\
  entry (v3 0 0 0) (v3 3 4 1) tb (v3 1 1 0) 1 = Some (Some 1) /\ entry (v3 0 0 0) (v3 3 4 1) te (v3 1 1 0) 1 = Some (Some 3).
Proof.
  do 4 eexists. split; [reflexivity|]. split.
  - intros p info d Hp Hi _. change (patches_of ex_dm 0) with 2 in Hp. assert (p = 0 \/ p = 1) as [-> | ->] by lia; cbn in Hi; injection Hi as <-; destruct d; cbn; lia.
  - split; [vm_compute; reflexivity|]. split; [discriminate|]. split; [vm_compute; reflexivity|]. split; [reflexivity|]. split; vm_compute; reflexivity.
Qed.

(** the region without the first column does not, and there is no file *)
Theorem C55_output_refuted : exists lo hi0 hi, adjust_params (v3 4 4 1) lo hi0 = Some hi /\ (forall d, get3 lo d <= get3 hi d) /\
  (exists ms, ex_messages lo hi = Some ms) /\ forall pool, ex_output lo hi pool = None.
Proof.
  exists (v3 1 0 0), (v3 0 0 0), (v3 4 4 1). split; [reflexivity|]. split; [intros []; cbn; lia|]. split; [eexists; vm_compute; reflexivity|].
  intros pool. destruct ex_ok as (A & B & C & D & E & F).
  apply (C55_region_within_patch _ _ _ _ _ _ _ _ (v3 1 0 0)%Z (v3 0 0 0)%Z (v3 4 4 1)%Z 2 CURVE_BYDIM (v3 2 2 1)%Z (v3 4 4 1)%Z (v3 true true true) None 2 ex_dm ex_prts 0 (inf ex_dm 0 0) D0 pool);
    try assumption; try exact ex_setup; try reflexivity; try lia; try (intros []; cbn; lia).
  - change (patches_of ex_dm 0) with 2. lia.
  - exists (v3 1 0 0)%Z. split; intros []; vm_compute; split; congruence.
Qed.
Print Assumptions C55_output_refuted.

Example C55_select_example : chosen_patches (select_every_nth 3) 0 [[1; 2]; []; [3; 4; 5]; [6; 7]] = [[1]; []; [4]; [7]] /\ every_nth 3 [1; 2; 3; 4; 5; 6; 7] = [1; 4; 7].
Proof. split; reflexivity. Qed.
