(** C37: a checkpoint that is written and read again. *)
From Coq Require Import String.
From Verif Require Import Base Arr DomainModel DomainSpec DdcPrtSpec RestartModel RestartSpec RestartProofs.
Local Open Scope Z_scope.
Local Open Scope list_scope.

(** C37.  If every process has at least one patch, writing a checkpoint succeeds, and whatever the order in which
    the writes of the processes take effect, reading the file gives the same domain and to each process the same patches,
    the same particles in each patch in the same order with all their components, and the same fields in all cells.
    The spacing kept in a patch (dx_) is not in the file; it is what the grid read into had at the same index.
    Missing for the full claim: processes without patches, see below. *)
Theorem C37_restart_partial {T : Type} (c : curve) (np gdims : V3 Z) (per : V3 bool) (pr : option (list Z)) (size : Z) (dm : domain)
  (ibn : V3 Z) (nc : Z) (prt0 : @prt T) (zero : T) (st : Z -> @proc T) (old : Z -> list (@patch T)) :
  all_pos np -> all_pos gdims -> domain_setup c np gdims per pr size = Some dm -> counts_valid pr (volume np) size -> processes pr size ->
  (forall d, 0 <= get3 ibn d) -> 0 <= nc -> 0 <= size ->
  (forall r, 0 <= r < size -> proc_ok dm (gen3 (fun d => get3 gdims d / get3 np d)) ibn nc r (st r)) ->
  exists ws, checkpoint_writes np gdims size ibn nc dm st = Some ws /\
    forall ws', Permutation ws ws' ->
      exists f procs, apply_writes empty_file ws' = Some f /\
        read_checkpoint c np gdims per size ibn nc prt0 zero f old = Some (dm, procs) /\ alen procs = size /\
        forall r s', aget procs r = Some s' ->
          restored (gen3 (fun d => get3 gdims d / get3 np d)) ibn nc (st r) s' /\
          map p_dx (s_patches s') = map (fun p => match aget (old r) p with Some o => p_dx o | None => None end) (zrange 0 (alen (s_patches (st r)))).
Proof.
  intros H1 H2 H3 H4 H5 H6 H7 H8 H9. exists (all_writes np gdims size ibn nc zero st).
  split; [apply (writes_ok c np gdims per pr size dm ibn nc prt0 zero st); assumption|].
  intros ws' HP. destruct (restart c np gdims per pr size dm ibn nc prt0 zero st H1 H2 H3 H4 H5 H6 H7 H9 ws' old HP) as [f [procs [E1 [E2 [E3 E4]]]]].
  exists f, procs. split; [exact E1|]. split; [exact E2|]. split; [lia|]. intros r s' Hr. destruct (E4 r s' Hr) as [A B]. split; [exact A|].
  assert (alen (s_patches s') = alen (s_patches (st r))) as EL.
  { destruct A as [A _]. apply (f_equal alen) in A. rewrite !alen_map in A. exact A. }
  apply alist_ext; [rewrite !alen_map, alen_zrange by apply alen_nonneg; lia|].
  intros i Hi. rewrite alen_map in Hi. destruct (aget_some _ _ Hi) as [q Hq]. rewrite !aget_map, aget_zrange, Hq.
  replace ((0 <=? i) && (i <? alen (s_patches (st r)) - 0)) with true by lia. cbn [option_map]. rewrite (B i q Hq). reflexivity.
Qed.
Print Assumptions C37_restart_partial.

(** *** An example: six cells in three patches, two processes, the first without particles in one patch *)
Definition ex_np := v3 3 1 1.
Definition ex_gdims := v3 6 1 1.
Definition ex_ibn := v3 1 0 0.
Definition ex_patch (p : Z) : @patch Z := Patch (v3 (2 * p) 0 0) (v3 (20 * p) 0 0) (v3 (20 * p + 20) 1 1) (Some (v3 10 1 1)).
Definition ex_prt (i : Z) : @prt Z := Prt (v3 i (i + 1) (i + 2)) (v3 (- i) (2 * i) (3 * i)) (i mod 2) (7 * i).
Definition ex_prt0 : @prt Z := Prt (v3 0 0 0) (v3 0 0 0) 0 0.
Definition ex_fld (p : Z) : list Z := map (fun i => 100 * p + i) (zrange 0 8).
Definition ex_st (r : Z) : @proc Z :=
  if r =? 0 then Proc [ex_patch 0] [[]] [ex_fld 0]
  else Proc [ex_patch 1; ex_patch 2] [[ex_prt 1; ex_prt 2]; [ex_prt 5]] [ex_fld 1; ex_fld 2].
Definition ex_pr := Some [1; 2].

Ltac cases3 := intros []; vm_compute; repeat split; first [discriminate|reflexivity].

Example C37_restart_ex : exists dm, domain_setup CURVE_BYDIM ex_np ex_gdims (v3 true false false) ex_pr 2 = Some dm /\
  all_pos ex_np /\ all_pos ex_gdims /\ counts_valid ex_pr (volume ex_np) 2 /\ processes ex_pr 2 /\ (forall d, 0 <= get3 ex_ibn d) /\
  forall r, 0 <= r < 2 -> proc_ok dm (gen3 (fun d => get3 ex_gdims d / get3 ex_np d)) ex_ibn 2 r (ex_st r).
Proof.
  eexists. split; [vm_compute; reflexivity|].
  split; [cases3|]. split; [cases3|]. split; [split; [repeat constructor; lia|reflexivity]|]. split; [reflexivity|]. split; [cases3|].
  intros r Hr. assert (r = 0 \/ r = 1) as [-> | ->] by lia.
  - exists 1. split; [reflexivity|]. split; [lia|]. do 3 (split; [reflexivity|]). split.
    + intros p q info Hq. pose proof (aget_bounds _ _ _ Hq) as B. unfold alen in B. cbn in B. assert (p = 0) as -> by lia.
      vm_compute in Hq. injection Hq as <-. vm_compute. intros E. injection E as <-. reflexivity.
    + repeat constructor.
  - exists 2. split; [reflexivity|]. split; [lia|]. do 3 (split; [reflexivity|]). split.
    + intros p q info Hq. pose proof (aget_bounds _ _ _ Hq) as B. unfold alen in B. cbn in B. assert (p = 0 \/ p = 1) as [-> | ->] by lia;
      vm_compute in Hq; injection Hq as <-; vm_compute; intros E; injection E as <-; reflexivity.
    + repeat constructor.
Qed.

(** the default distribution is 2 patches and 1 patch *)
Definition ex_old (r : Z) : list (@patch Z) := if r =? 0 then [ex_patch 0; ex_patch 1] else [ex_patch 2].

Definition ex_roundtrip (pr : option (list Z)) (st : Z -> @proc Z) (old : Z -> list patch) : option (list (@proc Z)) :=
  match domain_setup CURVE_BYDIM ex_np ex_gdims (v3 true false false) pr 2 with
  | Some dm =>
      match checkpoint_writes ex_np ex_gdims 2 ex_ibn 2 dm st with
      | Some ws => match apply_writes empty_file ws with
                   | Some f => option_map snd (read_checkpoint CURVE_BYDIM ex_np ex_gdims (v3 true false false) 2 ex_ibn 2 ex_prt0 (-1) f old)
                   | None => None
                   end
      | None => None
      end
  | None => None
  end.

(** the particles come back, also the cells of the fields; the ghost points have the initial value of new fields *)
Example C37_restart_run : option_map (map (fun s => (s_prts s, s_flds s))) (ex_roundtrip ex_pr ex_st (fun r => s_patches (ex_st r))) =
  Some [ ([[]], [[-1; 1; 2; -1; -1; 5; 6; -1]]);
         ([[ex_prt 1; ex_prt 2]; [ex_prt 5]], [[-1; 101; 102; -1; -1; 105; 106; -1]; [-1; 201; 202; -1; -1; 205; 206; -1]]) ].
Proof. vm_compute. reflexivity. Qed.

(** C37, finding: Grid::Patch::dx_ is not written and not recomputed (grid.inl:218-232).  A checkpoint with more patches on a process than
    the grid has that it is read into, here the one with the default distribution, leaves dx_ of the other patches uninitialised. *)
Theorem C37_spacing_refuted : exists (st : Z -> @proc Z) (old : Z -> list (@patch Z)) dm,
  domain_setup CURVE_BYDIM ex_np ex_gdims (v3 true false false) ex_pr 2 = Some dm /\
  (forall r, 0 <= r < 2 -> proc_ok dm (gen3 (fun d => get3 ex_gdims d / get3 ex_np d)) ex_ibn 2 r (st r)) /\
  (forall r, Forall (fun p => p_dx p <> None) (s_patches (st r) ++ old r)) /\
  exists procs s' q, ex_roundtrip ex_pr st old = Some procs /\ aget procs 1 = Some s' /\ aget (s_patches s') 1 = Some q /\ p_dx q = None.
Proof.
  destruct C37_restart_ex as [dm [E [_ [_ [_ [_ [_ H]]]]]]]. exists ex_st, ex_old, dm. split; [exact E|]. split; [exact H|]. split.
  - intros r. unfold ex_st, ex_old. destruct (r =? 0); repeat constructor; discriminate.
  - do 3 eexists. split; [vm_compute; reflexivity|]. split; [vm_compute; reflexivity|]. split; vm_compute; reflexivity.
Qed.
Print Assumptions C37_spacing_refuted.

(** C37, finding: with a process that has no patches the checkpoint cannot be written: localPatchInfo(0) fails an assertion or
    the first element of an empty vector is accessed (VariableByPatch.h:21-24). *)
Theorem C37_no_patches_refuted : exists (pr : option (list Z)) (size : Z) (st : Z -> @proc Z) dm,
  domain_setup CURVE_BYDIM ex_np ex_gdims (v3 true false false) pr size = Some dm /\ counts_valid pr (volume ex_np) size /\ processes pr size /\
  (forall r, 0 <= r < size -> exists n, nr_patches dm r = Some n /\ alen (s_patches (st r)) = n /\ alen (s_prts (st r)) = n /\ alen (s_flds (st r)) = n) /\
  checkpoint_writes ex_np ex_gdims size ex_ibn 2 dm st = None.
Proof.
  exists (Some [3; 0]), 2, (fun r => if r =? 0 then Proc (map ex_patch [0; 1; 2]) [[]; []; []] (map ex_fld [0; 1; 2]) else Proc [] [] []).
  eexists. split; [vm_compute; reflexivity|]. split; [split; [repeat constructor; lia|reflexivity]|]. split; [reflexivity|]. split.
  - intros r Hr. assert (r = 0 \/ r = 1) as [-> | ->] by lia; eexists; (split; [vm_compute; reflexivity|]); repeat split.
  - vm_compute. reflexivity.
Qed.
Print Assumptions C37_no_patches_refuted.
