(** C62: the CUDA kernels process every block of every patch, and every particle, once.
    C63: whatever the order of the threads, the push leaves the current of all particles. *)
From Coq Require Import Reals Lra Psatz Permutation.
From Coquelicot Require Import Coquelicot.
From Verif Require Import Base Arr RSum FieldModel FieldSpec DepositModel DepositSpec DepositProofs CurrentModel CurrentProofs DepositProps AvgSpec AvgProofs CudaCurrModel CudaCurrProofs AvgProps
  CudaPrtModel CudaPrtSpec CudaPrtProofs CudaLaunchModel CudaLaunchSpec CudaLaunchProofs CudaSharedProofs CudaPushProofs GhostProofs.
Local Open Scope Z_scope.

(** ** C62 *)

Theorem C62_simple : forall g, geom_ok g -> each_once (all_blocks g) (simple_blocks g).
Proof. exact simple_once. Qed.
Print Assumptions C62_simple.

Theorem C62_simple2 : forall g, geom_ok g -> each_once (all_blocks g) (simple2_blocks g) /\
  (g_yz g = true -> each_once (all_blocks g) (simple2_yz_blocks g)).
Proof. intros g ok. split; [apply simple2_once; exact ok|apply simple2_yz_once; exact ok]. Qed.
Print Assumptions C62_simple2.

(** also with odd numbers of blocks, which the code doubts *)
Theorem C62_q : forall g, geom_ok g -> g_yz g = true ->
  each_once (all_blocks g) (flat_map (q_blocks g) q_starts) /\
  forall start, In start q_starts -> each_once (blocks_of_start g start) (q_blocks g start).
Proof.
  intros g ok Hyz. split; [apply q_all_once; assumption|]. intros s Hs. apply in_zrange in Hs. apply q_blocks_once; assumption.
Qed.
Print Assumptions C62_q.

(** the slots of a block, over the threads *)
Theorem C62_threads : forall nt lo hi, 0 < nt -> 0 <= lo -> Permutation (flat_map (in_block_loop nt lo hi) (zrange 0 nt)) (zrange lo hi).
Proof. exact in_block_loop_perm. Qed.
Print Assumptions C62_threads.

(** the full statement is that of C62_simple for BlockSimple<BS, dim_yz>.  What is missing: patches
    with different numbers of blocks along y and z, for which it is false (below) *)
Theorem C62_simple_yz_partial : forall g, geom_ok g -> g_yz g = true -> nblk g D1 = nblk g D2 -> each_once (all_blocks g) (simple_yz_blocks g).
Proof. exact simple_yz_once. Qed.
Print Assumptions C62_simple_yz_partial.

(** two patches of 8 x 4 cells: the last block is not processed, the second one twice, the second
    time as if in the other patch; one patch of 4 x 8 cells: the offsets are read beyond their end *)
Theorem C62_simple_yz_refuted :
  (exists g, geom_ok g /\ g_yz g = true /\ is_pos g 1 (v3 0 1 0) /\ ~ In (block_no g 1 (v3 0 1 0)) (map k_bid (simple_yz_blocks g)) /\
     exists b, In b (simple_yz_blocks g) /\ k_bid b = block_no g 0 (v3 0 1 0) /\ k_p b = 1) /\
  (exists g b, geom_ok g /\ g_yz g = true /\ In b (simple_yz_blocks g) /\ n_blocks g + 1 <= k_bid b + 1).
Proof.
  split.
  - exists (mkgeom (v3 1 4 4) (v3 1 8 4) 2 true). split; [|split; [reflexivity|]].
    { constructor; cbn; try lia; try (intros []; cbn; lia).
      intros []; cbn; [exists 1|exists 2|exists 1]; reflexivity. }
    split; [split; [cbn; lia|intros []; cbn; lia]|]. split; [intros H; vm_compute in H; intuition discriminate|].
    exists (mkblk 1 1 (v3 0 0 0)). split; [vm_compute; tauto|]. split; reflexivity.
  - exists (mkgeom (v3 1 4 4) (v3 1 4 8) 1 true), (mkblk 2 0 (v3 0 0 4)). split; [|split; [reflexivity|]].
    { constructor; cbn; try lia; try (intros []; cbn; lia).
      intros []; cbn; [exists 1|exists 1|exists 2]; reflexivity. }
    split; [vm_compute; tauto|]. vm_compute. discriminate.
Qed.
Print Assumptions C62_simple_yz_refuted.

(** 3 x 2 blocks in each of two patches, and a block of the particles 45 to 600 *)
Example ex_C62 : let g := mkgeom (v3 1 4 4) (v3 1 12 8) 2 true in let h := mkgeom (v3 4 4 4) (v3 8 12 4) 3 false in
  geom_ok g /\ geom_ok h /\ length (simple_blocks h) = 18%nat /\ length (simple2_blocks h) = 18%nat /\
  map k_bid (q_blocks g 0) = [0; 2; 6; 8] /\ map k_bid (q_blocks g 1) = [1; 7] /\ map k_p (q_blocks g 3) = [0; 1] /\
  in_block_loop 512 45 600 20 = [52; 564] /\ in_block_loop 512 45 600 3 = [547] /\
  geom_ok (mkgeom (v3 1 4 4) (v3 1 8 8) 2 true) /\ map k_bid (simple_yz_blocks (mkgeom (v3 1 4 4) (v3 1 8 8) 2 true)) = zrange 0 8.
Proof.
  repeat match goal with |- _ /\ _ => split | |- let _ := _ in _ => intros g; cbv zeta end; try (vm_compute; reflexivity).
  - constructor; cbn; try lia; try (intros []; cbn; lia). intros []; cbn; [exists 1|exists 3|exists 2]; reflexivity.
  - constructor; cbn; try lia; try (intros []; cbn; lia); try discriminate. intros []; cbn; [exists 2|exists 3|exists 1]; reflexivity.
  - constructor; cbn; try lia; try (intros []; cbn; lia). intros []; cbn; [exists 1|exists 2|exists 2]; reflexivity.
Qed.

(** ** C63 *)

Local Open Scope R_scope.

Section Current.
(** particles: where they are, in units of the spacing from the corner of their patch, their charge,
    and the velocity they have after the push of their momentum by the field of their patch *)
Context {P : Type} (posn : P -> V3 R) (chg : P -> R) (vel : Z -> P -> V3 R).

(** the cell a particle is in *)
Definition cell_of (x : P) : V3 Z := gen3 (fun d => fint (get3 (posn x) d)).

(** charge density on the nodes of patch p of its particles at the positions [at_] *)
Definition patch_charge (cg : cgrid) (inv : V3 bool) (S : list (Z * P)) (at_ : Z -> P -> V3 R) (p : Z) (n : V3 Z) : R :=
  rsum (map (fun w => if (fst w =? p)%Z then charge cg (chg (snd w)) inv (at_ p (snd w)) n else 0) S).

(** what the push is to leave in the current: the charge density is carried by it, and it is the
    average over the step of the particles' currents *)
Definition carried (cg : cgrid) (inv : V3 bool) (S : list (Z * P)) (F : jfield) : Prop := forall p n,
  (patch_charge cg inv S (fun p x => arrival cg (vel p x) (posn x)) p n - patch_charge cg inv S (fun _ x => posn x) p n) / cg_dt cg +
  div_minus inv (cg_dx cg) (F p) n = 0.

Definition averaged (cg : cgrid) (inv : V3 bool) (S : list (Z * P)) (F : jfield) (d : dim3) : Prop := forall p n,
  F p d n = rsum (map (fun w => if (fst w =? p)%Z
    then RInt (current_at cg (chg (snd w)) inv (posn (snd w)) (displacement cg inv (vel p (snd w)) (posn (snd w)) (arrival cg (vel p (snd w)) (posn (snd w)))) d n) 0 1
    else 0) S).

(** no particle moves by more than a cell *)
Definition all_short (cg : cgrid) (inv : V3 bool) (S : list (Z * P)) : Prop := forall p x, In (p, x) S -> short_step inv (posn x) (arrival cg (vel p x) (posn x)).

Lemma div_minus_zero inv h n : div_minus inv h (fun _ _ => 0) n = 0.
Proof. unfold div_minus, dminus. unfold Rdiv. destruct (get3 inv D0), (get3 inv D1), (get3 inv D2); ring. Qed.

Lemma div_minus_rsum inv h {A} (f : A -> current) l n : div_minus inv h (fun d m => rsum (map (fun a => f a d m) l)) n = rsum (map (fun a => div_minus inv h (f a) n) l).
Proof.
  induction l as [|a l IH]; cbn [map].
  - apply div_minus_zero.
  - rewrite rsum_cons, <- IH, <- div_minus_plus. apply div_minus_ext. intros d m. apply rsum_cons.
Qed.

Lemma carried_of cg inv S jof F : (forall p x, In (p, x) S -> conserves cg (chg x) inv (posn x) (arrival cg (vel p x) (posn x)) (jof p x)) ->
  (forall p d n, F p d n = current_of jof S p d n) -> carried cg inv S F.
Proof.
  intros H E p n. rewrite (div_minus_ext inv _ _ (fun d m => rsum (map (fun w => (if (fst w =? p)%Z then cadd_all (fun _ _ => 0) (jof p (snd w)) else fun _ _ => 0) d m) S))).
  2:{ intros d m. rewrite E. unfold current_of. apply rsum_ext. intros w _. destruct (fst w =? p)%Z; reflexivity. }
  rewrite div_minus_rsum. unfold patch_charge, Rdiv. rewrite Rmult_minus_distr_r, !(Rmult_comm _ (/ cg_dt cg)), <- !rsum_mul.
  assert (X : forall a b c : R, a + c = b -> a - b + c = 0) by (intros a b c <-; ring). apply X. clear X. rewrite <- rsum_plus. apply rsum_ext. intros [q x] Hw. cbn [fst snd].
  destruct (q =? p)%Z eqn:Eq; [|rewrite div_minus_zero; ring]. apply Z.eqb_eq in Eq. subst q.
  pose proof (H p x Hw (fun _ _ => 0) n) as K. rewrite div_minus_zero in K. unfold Rdiv in K. clear - K.
  assert (Y : forall a b t d : R, (a - b) * t + (d - 0) = 0 -> t * a + d = t * b) by (clear; intros; lra). apply Y. exact K.
Qed.

Lemma averaged_of cg inv S jof F d : (forall p x, In (p, x) S -> averages cg (chg x) inv (posn x) (displacement cg inv (vel p x) (posn x) (arrival cg (vel p x) (posn x))) (jof p x) d) ->
  (forall p d n, F p d n = current_of jof S p d n) -> averaged cg inv S F d.
Proof.
  intros H E p n. rewrite E. unfold current_of. apply rsum_ext. intros [q x] Hw. cbn [fst snd]. destruct (q =? p)%Z eqn:Eq; [|reflexivity]. apply Z.eqb_eq in Eq. subst q.
  destruct (H p x Hw n) as (a & Ia & Ea). rewrite Ea, (is_RInt_unique _ _ _ _ Ia). ring.
Qed.

(** the particle is in the cells of its block *)
Lemma in_its_block g cg ci0 x inv v (ok : geom_ok g) : ci0 = gen3 (fun d => get3 (blkpos g (cell_of x)) d * get3 (g_bs g) d)%Z -> short_step inv (posn x) (arrival cg v (posn x)) ->
  (forall e, get3 inv e = false -> IZR (get3 ci0 e) <= get3 (posn x) e < IZR (get3 ci0 e + get3 (g_bs g) e)) /\ short_step inv (posn x) (arrival cg v (posn x)).
Proof.
  intros -> Hs. split; [|exact Hs]. intros e _. rewrite get3_gen3. unfold blkpos. rewrite get3_gen3. unfold cell_of. rewrite get3_gen3.
  pose proof (floor_spec (get3 (posn x) e)) as B. set (k := fint (get3 (posn x) e)) in *. pose proof (go_bs g ok e) as Hb.
  pose proof (Z.div_mod k (get3 (g_bs g) e) ltac:(lia)) as D. pose proof (Z.mod_pos_bound k (get3 (g_bs g) e) ltac:(lia)) as M. set (b := get3 (g_bs g) e) in *.
  assert (L : (k / b * b <= k)%Z) by lia. assert (U : (k + 1 <= k / b * b + b)%Z) by lia. apply IZR_le in L, U. rewrite plus_IZR in U. lra.
Qed.

(** calc_j of the kernel for dim_yz and for dim_xyz *)
Definition calc_yz (dep : deposit) (cg : cgrid) (p : Z) (ci0 : V3 Z) (x : P) : option (list entry) := Some (cu_calc_j_yz dep cg ci0 (chg x) (posn x) (vel p x)).
Definition calc_xyz (fuel : nat) (cg : cgrid) (p : Z) (ci0 : V3 Z) (x : P) : option (list entry) := cu_calc_j_xyz fuel cg ci0 (chg x) (posn x) (vel p x).

Theorem C63_shared : forall dep cg g ibn (c : cm P) S F r, let inv := invar_of dim_yz in
  geom_ok g -> g_yz g = true -> (3 <= c1 (g_bs g))%Z -> (3 <= c2 (g_bs g))%Z -> ((c1 (g_bs g) + 3) * (c2 (g_bs g) + 3) <= 512)%Z ->
  (0 <= c0 ibn /\ 2 <= c1 ibn /\ 2 <= c2 ibn)%Z -> wf_cg cg -> represents cell_of g c S -> S <> [] -> all_short cg inv S ->
  (exists r, push_runs (calc_yz dep cg) g ibn c F r) /\
  (push_runs (calc_yz dep cg) g ibn c F r -> exists F', r = Some F' /\ carried cg inv S F' /\ averaged cg inv S F' D1 /\ averaged cg inv S F' D2 /\
    forall p d n, F' p d n = current_of (fun p x => cu_calc_j_yz dep cg (gen3 (fun d => get3 (blkpos g (cell_of x)) d * get3 (g_bs g) d)%Z) (chg x) (posn x) (vel p x)) S p d n).
Proof.
  intros dep cg g ibn c S F r inv ok Hyz B1 B2 Hs Hibn Hg rep HS Hsh.
  set (jof := fun p x => cu_calc_j_yz dep cg (gen3 (fun d => get3 (blkpos g (cell_of x)) d * get3 (g_bs g) d)%Z) (chg x) (posn x) (vel p x)).
  assert (HC : forall p x, In (p, x) S -> calc_yz dep cg p (k_ci0 (block_at g p (blkpos g (cell_of x)))) x = Some (jof p x)) by (intros; reflexivity).
  assert (small : (stride_y g * stride_z g <= tpb)%Z) by (unfold stride_y, stride_z, tpb; replace (c1 (g_bs g) + 1 + 2)%Z with (c1 (g_bs g) + 3)%Z by ring; replace (c2 (g_bs g) + 1 + 2)%Z with (c2 (g_bs g) + 3)%Z by ring; exact Hs).
  split; [eapply push_runs_exist; eassumption|]. intros H.
  destruct (push_ok_shared cell_of g ok ibn c S rep (calc_yz dep cg) jof HC Hyz small (conj B1 B2) Hibn) with (F := F) (r := r) as (F' & -> & E); [|exact HS|exact H|].
  - intros p x e Hx He. cbv zeta. set (ci0 := k_ci0 _).
    destruct (C61_near_block 4 dep cg ci0 (g_bs g) (chg x) (posn x) (vel p x) (Nat.le_refl 4) Hg) as [N _].
    assert (N' := N (in_its_block g cg ci0 x inv (vel p x) ok eq_refl (Hsh p x Hx))). rewrite Forall_forall in N'. specialize (N' e He).
    pose proof (N' D0) as X0. pose proof (N' D1) as X1. pose proof (N' D2) as X2. cbn [get3 invar_of c0 c1 c2] in X0, X1, X2. lia.
  - exists F'. split; [reflexivity|]. split; [|split; [|split; [|exact E]]].
    + apply (carried_of cg inv S jof F'); [|exact E]. intros p x Hx. unfold jof. apply C61_continuity_yz; [exact Hg|exact (Hsh p x Hx)].
    + apply (averaged_of cg inv S jof F'); [|exact E]. intros p x Hx. unfold jof. apply C61_yz_partial; [exact Hg|exact (Hsh p x Hx)|discriminate].
    + apply (averaged_of cg inv S jof F'); [|exact E]. intros p x Hx. unfold jof. apply C61_yz_partial; [exact Hg|exact (Hsh p x Hx)|discriminate].
Qed.

Theorem C63_global : forall fuel cg g ibn (c : cm P) S F r, let inv := invar_of dim_xyz in (4 <= fuel)%nat ->
  geom_ok g -> (forall d, 2 <= get3 ibn d)%Z -> wf_cg cg -> represents cell_of g c S -> S <> [] -> all_short cg inv S ->
  (exists r, push_global_runs (calc_xyz fuel cg) g ibn c F r) /\
  (push_global_runs (calc_xyz fuel cg) g ibn c F r -> exists F', r = Some F' /\ carried cg inv S F' /\ (forall d, averaged cg inv S F' d) /\
    forall p d n, F' p d n = current_of (fun p x => match cu_calc_j_xyz fuel cg (gen3 (fun d => get3 (blkpos g (cell_of x)) d * get3 (g_bs g) d)%Z) (chg x) (posn x) (vel p x) with Some l => l | None => [] end) S p d n).
Proof.
  intros fuel cg g ibn c S F r inv Hf ok Hibn Hg rep HS Hsh. split; [apply push_global_exist|]. intros H.
  set (jof := fun p x => match calc_xyz fuel cg p (k_ci0 (block_at g p (blkpos g (cell_of x)))) x with Some l => l | None => [] end).
  assert (HX : forall p x, In (p, x) S -> exists l, calc_xyz fuel cg p (k_ci0 (block_at g p (blkpos g (cell_of x)))) x = Some l /\ jof p x = l /\
    conserves cg (chg x) inv (posn x) (arrival cg (vel p x) (posn x)) l /\
    (forall d, averages cg (chg x) inv (posn x) (displacement cg inv (vel p x) (posn x) (arrival cg (vel p x) (posn x))) l d) /\
    Forall (near_block inv (k_ci0 (block_at g p (blkpos g (cell_of x)))) (g_bs g)) l).
  { intros p x Hx. set (ci0 := k_ci0 _). destruct (C61_xyz fuel cg ci0 (chg x) (posn x) (vel p x) Hf Hg (Hsh p x Hx)) as (l & El & A & B).
    exists l. split; [exact El|]. split; [unfold jof; fold ci0; unfold calc_xyz; rewrite El; reflexivity|]. split; [exact A|]. split; [exact B|].
    destruct (C61_near_block fuel vb_3d cg ci0 (g_bs g) (chg x) (posn x) (vel p x) Hf Hg) as [_ N].
    destruct (N (in_its_block g cg ci0 x inv (vel p x) ok eq_refl (Hsh p x Hx))) as (l' & El' & N'). assert (l' = l) by congruence. subst l'. exact N'. }
  assert (HC : forall p x, In (p, x) S -> calc_xyz fuel cg p (k_ci0 (block_at g p (blkpos g (cell_of x)))) x = Some (jof p x)).
  { intros p x Hx. destruct (HX p x Hx) as (l & El & -> & _). exact El. }
  destruct (push_ok_global cell_of g ok ibn c S rep (calc_xyz fuel cg) jof HC) with (F := F) (r := r) as (F' & -> & E); [|exact HS|exact H|].
  - intros p x e Hx He. destruct (HX p x Hx) as (l & _ & Ej & _ & _ & N). rewrite Ej in He. rewrite Forall_forall in N. specialize (N e He).
    destruct rep as (_ & RI & _). destruct (RI _ Hx) as [Hp Hc]. cbn [fst snd] in Hp, Hc. pose proof (blkpos_range g ok _ Hc) as Q.
    unfold in_field. rewrite !Bool.andb_true_iff, Z.leb_le, Z.ltb_lt, forallb_forall. split; [exact Hp|]. intros d _. rewrite Bool.andb_true_iff, Z.leb_le, Z.ltb_lt.
    pose proof (N d) as X. replace (get3 inv d) with false in X by (destruct d; reflexivity). cbn [block_at k_ci0] in X. rewrite get3_gen3 in X.
    pose proof (nblk_bs g ok d _ (Q d)) as L. specialize (Hibn d). lia.
  - exists F'. split; [reflexivity|]. split; [|split; [|exact E]].
    + apply (carried_of cg inv S jof F'); [|exact E]. intros p x Hx. destruct (HX p x Hx) as (l & _ & -> & A & _). exact A.
    + intros d. apply (averaged_of cg inv S jof F'); [|exact E]. intros p x Hx. destruct (HX p x Hx) as (l & _ & -> & _ & A & _). apply A.
Qed.
End Current.
Print Assumptions C63_shared.
Print Assumptions C63_global.

(** two particles, of opposite charge, in the two blocks of a patch, stored in the other order (as
    after the boundary exchange); one crosses a cell boundary in y *)
Definition ex63_g : geom := mkgeom (v3 1 4 4)%Z (v3 1 8 4)%Z 1 true.
Definition ex63_pos (k : bool) : V3 R := if k then v3 (1 / 2) (21 / 4) (1 / 2) else ex_xm.
Definition ex63_c : cm bool := mkcm [true; false] [] [] [1; 0]%Z [0; 1; 2]%Z 2 true.
Definition ex63_S : list (Z * bool) := [(0, false); (0, true)]%Z.

Example ex_C63 : geom_ok ex63_g /\ wf_cg ex_cg /\ represents (cell_of ex63_pos) ex63_g ex63_c ex63_S /\
  all_short ex63_pos (fun _ _ => ex_cv) ex_cg (invar_of dim_yz) ex63_S /\ all_short ex63_pos (fun _ _ => ex_cv) ex_cg (invar_of dim_xyz) ex63_S /\
  map k_bid (q_blocks ex63_g 0) = [0%Z] /\ map k_bid (q_blocks ex63_g 1) = [1%Z] /\ map k_bid (q_blocks ex63_g 2) = [] /\
  cell_of ex63_pos true = (v3 0 5 0)%Z.
Proof.
  assert (C0 : cell_of ex63_pos false = (v3 0 0 0)%Z) by (apply v3_ext; intros d; unfold cell_of; rewrite get3_gen3; apply fint_unique; destruct d; cbn; lra).
  assert (C1 : cell_of ex63_pos true = (v3 0 5 0)%Z) by (apply v3_ext; intros d; unfold cell_of; rewrite get3_gen3; apply fint_unique; destruct d; cbn; lra).
  split; [constructor; cbn; try lia; try (intros []; cbn; lia); intros []; cbn; [exists 1%Z|exists 2%Z|exists 1%Z]; reflexivity|].
  split; [apply ex_C24|]. split.
  { split; [reflexivity|]. split.
    { intros w [<-|[<-|[]]]; (split; [cbn; lia|]); cbn [snd]; rewrite ?C0, ?C1; intros []; cbn; lia. }
    intros p b Hp Hb. pose proof (Hb D0) as H0. pose proof (Hb D1) as H1. pose proof (Hb D2) as H2. destruct b as [b0 b1 b2].
    change (nblk ex63_g D0) with 1%Z in H0. change (nblk ex63_g D1) with 2%Z in H1. change (nblk ex63_g D2) with 1%Z in H2. cbn [get3 c0 c1 c2] in H0, H1, H2. cbn [ex63_g g_np] in Hp.
    assert (p = 0)%Z as -> by lia. assert (b0 = 0)%Z as -> by lia. assert (b2 = 0)%Z as -> by lia. assert (b1 = 0 \/ b1 = 1)%Z as [-> | ->] by lia.
    - exists [false]. split.
      + exists 0%Z, 1%Z. split; [reflexivity|]. split; [reflexivity|]. split; [lia|]. split; [cbn; lia|]. split; [reflexivity|].
        intros i Hi. assert (i = 0)%Z as -> by lia. cbn [c_re ex63_c]. exists 1%Z. split; reflexivity.
      + unfold ex63_S. cbn [filter fst snd]. rewrite C0, C1. vm_compute. apply Permutation_refl.
    - exists [true]. split.
      + exists 1%Z, 2%Z. split; [reflexivity|]. split; [reflexivity|]. split; [lia|]. split; [cbn; lia|]. split; [reflexivity|].
        intros i Hi. assert (i = 0)%Z as -> by lia. cbn [c_re ex63_c]. exists 0%Z. split; reflexivity.
      + unfold ex63_S. cbn [filter fst snd]. rewrite C0, C1. vm_compute. apply Permutation_refl. }
  split; [|split].
  - intros p x [E|[E|[]]]; injection E as <- <-; intros e He; unfold arrival; rewrite get3_gen3; destruct e; try discriminate He; cbn; apply Rabs_le; lra.
  - intros p x [E|[E|[]]]; injection E as <- <-; intros e He; unfold arrival; rewrite get3_gen3; destruct e; try discriminate He; cbn; apply Rabs_le; lra.
  - split; [vm_compute; reflexivity|]. split; [vm_compute; reflexivity|]. split; [vm_compute; reflexivity|]. exact C1.
Qed.
