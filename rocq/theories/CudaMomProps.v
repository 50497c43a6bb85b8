(** C65: moments of the particles on the GPU. *)
From Coq Require Import Reals Lra Permutation String.
From Flocq Require Import Core.
From Verif Require Import Base Arr RSum DomainModel DomainSpec BndPrtModel DdcPrtModel DdcPrtSpec DdcPrtProofs GhostModel GhostSpec GhostProofs FieldModel DepositModel DepositSpec DepositProofs GaussModel GaussSpec GaussProofs MomentModel MomentSpec MomentProofs MomentProps CudaPrtModel CudaPrtSpec CudaLaunchModel CudaMomModel CudaMomSpec CudaMomProofs.
Local Open Scope Z_scope.

Lemma of_patch_tag g bufs p b : alen bufs = g_np g -> aget bufs p = Some b -> of_patch (tag g bufs) p = b.
Proof.
  intros HN E. unfold of_patch, tag. pose proof (aget_bounds _ _ _ E) as B. rewrite HN in B.
  rewrite (CollisionProofs.zrange_split 0 p (g_np g)) by lia. rewrite (zrange_cons p (g_np g)) by lia.
  assert (N : forall l, (forall q, In q l -> q <> p) -> filter (fun w => fst w =? p) (concat (map (fun p0 => match aget bufs p0 with Some l0 => map (fun x => (p0, x)) l0 | None => [] end) l)) = []).
  { induction l as [|q l IH]; intros H; [reflexivity|]. cbn [map concat]. rewrite filter_app, IH by (intros; apply H; right; assumption). rewrite app_nil_r.
    destruct (aget bufs q) as [l0|]; [|reflexivity]. specialize (H q (or_introl eq_refl)). induction l0 as [|x l0 IH0]; [reflexivity|]. cbn [map filter fst]. replace (q =? p) with false by lia. exact IH0. }
  rewrite map_app, concat_app, filter_app. cbn [map concat]. rewrite filter_app, E.
  rewrite !N; [|intros q Hq; apply in_zrange in Hq; lia|intros q Hq; apply in_zrange in Hq; lia]. rewrite app_nil_r. cbn [app].
  clear. induction b as [|x b IH]; [reflexivity|]. cbn [map filter fst]. rewrite Z.eqb_refl. cbn [map snd]. f_equal. exact IH.
Qed.

(** One process, particles in any order in memory, threads in any order: the kernel succeeds, leaves
    the particles in the store, and adds to each patch what the CPU code adds for the patch's particles. *)
Theorem C65_process_partial : forall S g t ks c bufs F, let m := fst (same_as t) in let s := snd (same_as t) in
  geom_ok g -> s_dim S = (if g_yz g then dim_yz else dim_xyz) -> g_ldims g = grid_ldims (s_dm S) -> (forall d, (0 < get3 (spacing S) d)%R) ->
  (forall d, if get3 (invar_of (s_dim S)) d then get3 (s_ibn S) d = 0 else 1 <= get3 (s_ibn S) d) ->
  (forall k, In k ks -> k_q k <> 0%R) -> alen ks <= 4 -> (g_yz g = true -> nblk g D1 = nblk g D2) ->
  alen bufs = g_np g -> represents (mp_cell S) g c (tag g bufs) ->
  (forall b x, In b bufs -> In x b -> 0 <= mp_kind x < alen ks /\ forall d, (0 <= get3 (mp_x x) d < IZR (get3 (g_ldims g) d) * get3 (spacing S) d)%R) ->
  (exists r, cu_moment_runs g (cu_dxi S) (s_fnqs S) (s_ibn S) t ks c F r) /\
  forall r, cu_moment_runs g (cu_dxi S) (s_fnqs S) (s_ibn S) t ks c F r ->
    exists c' F', r = Some (c', F') /\ represents (mp_cell S) g c' (tag g bufs) /\
      forall p b, aget bufs p = Some b -> exists f, moment_patch S s (n_comps m ks) m ks b (fun k i => F p k (gen3 (fun d => get3 i d + get3 (item_ib S) d))) = Some f /\
        forall k i, F' p k i = f k (gen3 (fun d => get3 i d - get3 (item_ib S) d)).
Proof.
  intros S g t ks c bufs F m s ok Hdim Hld Hsp Hibn Hks H4 Hsq HN rep Hin.
  assert (Hib' : forall d, 0 <= get3 (s_ibn S) d /\ (get3 (invar_of (s_dim S)) d = false -> 1 <= get3 (s_ibn S) d)).
  { intros d. specialize (Hibn d). destruct (get3 (invar_of (s_dim S)) d); [split; [lia|discriminate]|split; [lia|intros _; lia]]. }
  assert (Hin' : forall w, In w (tag g bufs) -> prt_in S g ks (snd w)).
  { intros w Hw. unfold tag in Hw. apply in_concat in Hw. destruct Hw as (l & Hl & Hw). apply in_map_iff in Hl. destruct Hl as (p & <- & _). destruct (aget bufs p) as [b|] eqn:E; [|destruct Hw].
    apply in_map_iff in Hw. destruct Hw as (x & <- & Hx). cbn [snd]. exact (Hin b x (aget_In _ _ _ E) Hx). }
  destruct (run_ok S g t ks ok Hdim Hsp Hib' Hks H4 Hsq c (tag g bufs) rep Hin' F) as [EX RUN]. split; [exact EX|].
  intros r Hr. destruct (RUN r Hr) as (c' & F' & -> & R' & V). exists c', F'. split; [reflexivity|]. split; [exact R'|]. intros p b E.
  assert (W : wf_ib (s_dim S) (item_ib S)).
  { intros d E'. unfold item_ib. rewrite get3_gen3. specialize (Hibn d). rewrite E' in Hibn. lia. }
  assert (DD : dep_dim (s_dim S)) by (rewrite Hdim; destruct (g_yz g); [right|left]; reflexivity).
  destruct (moment_patch_ok S s (n_comps m ks) DD m ks b (fun k i => F p k (gen3 (fun d => get3 i d + get3 (item_ib S) d)))) as [f Ef].
  { intros x Hx. apply calls_ok; [exact Hks|]. exact (proj1 (Hin b x (aget_In _ _ _ E) Hx)). }
  exists f. split; [exact Ef|]. intros k i. rewrite (moment_patch_val S s (n_comps m ks) W m ks b _ f Ef), V, (of_patch_tag g bufs p b HN E). f_equal.
  - f_equal. apply v3_ext. intros d. rewrite !get3_gen3. lia.
  - apply rsum_ext. intros x _. unfold adds_at. fold m s. f_equal. replace (shape_of s) with hat by (unfold s; destruct t; reflexivity). f_equal. apply v3_ext. intros d. unfold node. rewrite !get3_gen3. lia.
Qed.
Print Assumptions C65_process_partial.

(** What the processes' stores hold is what [P] says. *)
Definition stores (S : setting) (bs : V3 Z) (C : Z -> cm mprt) (P : Z -> list (list mprt)) : Prop :=
  forall r, 0 <= r < s_size S -> geom_ok (cu_geom S bs r) /\ represents (mp_cell S) (cu_geom S bs r) (C r) (tag (cu_geom S bs r) (P r)).

(** in y and z: as many blocks along y as along z *)
Definition square_blocks (S : setting) (bs : V3 Z) : Prop := s_dim S = dim_yz -> nblk (cu_geom S bs 0) D1 = nblk (cu_geom S bs 0) D2.

(** All processes: the moments are those of the CPU code, under the same names, and the stores still
    hold the particles.  Partial: only for at most four kinds, and in y and z only if there are as many
    blocks along y as along z. *)
Theorem C65_item_partial : forall S cv np gdims per pr bs t ks C P, periodic_domain S cv np gdims per pr -> kinds_ok ks -> alen ks <= 4 -> mprts_ok S ks P ->
  stores S bs C P -> square_blocks S bs ->
  cu_comp_names t ks = comp_names (fst (same_as t)) ks /\
  (exists C' D', cu_item_moment S bs t ks C C' D') /\
  forall C' D', cu_item_moment S bs t ks C C' D' -> item_moment S (snd (same_as t)) (fst (same_as t)) ks P D' /\ stores S bs C' P.
Proof.
  intros S cv np gdims per pr bs t ks C P HD [Hq HN] H4 HP HC Hsq. split; [destruct t; reflexivity|].
  pose proof (n_comps_same t ks) as NC.
  assert (Hset : domain_setup cv np gdims per pr (s_size S) = Some (s_dm S)) by apply HD.
  assert (Hg : forall d, 0 < get3 gdims d) by (intros d; apply HD). assert (Hlen : forall d, (0 < get3 (s_len S) d)%R) by (intros d; apply HD).

  assert (ONE : forall r F, 0 <= r < s_size S ->
    (exists x, cu_moment_runs (cu_geom S bs r) (cu_dxi S) (s_fnqs S) (s_ibn S) t ks (C r) F x) /\
    forall x, cu_moment_runs (cu_geom S bs r) (cu_dxi S) (s_fnqs S) (s_ibn S) t ks (C r) F x ->
      exists c' F', x = Some (c', F') /\ represents (mp_cell S) (cu_geom S bs r) c' (tag (cu_geom S bs r) (P r)) /\
      forall p b, aget (P r) p = Some b -> exists f, moment_patch S (snd (same_as t)) (n_comps (fst (same_as t)) ks) (fst (same_as t)) ks b (fun k i => F p k (gen3 (fun d => get3 i d + get3 (item_ib S) d))) = Some f /\
        forall k i, F' p k i = f k (gen3 (fun d => get3 i d - get3 (item_ib S) d))).
  { intros r F Hr. destruct (HC r Hr) as [ok rep]. apply (C65_process_partial S (cu_geom S bs r) t ks (C r) (P r) F); try assumption.
    - cbn [cu_geom g_yz]. destruct HD as (_ & _ & [->| ->] & _); reflexivity.
    - reflexivity.
    - intros d. exact (dx_pos S cv np gdims per pr Hset Hg Hlen d).
    - intros d. destruct HD as (_ & _ & _ & H). destruct (H d) as (_ & _ & _ & B). destruct (get3 (invar_of (s_dim S)) d); [apply B|lia].
    - cbn [cu_geom g_yz]. intros Y. apply Hsq. destruct (s_dim S); try discriminate. reflexivity.
    - exact (proj1 HP r Hr).
    - intros b x Hb Hx. destruct (In_aget _ _ Hb) as [p Ep]. pose proof (aget_bounds _ _ _ Ep) as B. rewrite (proj1 HP r Hr) in B.
      destruct (proj2 HP r p b x (conj Hr B) Ep Hx) as [K1 K2]. split; [exact K1|]. intros d. specialize (K2 d). cbn [cu_geom g_ldims]. unfold spacing. rewrite get3_gen3. exact K2. }
  split.
  - assert (CH : exists C' : Z -> cm mprt, exists D : Z -> flds R, forall r, In r (zrange 0 (s_size S)) -> cu_moment_runs (cu_geom S bs r) (cu_dxi S) (s_fnqs S) (s_ibn S) t ks (C r) (fun _ _ _ => 0%R) (Some (C' r, D r))).
    { assert (X : forall l, (forall r, In r l -> 0 <= r < s_size S) -> exists C' : Z -> cm mprt, exists D : Z -> flds R, forall r, In r l -> cu_moment_runs (cu_geom S bs r) (cu_dxi S) (s_fnqs S) (s_ibn S) t ks (C r) (fun _ _ _ => 0%R) (Some (C' r, D r))).
      { induction l as [|r l IH]; intros Hl; [exists C, (fun _ _ _ _ => 0%R); intros r []|]. destruct IH as (C' & D & H); [intros; apply Hl; right; assumption|].
        destruct (ONE r (fun _ _ _ => 0%R) (Hl r (or_introl eq_refl))) as [[x Hx] U]. destruct (U x Hx) as (c' & F' & -> & _ & _).
        exists (fun r' => if r' =? r then c' else C' r'), (fun r' => if r' =? r then F' else D r'). intros r' Hr'. destruct (Z.eqb_spec r' r) as [->|Nr]; [exact Hx|]. destruct Hr' as [->|Hr']; [contradiction|]. apply H. exact Hr'. }
      apply X. intros r Hr. apply in_zrange in Hr. exact Hr. }
    destruct CH as (C' & D & H).
    assert (Hibn : forall d, (0 <= get3 (s_ibn S) d <= get3 (grid_ldims (s_dm S)) d)).
    { intros d. rewrite (ld_eq cv np gdims per pr _ _ Hset), get3_gen3. destruct HD as (_ & _ & _ & X). destruct (X d) as (_ & _ & A & B). clear - A B. destruct (get3 (invar_of (s_dim S)) d); [destruct B|]; lia. }
    destruct HD as ((Hpos & _ & Hcnt & Hproc) & _).
    assert (N0 : 0 <= cu_n_comps t ks) by apply alen_nonneg.
    destruct (added_exists S cv np gdims per pr Hpos Hset Hcnt Hproc Hibn (cu_n_comps t ks) 0 (cu_n_comps t ks) D) as [D' HA]; [lia|].
    exists C', D', D. split; [|exact HA]. intros r Hr. apply H. apply in_zrange. exact Hr.
  - intros C' D' (D & H & HA). split.
    + exists D. rewrite <- NC. split; [|exact HA]. intros r p b Hr Eb. destruct (ONE r (fun _ _ _ => 0%R) Hr) as [_ U]. destruct (U _ (H r Hr)) as (c' & F' & E & _ & V). injection E as <- <-.
      destruct (V p b Eb) as (f & Ef & G). exists f. rewrite NC. split; [exact Ef|exact G].
    + intros r Hr. split; [apply (HC r Hr)|]. destruct (ONE r (fun _ _ _ => 0%R) Hr) as [_ U]. destruct (U _ (H r Hr)) as (c' & F' & E & R' & _). injection E as <- <-. exact R'.
Qed.
Print Assumptions C65_item_partial.

(** so every component has the sum over the particles of its kind, of what it is called after *)
Theorem C65_values_partial : forall S cv np gdims per pr bs t ks C P C' D', periodic_domain S cv np gdims per pr -> kinds_ok ks -> alen ks <= 4 -> mprts_ok S ks P ->
  stores S bs C P -> square_blocks S bs -> cu_item_moment S bs t ks C C' D' -> t <> cu_rho ->
  forall lb Q k kd, In (lb, Q) (contents (fst (same_as t))) -> aget ks k = Some kd ->
    exists m, aget (cu_comp_names t ks) m = Some (lb ++ "_" ++ k_name kd)%string /\
      forall r p x, a_patch S r p -> in_box (grid_ldims (s_dm S)) x -> D' r p m x = at_point S dep_1st_cc P (of_kind Q k kd) r p x.
Proof.
  intros S cv np gdims per pr bs t ks C P C' D' HD HK H4 HP HC Hsq HI Ht lb Q k kd HQ Hk.
  destruct (C65_item_partial S cv np gdims per pr bs t ks C P HD HK H4 HP HC Hsq) as (E & _ & V). destruct (V C' D' HI) as [I _].
  assert (Es : snd (same_as t) = dep_1st_cc) by (destruct t; [contradiction|reflexivity|reflexivity]). rewrite Es in I.
  destruct (C57_moments S cv np gdims per pr dep_1st_cc _ ks P D' HD HK HP I ltac:(destruct t; [contradiction|discriminate|discriminate])) as [_ M].
  destruct (M lb Q k kd HQ Hk) as (m & E1 & _ & E3 & _). exists m. rewrite E. split; [exact E1|exact E3].
Qed.
Print Assumptions C65_values_partial.

(** a particle not in its patch's square of blocks is left out: two patches of 8 x 4 cells in blocks of
    4 x 4, one particle in the second block of the second patch *)
Definition ex65_dm2 : domain := ltac:(let x := eval vm_compute in (domain_setup CURVE_BYDIM (v3 1 2 1) (v3 1 16 4) (v3 true true true) None 1) in match x with Some ?d => exact d end).
Definition ex65_S2 : setting := Setting ex65_dm2 1 dim_yz (v3 0 2 2) (v3 1 16 4)%R (v3 0 0 0)%R ex_per ex_per (1 / 2)%R 1%R sch_split.
Definition ex65_x : mprt := MPrt (v3 0 5 1)%R (v3 0 0 0)%R 0 (-1)%R.
Definition ex65_P2 (r : Z) : list (list mprt) := [[]; [ex65_x]].
Definition ex65_c2 : cm mprt := mkcm [ex65_x] [] [3] [0] [0; 0; 0; 0; 1] 1 false.

Lemma ex65_x_cell : mp_cell ex65_S2 ex65_x = v3 0 5 1.
Proof.
  assert (GD : dm_gdims ex65_dm2 = v3 1 16 4) by (vm_compute; reflexivity).
  apply v3_ext; intros d; unfold mp_cell, spacing. rewrite !get3_gen3. cbn [s_dm ex65_S2]. rewrite GD. apply Zfloor_imp. destruct d; cbn; lra.
Qed.

Theorem C65_item_refuted : exists S cv np gdims per pr bs t ks C P C' D', periodic_domain S cv np gdims per pr /\ kinds_ok ks /\ alen ks <= 4 /\ mprts_ok S ks P /\ stores S bs C P /\
  cu_item_moment S bs t ks C C' D' /\ ~ item_moment S (snd (same_as t)) (fst (same_as t)) ks P D' /\
  all_own S (fun r p x => D' r p 0 x) = 0%R /\ everyone S P (fun _ _ x => mp_qw x) = (-1)%R.
Proof.
  assert (GL : grid_ldims ex65_dm2 = v3 1 8 4) by (vm_compute; reflexivity). assert (GD : dm_gdims ex65_dm2 = v3 1 16 4) by (vm_compute; reflexivity).
  assert (N0 : patches_of ex65_dm2 0 = 2) by (vm_compute; reflexivity).
  assert (HD : periodic_domain ex65_S2 CURVE_BYDIM (v3 1 2 1) (v3 1 16 4) (v3 true true true) None).
  { split; [|split; [|split]].
    + split; [intros []; cbn; lia|]. split; [vm_compute; reflexivity|]. split; [cbn; lia|exact I].
    + intros []; reflexivity.
    + right; reflexivity.
    + intros []; cbn; repeat split; try lia; lra. }
  assert (HK : kinds_ok [Kind (-1) 1 "e"%string]).
  { split; [intros k [<-|[]]; cbn; lra|]. repeat constructor. intros []. }
  assert (HP : forall P : Z -> list (list mprt), P = ex65_P2 \/ P = (fun _ => [[]; []]) -> mprts_ok ex65_S2 [Kind (-1) 1 "e"%string] P).
  { intros P HP. split; [intros r Hr; cbn [s_size s_dm ex65_S2] in *; assert (r = 0) as -> by lia; rewrite N0; destruct HP as [-> | ->]; reflexivity|].
    intros r p b q [Hr Hp] Eb Hq. cbn [s_size s_dm s_len ex65_S2] in *. rewrite GL, GD. assert (r = 0) as -> by lia. rewrite N0 in Hp. assert (p = 0 \/ p = 1) as [-> | ->] by lia;
      destruct HP as [-> | ->]; cbn in Eb; injection Eb as <-; cbn [In] in Hq; try contradiction. destruct Hq as [<- | []]. split; [cbn; lia|]. intros d; destruct d; cbn; lra. }
  assert (G : cu_geom ex65_S2 (v3 1 4 4) 0 = mkgeom (v3 1 4 4) (v3 1 8 4) 2 true) by (unfold cu_geom; cbn [s_dm s_dim ex65_S2]; rewrite GL, N0; reflexivity).
  assert (HS : stores ex65_S2 (v3 1 4 4) (fun _ => ex65_c2) ex65_P2).
  { intros r Hr. cbn [s_size ex65_S2] in Hr. assert (r = 0) as -> by lia. rewrite G. split.
    { constructor; cbn; try lia; try (intros []; cbn; lia). intros []; cbn; [exists 1|exists 2|exists 1]; reflexivity. }
    change (tag _ (ex65_P2 0)) with [(1, ex65_x)]. pose proof ex65_x_cell as EX. split; [reflexivity|]. split.
    { intros w [<-|[]]. split; [cbn; lia|]. cbn [snd]. rewrite EX. intros []; cbn; lia. }
    intros p b Hp Hb. pose proof (Hb D0) as H0. pose proof (Hb D1) as H1. pose proof (Hb D2) as H2. destruct b as [b0 b1 b2]. cbn [g_np] in Hp.
    set (g := mkgeom (v3 1 4 4) (v3 1 8 4) 2 true) in *. change (nblk g D0) with 1 in H0. change (nblk g D1) with 2 in H1. change (nblk g D2) with 1 in H2. cbn [get3 c0 c1 c2] in H0, H1, H2.
    assert (b0 = 0) as -> by lia. assert (b2 = 0) as -> by lia. assert (p = 0 \/ p = 1) as [-> | ->] by lia; assert (b1 = 0 \/ b1 = 1) as [-> | ->] by lia.
    4:{ exists [ex65_x]. split; [exists 0, 1; split; [reflexivity|]; split; [reflexivity|]; split; [lia|]; split; [cbn; lia|]; split; [reflexivity|]; intros i Hi; assert (i = 0) as -> by lia; reflexivity|].
        cbn [filter map fst snd]. rewrite EX. apply Permutation_refl. }
    all: exists []; (split; [exists 0, 0; split; [reflexivity|]; split; [reflexivity|]; split; [lia|]; split; [cbn; lia|]; split; [reflexivity|]; intros i Hi; lia|]);
      cbn [filter map fst snd]; rewrite EX; apply Permutation_refl. }
  destruct (added_exists ex65_S2 CURVE_BYDIM (v3 1 2 1) (v3 1 16 4) (v3 true true true) None) with (n := 1) (mb := 0) (me := 1) (F := fun (_ : Z) (_ _ : Z) (_ : V3 Z) => 0%R) as [D' HA]; try (apply HD); try lia.
  { cbn [s_dm s_ibn ex65_S2]. rewrite GL. intros []; cbn; lia. }
  assert (RUN : cu_item_moment ex65_S2 (v3 1 4 4) cu_rho [Kind (-1) 1 "e"%string] (fun _ => ex65_c2) (fun _ => ex65_c2) D').
  { exists (fun _ _ _ _ => 0%R). split; [|exact HA]. intros r Hr. cbn [s_size ex65_S2] in Hr. assert (r = 0) as -> by lia. rewrite G. unfold cu_moment_runs. cbn [c_n ex65_c2 Z.eqb].
    change (reorder mp_zero ex65_c2) with (Some ex65_c2). cbn [c_re ex65_c2 orb].
    change (4 <? alen [Kind (-1) 1 "e"%string]) with false. cbn iota.
    assert (L : launch_slots (cu_mom_blocks (mkgeom (v3 1 4 4) (v3 1 8 4) 2 true)) tpb ex65_c2 (cu_prt_adds (mkgeom (v3 1 4 4) (v3 1 8 4) 2 true) (cu_dxi ex65_S2) (s_fnqs ex65_S2) cu_rho [Kind (-1) 1 "e"%string] ex65_c2) = Some []).
    { unfold launch_slots. rewrite (CudaPrtProofs.all_some_ext _ _ (fun _ => [])); [reflexivity|]. intros b Hb.
      assert (K : k_bid b = 0 \/ k_bid b = 1 \/ k_bid b = 2) by (assert (Hk := in_map k_bid _ _ Hb); vm_compute in Hk; intuition).
      assert (aget (c_off ex65_c2) (k_bid b) = Some 0 /\ aget (c_off ex65_c2) (k_bid b + 1) = Some 0) as [-> ->] by (destruct K as [->|[->| ->]]; split; reflexivity).
      rewrite (CudaPrtProofs.all_some_ext _ _ (fun _ => [])); [reflexivity|].
      intros tid Ht. apply in_zrange in Ht. replace (in_block_loop tpb 0 0 tid) with (@nil Z); [reflexivity|]. 
      symmetry. destruct (in_block_loop tpb 0 0 tid) as [|n l] eqn:EL; [reflexivity|]. exfalso. assert (Hn : In n (in_block_loop tpb 0 0 tid)) by (rewrite EL; left; reflexivity).
      unfold in_block_loop in Hn. apply filter_In in Hn. destruct Hn as [Hn _]. apply CudaLaunchProofs.in_strided in Hn; [|reflexivity]. change (Z.ldiff 0 31) with 0 in Hn. lia. }
    rewrite L. exists []. split; reflexivity. }
  assert (EMP : item_moment ex65_S2 dep_1st_nc mom_rho [Kind (-1) 1 "e"%string] (fun _ => [[]; []]) D').
  { exists (fun _ _ _ _ => 0%R). split; [|exact HA]. intros r p b Hr Eb. assert (b = []) as -> by (apply aget_In in Eb; destruct Eb as [<-|[<-|[]]]; reflexivity). eexists. split; [reflexivity|]. reflexivity. }
  destruct (C57_rho _ _ _ _ _ _ _ _ _ _ HD HK (HP _ (or_intror eq_refl)) EMP) as (_ & _ & T0).
  assert (Z0 : all_own ex65_S2 (fun r p x => D' r p 0 x) = 0%R).
  { rewrite T0. unfold everyone. cbn [s_size s_dm ex65_S2]. change (zrange 0 1) with [0]. cbn [map]. rewrite N0. change (zrange 0 2) with [0; 1]. unfold rsum, ex65_P2. cbn. change (Pos.to_nat 1) with 1%nat. cbn. ring. }
  assert (Q1 : everyone ex65_S2 ex65_P2 (fun _ _ x => mp_qw x) = (-1)%R).
  { unfold everyone. cbn [s_size s_dm ex65_S2]. change (zrange 0 1) with [0]. cbn [map]. rewrite N0. change (zrange 0 2) with [0; 1]. unfold rsum, ex65_P2. cbn. change (Pos.to_nat 1) with 1%nat. cbn. ring. }
  exists ex65_S2, CURVE_BYDIM, (v3 1 2 1), (v3 1 16 4), (v3 true true true), None, (v3 1 4 4), cu_rho, [Kind (-1) 1 "e"%string], (fun _ => ex65_c2), ex65_P2, (fun _ => ex65_c2), D'.
  split; [exact HD|]. split; [exact HK|]. split; [cbn; lia|]. split; [exact (HP _ (or_introl eq_refl))|]. split; [exact HS|]. split; [exact RUN|]. split; [|split; [exact Z0|exact Q1]].
  intros HI. destruct (C57_rho _ _ _ _ _ _ _ _ _ _ HD HK (HP _ (or_introl eq_refl)) HI) as (_ & _ & T1). rewrite Z0, Q1 in T1. cbn in T1. lra.
Qed.
Print Assumptions C65_item_refuted.

(** Two patches of 4 x 4 cells on two processes; electrons on both sides of the boundary between them,
    and an ion; the first store has yet to be reordered. *)
Definition ex65_dm : domain := ltac:(let x := eval vm_compute in (domain_setup CURVE_BYDIM (v3 1 2 1) (v3 1 8 4) (v3 true true true) None 2) in match x with Some ?d => exact d end).
Definition ex65_S : setting := Setting ex65_dm 2 dim_yz (v3 0 2 2) (v3 1 8 4)%R (v3 0 0 0)%R ex_per ex_per (1 / 2)%R 1%R sch_split.
Definition ex65_C (r : Z) : cm mprt := if r =? 0 then mkcm [ex_i1; ex_e1] [] [0; 0] [1; 0] [0; 2] 2 true else mkcm [ex_e2] [] [0] [0] [0; 1] 1 false.

Example ex_C65 : periodic_domain ex65_S CURVE_BYDIM (v3 1 2 1) (v3 1 8 4) (v3 true true true) None /\ kinds_ok ex_ks /\ alen ex_ks <= 4 /\ mprts_ok ex65_S ex_ks ex_P /\
  stores ex65_S (v3 1 4 4) ex65_C ex_P /\ square_blocks ex65_S (v3 1 4 4) /\ (exists C' D', cu_item_moment ex65_S (v3 1 4 4) cu_all ex_ks ex65_C C' D') /\
  aget (cu_comp_names cu_all ex_ks) 15 = Some "jy_i"%string.
Proof.
  assert (GL : grid_ldims ex65_dm = v3 1 4 4) by (vm_compute; reflexivity). assert (GD : dm_gdims ex65_dm = v3 1 8 4) by (vm_compute; reflexivity).
  assert (N : forall r, 0 <= r < 2 -> patches_of ex65_dm r = 1) by (intros r Hr; assert (r = 0 \/ r = 1) as [-> | ->] by lia; vm_compute; reflexivity).
  assert (HD : periodic_domain ex65_S CURVE_BYDIM (v3 1 2 1) (v3 1 8 4) (v3 true true true) None).
  { split; [|split; [|split]].
    + split; [intros []; cbn; lia|]. split; [vm_compute; reflexivity|]. split; [cbn; lia|exact I].
    + intros []; reflexivity.
    + right; reflexivity.
    + intros []; cbn; repeat split; try lia; lra. }
  assert (HK : kinds_ok ex_ks) by apply ex_C57.
  assert (HP : mprts_ok ex65_S ex_ks ex_P).
  { split; [intros r Hr; cbn [s_size s_dm ex65_S] in *; rewrite (N r Hr); assert (r = 0 \/ r = 1) as [-> | ->] by lia; reflexivity|].
    intros r p b q [Hr Hp] Eb Hq. cbn [s_size s_dm s_len ex65_S] in *. rewrite GL, GD. rewrite (N r Hr) in Hp. assert (p = 0) as -> by lia.
    assert (r = 0 \/ r = 1) as [-> | ->] by lia; cbn in Eb; injection Eb as <-; [destruct Hq as [<- | [<- | []]]|destruct Hq as [<- | []]]; (split; [vm_compute; intuition discriminate|intros d; destruct d; cbn; lra]). }
  assert (CE : forall y, (0 <= y < 4)%R -> forall x, mp_x x = (v3 0 y 3)%R -> mp_cell ex65_S x = v3 0 (Zfloor y) 3).
  { intros y Hy x Ex. apply v3_ext; intros d; unfold mp_cell, spacing. rewrite !get3_gen3, Ex. cbn [s_dm ex65_S]. rewrite GD. destruct d; cbn [ex65_S get3 c0 c1 c2 s_len].
    - apply Zfloor_imp; cbn; lra.
    - replace (y / (8 / 8))%R with y by lra. reflexivity.
    - apply Zfloor_imp; cbn; lra. }
  assert (Z1 : Zfloor (15 / 4) = 3) by (apply Zfloor_imp; cbn; lra). assert (Z2 : Zfloor (1 / 4) = 0) by (apply Zfloor_imp; cbn; lra).
  assert (E1 : mp_cell ex65_S ex_e1 = v3 0 3 3) by (rewrite (CE (15 / 4)%R), Z1 by (try reflexivity; lra); reflexivity).
  assert (E2 : mp_cell ex65_S ex_i1 = v3 0 3 3) by (rewrite (CE (15 / 4)%R), Z1 by (try reflexivity; lra); reflexivity).
  assert (E3 : mp_cell ex65_S ex_e2 = v3 0 0 3) by (rewrite (CE (1 / 4)%R), Z2 by (try reflexivity; lra); reflexivity).
  assert (G : forall r, 0 <= r < 2 -> cu_geom ex65_S (v3 1 4 4) r = mkgeom (v3 1 4 4) (v3 1 4 4) 1 true) by (intros r Hr; unfold cu_geom; cbn [s_dm s_dim ex65_S]; rewrite GL, (N r Hr); reflexivity).
  assert (HS : stores ex65_S (v3 1 4 4) ex65_C ex_P).
  { intros r Hr. cbn [s_size ex65_S] in Hr. rewrite (G r Hr). split.
    { constructor; cbn; try lia; try (intros []; cbn; lia). intros []; cbn; exists 1; reflexivity. }
    set (g := mkgeom (v3 1 4 4) (v3 1 4 4) 1 true). assert (r = 0 \/ r = 1) as [-> | ->] by lia.
    - change (tag g (ex_P 0)) with [(0, ex_e1); (0, ex_i1)]. split; [reflexivity|]. split.
      { intros w [<-|[<-|[]]]; (split; [cbn; lia|]); cbn [snd]; rewrite ?E1, ?E2; intros []; cbn; lia. }
      intros p b Hp Hb. pose proof (Hb D0) as H0. pose proof (Hb D1) as H1. pose proof (Hb D2) as H2. destruct b as [b0 b1 b2]. cbn [g_np g] in Hp.
      change (nblk g D0) with 1 in H0. change (nblk g D1) with 1 in H1. change (nblk g D2) with 1 in H2. cbn [get3 c0 c1 c2] in H0, H1, H2.
      assert (b0 = 0) as -> by lia. assert (b1 = 0) as -> by lia. assert (b2 = 0) as -> by lia. assert (p = 0) as -> by lia.
      exists [ex_e1; ex_i1]. split.
      + exists 0, 2. split; [reflexivity|]. split; [reflexivity|]. split; [lia|]. split; [cbn; lia|]. split; [reflexivity|]. intros i Hi. cbn [ex65_C Z.eqb c_re].
        assert (i = 0 \/ i = 1) as [-> | ->] by lia; [exists 1|exists 0]; split; reflexivity.
      + cbn [filter map fst snd]. rewrite E1, E2. apply Permutation_refl.
    - change (tag g (ex_P 1)) with [(0, ex_e2)]. split; [reflexivity|]. split.
      { intros w [<-|[]]; (split; [cbn; lia|]); cbn [snd]; rewrite E3; intros []; cbn; lia. }
      intros p b Hp Hb. pose proof (Hb D0) as H0. pose proof (Hb D1) as H1. pose proof (Hb D2) as H2. destruct b as [b0 b1 b2]. cbn [g_np g] in Hp.
      change (nblk g D0) with 1 in H0. change (nblk g D1) with 1 in H1. change (nblk g D2) with 1 in H2. cbn [get3 c0 c1 c2] in H0, H1, H2.
      assert (b0 = 0) as -> by lia. assert (b1 = 0) as -> by lia. assert (b2 = 0) as -> by lia. assert (p = 0) as -> by lia.
      exists [ex_e2]. split.
      + exists 0, 1. split; [reflexivity|]. split; [reflexivity|]. split; [lia|]. split; [cbn; lia|]. split; [reflexivity|]. intros i Hi. assert (i = 0) as -> by lia. reflexivity.
      + cbn [filter map fst snd]. rewrite E3. apply Permutation_refl. }
  assert (SQ : square_blocks ex65_S (v3 1 4 4)) by (intros _; rewrite (G 0) by lia; reflexivity).
  assert (N4 : alen ex_ks <= 4) by (cbn; lia).
  split; [exact HD|]. split; [exact HK|]. split; [exact N4|]. split; [exact HP|]. split; [exact HS|]. split; [exact SQ|]. split; [|reflexivity].
  exact (proj1 (proj2 (C65_item_partial _ _ _ _ _ _ _ cu_all _ _ _ HD HK N4 HP HS SQ))).
Qed.
