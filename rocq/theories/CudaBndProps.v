(** C66: exchange of ghost points on the GPU. *)
From Coq Require Import Reals Lra.
From Verif Require Import Base Arr RSum DomainModel DomainSpec MpiModel BalanceModel BalanceMoveProofs DdcPrtSpec GhostModel GhostSpec GhostProofs GhostProps CudaBndModel CudaBndSpec CudaBndProofs.
Local Open Scope Z_scope.

(** ** C66 *)

(** Filling.  If the memory of every process holds a field, then with the maps that a first call makes
    the messages of all processes match the receives, and however they arrive and in whatever
    order the threads store the values, every process ends up with its memory holding what the CPU
    code's fill_ghosts makes of the same field; and that is, at every place, the value of the point's owner. *)
Theorem C66_fill : forall T c np gdims per pr size dm ibn n_comps mb me (F : Z -> flds T) mem,
  all_pos np -> domain_setup c np gdims per pr size = Some dm -> counts_valid pr (volume np) size -> processes pr size -> ghosts_fit np gdims ibn ->
  0 <= mb /\ mb <= me /\ me <= n_comps -> (forall r, 0 <= r < size -> holds dm ibn n_comps r (mem r) (F r)) ->
  exists mps msgs chans cmsgs,
    (forall r, 0 <= r < size -> fresh_maps true dm ibn size r n_comps mb me = Some (mps r)) /\
    concat_option (map (fun r => cuda_posts (mps r) (mem r) r) (zrange 0 size)) = Some msgs /\
    concat_option (map (fun r => cuda_chans (mps r) r) (zrange 0 size)) = Some chans /\ balanced msgs chans /\
    all_ddc_posts dm size ibn n_comps true mb me F = Some cmsgs /\
    forall pool cpool ord ord', Permutation pool msgs -> Permutation cpool cmsgs -> (forall r, @orders T (ord r)) -> (forall r, @orders T (ord' r)) ->
    exists mem' F',
      (forall r, 0 <= r < size -> cuda_finish (fun _ v => v) (ord r) (ord' r) (mps r) pool (mem r) r = Some (mem' r) /\
                                  fill_ghosts dm size ibn n_comps mb me cpool (F r) r = Some (F' r) /\ holds dm ibn n_comps r (mem' r) (F' r)) /\
      forall a m, In a (all_places dm size ibn) ->
        (mb <= m < me -> (forall o, In o (own_places dm size) -> same_point dm a o -> at_place F' m a = at_place F m o) /\
                         ((forall o, In o (own_places dm size) -> ~ same_point dm a o) -> at_place F' m a = at_place F m a)) /\
        (~ mb <= m < me -> at_place F' m a = at_place F m a).
Proof.
  intros T c np gdims per pr size dm ibn n_comps mb me F mem H1 H2 H3 H4 G Hm HF. pose proof (ghosts_fit_dm _ _ _ _ _ _ _ _ H2 G) as G'.
  assert (HF' : forall r, 0 <= r < size -> held dm ibn n_comps r (mem r) (F r)) by (intros r Hr; apply held_iff; apply HF; exact Hr).
  destruct (C10_fill T c np gdims per pr size dm ibn n_comps mb me F H1 H2 H3 H4 G Hm) as (cmsgs & crecvs & P1 & _ & _ & P2).
  exists (the_maps size dm ibn n_comps mb me true), (allmsgs size dm ibn mb me true F), (allchans size dm ibn mb me true F), cmsgs.
  split. { intros r Hr. unfold fresh_maps. rewrite (pattern_val c np gdims per pr size dm H1 H2 H3 H4 ibn true r Hr). apply make_maps_val; assumption. }
  split. { unfold allmsgs. apply concat_option_some. intros r Hr. apply in_zrange in Hr. apply (posts_ok c np gdims per pr size dm H2 H3 H4 ibn G' n_comps mb me true Hm F mem HF' r Hr). }
  split. { unfold allchans. apply concat_option_some. intros r Hr. apply in_zrange in Hr. unfold cuda_chans. rewrite (recvs_ok size dm ibn G' n_comps mb me true Hm F mem HF' r Hr). reflexivity. }
  split; [exact (gmsgs_balanced np size dm ibn n_comps mb me _ Hm F)|]. split; [exact P1|]. intros pool cpool ord ord' HP HCP HO HO'. destruct (P2 cpool HCP) as (F' & Q1 & Q2).
  assert (HR : forall r, exists m, 0 <= r < size -> cuda_finish (fun _ v => v) (ord r) (ord' r) (the_maps size dm ibn n_comps mb me true r) pool (mem r) r = Some m /\ holds dm ibn n_comps r m (F' r)).
  { intros r. destruct (Z_le_dec 0 r) as [Hr0|]; [|exists []; lia]. destruct (Z_lt_dec r size) as [Hr1|]; [|exists []; lia]. assert (Hr : 0 <= r < size) by lia.
    destruct (finish_ok c np gdims per pr size dm H1 H2 H3 H4 ibn G' n_comps mb me true Hm F mem HF' (fun _ v => v) (ord r) (ord' r) pool r (HO r) (HO' r) HP Hr) as (m & us & E1 & E2 & E3).
    exists m. intros _. split; [exact E1|]. apply held_iff. apply (held_ext _ _ _ _ _ _ _ E3). intros p k i S.
    rewrite (fill_order c np gdims per pr size dm H1 H2 H3 H4 ibn G' n_comps mb me F us r p k i E2 S Hr).
    pose proof (posts_val c np gdims per pr size dm H1 H2 H3 H4 ibn G' n_comps mb me true Hm F) as E4. rewrite P1 in E4. injection E4 as ->.
    pose proof (run_val c np gdims per pr size dm H1 H2 H3 H4 ibn G' n_comps mb me true Hm F (fun _ v => v) cpool r HCP Hr) as E5.
    specialize (Q1 r Hr). unfold fill_ghosts in Q1. rewrite E5 in Q1. injection Q1 as <-. reflexivity. }
  assert (HC : exists mem', forall r, 0 <= r < size -> cuda_finish (fun _ v => v) (ord r) (ord' r) (the_maps size dm ibn n_comps mb me true r) pool (mem r) r = Some (mem' r) /\ holds dm ibn n_comps r (mem' r) (F' r)).
  { exists (fun r => match cuda_finish (fun _ v => v) (ord r) (ord' r) (the_maps size dm ibn n_comps mb me true r) pool (mem r) r with Some m => m | None => [] end).
    intros r Hr. destruct (HR r) as [m Hmm]. destruct (Hmm Hr) as [E1 E2]. rewrite E1. auto. }
  destruct HC as [mem' HC]. exists mem', F'. split; [|exact Q2]. intros r Hr. destruct (HC r Hr) as [E1 E2]. split; [exact E1|]. split; [apply Q1; exact Hr|exact E2].
Qed.
Print Assumptions C66_fill.

(** Adding.  Likewise, in whatever order the atomic additions happen: the memory ends up holding what
    the CPU code's add_ghosts makes of the field, the sum of all that belongs to the same point of
    space. *)
Theorem C66_add : forall c np gdims per pr size dm ibn n_comps mb me (F : Z -> flds R) mem,
  all_pos np -> domain_setup c np gdims per pr size = Some dm -> counts_valid pr (volume np) size -> processes pr size -> ghosts_fit np gdims ibn ->
  0 <= mb /\ mb <= me /\ me <= n_comps -> (forall r, 0 <= r < size -> holds dm ibn n_comps r (mem r) (F r)) ->
  exists mps msgs chans cmsgs,
    (forall r, 0 <= r < size -> fresh_maps false dm ibn size r n_comps mb me = Some (mps r)) /\
    concat_option (map (fun r => cuda_posts (mps r) (mem r) r) (zrange 0 size)) = Some msgs /\
    concat_option (map (fun r => cuda_chans (mps r) r) (zrange 0 size)) = Some chans /\ balanced msgs chans /\
    all_ddc_posts dm size ibn n_comps false mb me F = Some cmsgs /\
    forall pool cpool ord ord', Permutation pool msgs -> Permutation cpool cmsgs -> (forall r, @orders R (ord r)) -> (forall r, @orders R (ord' r)) ->
    exists mem' F',
      (forall r, 0 <= r < size -> cuda_finish Rplus (ord r) (ord' r) (mps r) pool (mem r) r = Some (mem' r) /\
                                  add_ghosts Rplus dm size ibn n_comps mb me cpool (F r) r = Some (F' r) /\ holds dm ibn n_comps r (mem' r) (F' r)) /\
      (forall a m, In a (own_places dm size) -> mb <= m < me ->
         at_place F' m a = (at_place F m a + rsum (map (at_place F m) (filter (same_pointb dm a) (ghost_places dm size ibn))))%R) /\
      (forall a m, In a (all_places dm size ibn) -> is_own dm a = false \/ ~ mb <= m < me -> at_place F' m a = at_place F m a).
Proof.
  intros c np gdims per pr size dm ibn n_comps mb me F mem H1 H2 H3 H4 G Hm HF. pose proof (ghosts_fit_dm _ _ _ _ _ _ _ _ H2 G) as G'.
  assert (HF' : forall r, 0 <= r < size -> held dm ibn n_comps r (mem r) (F r)) by (intros r Hr; apply held_iff; apply HF; exact Hr).
  destruct (C11_add c np gdims per pr size dm ibn n_comps mb me F H1 H2 H3 H4 G Hm) as (cmsgs & crecvs & P1 & _ & _ & P2).
  exists (the_maps size dm ibn n_comps mb me false), (allmsgs size dm ibn mb me false F), (allchans size dm ibn mb me false F), cmsgs.
  split. { intros r Hr. unfold fresh_maps. rewrite (pattern_val c np gdims per pr size dm H1 H2 H3 H4 ibn false r Hr). apply make_maps_val; assumption. }
  split. { unfold allmsgs. apply concat_option_some. intros r Hr. apply in_zrange in Hr. apply (posts_ok c np gdims per pr size dm H2 H3 H4 ibn G' n_comps mb me false Hm F mem HF' r Hr). }
  split. { unfold allchans. apply concat_option_some. intros r Hr. apply in_zrange in Hr. unfold cuda_chans. rewrite (recvs_ok size dm ibn G' n_comps mb me false Hm F mem HF' r Hr). reflexivity. }
  split; [exact (gmsgs_balanced np size dm ibn n_comps mb me _ Hm F)|]. split; [exact P1|]. intros pool cpool ord ord' HP HCP HO HO'. destruct (P2 cpool HCP) as (F' & Q1 & Q2 & Q3 & _).
  assert (HC : exists mem', forall r, 0 <= r < size -> cuda_finish Rplus (ord r) (ord' r) (the_maps size dm ibn n_comps mb me false r) pool (mem r) r = Some (mem' r) /\ holds dm ibn n_comps r (mem' r) (F' r)).
  { exists (fun r => match cuda_finish Rplus (ord r) (ord' r) (the_maps size dm ibn n_comps mb me false r) pool (mem r) r with Some m => m | None => [] end).
    intros r Hr.
    destruct (finish_ok c np gdims per pr size dm H1 H2 H3 H4 ibn G' n_comps mb me false Hm F mem HF' Rplus (ord r) (ord' r) pool r (HO r) (HO' r) HP Hr) as (m & us & E1 & E2 & E3).
    rewrite E1. split; [reflexivity|]. apply held_iff. apply (held_ext _ _ _ _ _ _ _ E3). intros p k i S. rewrite (add_order (F r) us _ p k i E2).
    pose proof (posts_val c np gdims per pr size dm H1 H2 H3 H4 ibn G' n_comps mb me false Hm F) as E4. rewrite P1 in E4. injection E4 as ->.
    pose proof (run_val c np gdims per pr size dm H1 H2 H3 H4 ibn G' n_comps mb me false Hm F Rplus cpool r HCP Hr) as E5.
    specialize (Q1 r Hr). unfold add_ghosts in Q1. rewrite E5 in Q1. injection Q1 as <-. reflexivity. }
  destruct HC as [mem' HC]. exists mem', F'. split; [|split; [exact Q2|exact Q3]].
  intros r Hr. destruct (HC r Hr) as [E1 E2]. split; [exact E1|]. split; [apply Q1; exact Hr|exact E2].
Qed.
Print Assumptions C66_add.

(** The maps kept.  In every sequence of calls for any fields of up to 99 components, filling and
    adding mixed, with the load balanced again at any time, every call uses the maps that a call with
    nothing kept would make for its own range of components and the domain at the time. *)
Theorem C66_kept : forall ibn size rank dm gen es,
  0 <= rank < size -> domain_ok ibn size dm -> Forall (event_ok 99 ibn size) es ->
  bnd_run ibn size rank (bnd_start dm gen) es = Some (expected ibn size rank dm es) /\
  forall send n_comps mb me, In (ECall send n_comps mb me) es -> forall dm', domain_ok ibn size dm' -> exists mp, fresh_maps send dm' ibn size rank n_comps mb me = Some mp.
Proof.
  intros ibn size rank dm gen es Hr HD HE. split.
  - apply (bnd_run_ok ibn size rank Hr es (bnd_start dm gen) HD); [split; constructor|exact HE].
  - intros send n_comps mb me Hi dm' HD'. rewrite Forall_forall in HE. specialize (HE _ Hi). cbn [event_ok] in HE. apply fresh_some; [exact Hr|exact HD'|lia].
Qed.
Print Assumptions C66_kept.

(** ** beyond 99 components *)

(** one periodic cell with a ghost point on each side; component m is 1 at the cell and 0 elsewhere *)
Definition wide_field (r p m : Z) (x : V3 Z) : Z := if c0 x =? 0 then 1 else 0.
Definition wide_mem : list Z := flat_map (fun _ => [0; 1; 0]) (zrange 0 102).

(** With 102 components the ranges 100..100 and 0..101 have the same key: filling all components
    after having filled one uses the maps of the one, and leaves the ghost points of the others
    as they were. *)
Theorem C66_key_refuted : exists ibn dm mp mem' a o,
  domain_ok ibn 1 dm /\ Forall (event_ok 102 ibn 1) [ECall true 102 100 101; ECall true 102 0 102] /\ holds dm ibn 102 0 wide_mem (wide_field 0) /\
  bnd_run ibn 1 0 (bnd_start dm 0) [ECall true 102 100 101; ECall true 102 0 102] = Some [Some mp; Some mp] /\
  cuda_finish (fun _ v => v) (fun l => l) (fun l => l) mp [] wide_mem 0 = Some mem' /\
  In a (all_places dm 1 ibn) /\ In o (own_places dm 1) /\ same_point dm a o /\
  forall F', holds dm ibn 102 0 mem' (F' 0) -> at_place F' 5 a <> at_place wide_field 5 o.
Proof.
  destruct (domain_setup CURVE_BYDIM (v3 1 1 1) (v3 1 1 1) (v3 true true true) None 1) as [dm|] eqn:E; [|vm_compute in E; discriminate E].
  pose proof E as E'. vm_compute in E'. injection E' as Edm.
  assert (EL : grid_ldims dm = v3 1 1 1) by (rewrite <- Edm; vm_compute; reflexivity).
  assert (EP : patches_of dm 0 = 1) by (rewrite <- Edm; vm_compute; reflexivity).
  destruct (fresh_maps true dm (v3 1 0 0) 1 0 102 100 101) as [mp|] eqn:EM; [|rewrite <- Edm in EM; vm_compute in EM; discriminate EM].
  destruct (cuda_finish (fun _ v => v) (fun l => l) (fun l => l) mp [] wide_mem 0) as [mem'|] eqn:EF.
  2:{ exfalso. rewrite <- Edm in EM. vm_compute in EM. injection EM as <-. vm_compute in EF. discriminate EF. }
  exists (v3 1 0 0), dm, mp, mem', (0, 0, v3 1 0 0), (0, 0, v3 0 0 0).
  split. { exists CURVE_BYDIM, (v3 1 1 1), (v3 1 1 1), (v3 true true true), None. split; [intros []; cbn; lia|]. split; [exact E|]. split; [cbn; lia|]. split; [exact Logic.I|]. intros []; cbn; lia. }
  split. { repeat constructor; cbn; lia. }
  split.
  { split; [rewrite EP, EL; vm_compute; reflexivity|]. rewrite EP, EL. cbn [get3 c0 c1 c2]. intros p m i Hp Hmm Hi. assert (p = 0) as -> by lia.
    pose proof (Hi D0) as X0. pose proof (Hi D1) as X1. pose proof (Hi D2) as X2. cbn [get3 c0 c1 c2] in X0, X1, X2. destruct i as [x y z]. cbn [c0 c1 c2] in *.
    assert (y = 0) as -> by lia. assert (z = 0) as -> by lia. unfold wide_field. cbn [c0].
    assert (HA : forallb (fun m => forallb (fun x => match aget wide_mem (m * 3 + x + 1) with Some v => v =? (if x =? 0 then 1 else 0) | None => false end) (zrange (-1) 2)) (zrange 0 102) = true) by (vm_compute; reflexivity).
    rewrite forallb_forall in HA. specialize (HA m ltac:(apply in_zrange; lia)). rewrite forallb_forall in HA. specialize (HA x ltac:(apply in_zrange; lia)).
    replace ((((0 * 102 + m) * (1 + 2 * 0) + (0 + 0)) * (1 + 2 * 0) + (0 + 0)) * (1 + 2 * 1) + (x + 1)) with (m * 3 + x + 1) by lia.
    destruct (aget wide_mem (m * 3 + x + 1)) as [v|]; [|discriminate]. f_equal. lia. }
  split. { rewrite <- Edm in *. vm_compute in EM. injection EM as <-. vm_compute. reflexivity. }
  split; [exact EF|]. split; [rewrite <- Edm; vm_compute; tauto|]. split; [rewrite <- Edm; vm_compute; tauto|]. split; [rewrite <- Edm; vm_compute; reflexivity|].
  intros F' [_ HH]. rewrite EP, EL in HH. specialize (HH 0 5 (v3 1 0 0) ltac:(lia) ltac:(lia) ltac:(intros []; cbn; lia)). cbn [get3 c0 c1 c2] in HH. cbn [at_place wide_field c0].
  rewrite <- Edm in EM. vm_compute in EM. injection EM as <-. vm_compute in EF. injection EF as <-. vm_compute in HH. injection HH as <-. vm_compute. discriminate.
Qed.
Print Assumptions C66_key_refuted.

(** ** examples *)

(** the memory of the field of [ex_C10] with two components *)
Definition ex_mem (r : Z) : list Z :=
  flat_map (fun p => flat_map (fun m => flat_map (fun y => map (fun x => ex_field r p m (v3 x y 0)) (zrange (-1) 5)) (zrange (-1) 5)) (zrange 0 2)) (zrange 0 2).

Lemma ex_holds dm r : grid_ldims dm = v3 4 4 1 -> patches_of dm r = 2 -> holds dm (v3 1 1 0) 2 r (ex_mem r) (ex_field r).
Proof.
  intros EL EP. unfold holds. cbv zeta. rewrite EL, EP. cbn [get3 c0 c1 c2]. split; [vm_compute; reflexivity|]. intros p m [x y z] Hp Hm Hi.
  pose proof (Hi D0) as X0. pose proof (Hi D1) as X1. pose proof (Hi D2) as X2. cbn [get3 c0 c1 c2] in *. assert (z = 0) as -> by lia.
  assert (p = 0 \/ p = 1) as HP by lia. assert (m = 0 \/ m = 1) as HM by lia.
  assert (x = -1 \/ x = 0 \/ x = 1 \/ x = 2 \/ x = 3 \/ x = 4) as HX by lia. assert (y = -1 \/ y = 0 \/ y = 1 \/ y = 2 \/ y = 3 \/ y = 4) as HY by lia. clear - HP HM HX HY.
  destruct HP as [-> | ->], HM as [-> | ->]; destruct HX as [->|[->|[->|[->|[->| ->]]]]]; destruct HY as [->|[->|[->|[->|[->| ->]]]]]; reflexivity.
Qed.

(** two processes; messages in reverse order, threads in reverse order; the corner ghost point of
    [ex_C10], at position 30 of the memory *)
Example ex_C66_fill : exists dm mp0 mp1 m0 m1 mem',
  domain_setup CURVE_BYDIM (v3 2 2 1) (v3 8 8 1) (v3 true false false) None 2 = Some dm /\
  all_pos (v3 2 2 1) /\ counts_valid None (volume (v3 2 2 1)) 2 /\ processes None 2 /\ ghosts_fit (v3 2 2 1) (v3 8 8 1) (v3 1 1 0) /\
  holds dm (v3 1 1 0) 2 0 (ex_mem 0) (ex_field 0) /\ holds dm (v3 1 1 0) 2 1 (ex_mem 1) (ex_field 1) /\
  fresh_maps true dm (v3 1 1 0) 2 0 2 0 1 = Some mp0 /\ fresh_maps true dm (v3 1 1 0) 2 1 2 0 1 = Some mp1 /\
  cuda_posts mp0 (ex_mem 0) 0 = Some m0 /\ cuda_posts mp1 (ex_mem 1) 1 = Some m1 /\
  cuda_finish (fun _ v => v) (@rev _) (@rev _) mp0 (m1 ++ m0) (ex_mem 0) 0 = Some mem' /\
  aget mem' 30 = Some (ex_field 1 1 0 (v3 3 0 0)) /\ aget mem' (36 + 30) = Some (ex_field 0 0 1 (v3 (-1) 4 0)).
Proof.
  destruct (domain_setup CURVE_BYDIM (v3 2 2 1) (v3 8 8 1) (v3 true false false) None 2) as [dm|] eqn:E; [|vm_compute in E; discriminate E].
  assert (H0 : holds dm (v3 1 1 0) 2 0 (ex_mem 0) (ex_field 0)) by (vm_compute in E; injection E as <-; apply ex_holds; vm_compute; reflexivity).
  assert (H1 : holds dm (v3 1 1 0) 2 1 (ex_mem 1) (ex_field 1)) by (vm_compute in E; injection E as <-; apply ex_holds; vm_compute; reflexivity).
  exists dm. vm_compute in E. injection E as Edm.
  eexists _, _, _, _, _. split; [reflexivity|]. split; [intros []; cbn; lia|]. split; [cbn; lia|]. split; [exact Logic.I|]. split; [intros []; vm_compute; split; discriminate|].
  split; [exact H0|]. split; [exact H1|]. clear H0 H1. rewrite <- Edm.
  split; [vm_compute; reflexivity|]. split; [vm_compute; reflexivity|]. split; [vm_compute; reflexivity|]. split; [vm_compute; reflexivity|]. split; [vm_compute; reflexivity|]. split; vm_compute; reflexivity.
Qed.

(** the own corner of [ex_C11], at position 25: three processes' worth of ghost points are added *)
Example ex_C66_add : exists dm mp0 mp1 m0 m1 mem',
  domain_setup CURVE_BYDIM (v3 2 2 1) (v3 8 8 1) (v3 true false false) None 2 = Some dm /\
  fresh_maps false dm (v3 1 1 0) 2 0 2 0 2 = Some mp0 /\ fresh_maps false dm (v3 1 1 0) 2 1 2 0 2 = Some mp1 /\
  cuda_posts mp0 (ex_mem 0) 0 = Some m0 /\ cuda_posts mp1 (ex_mem 1) 1 = Some m1 /\
  cuda_finish Z.add (@rev _) (@rev _) mp0 (m1 ++ m0) (ex_mem 0) 0 = Some mem' /\
  aget mem' 25 = Some (ex_field 0 0 0 (v3 0 3 0) + (ex_field 0 1 0 (v3 4 3 0) + ex_field 1 0 0 (v3 0 (-1) 0) + ex_field 1 1 0 (v3 4 (-1) 0))).
Proof.
  eexists _, _, _, _, _, _. split; [vm_compute; reflexivity|]. split; [vm_compute; reflexivity|]. split; [vm_compute; reflexivity|]. split; [vm_compute; reflexivity|].
  split; [vm_compute; reflexivity|]. split; [vm_compute; reflexivity|]. vm_compute. reflexivity.
Qed.

(** calls for two ranges, one of them again, and a rebalancing that moves a patch *)
Example ex_C66_kept : exists dm dm',
  domain_setup CURVE_BYDIM (v3 2 2 1) (v3 8 8 1) (v3 true false false) None 2 = Some dm /\
  domain_setup CURVE_BYDIM (v3 2 2 1) (v3 8 8 1) (v3 true false false) (Some [1; 3]) 2 = Some dm' /\
  domain_ok (v3 1 1 0) 2 dm /\ domain_ok (v3 1 1 0) 2 dm' /\
  Forall (event_ok 99 (v3 1 1 0) 2) [ECall true 9 3 9; ECall false 9 0 3; ECall true 9 3 9; EBalance dm'; ECall true 9 3 9] /\
  exists a b d, expected (v3 1 1 0) 2 0 dm [ECall true 9 3 9; ECall false 9 0 3; ECall true 9 3 9; EBalance dm'; ECall true 9 3 9] = [Some a; Some b; Some a; None; Some d] /\
    a <> b /\ a <> d.
Proof.
  destruct (domain_setup CURVE_BYDIM (v3 2 2 1) (v3 8 8 1) (v3 true false false) None 2) as [dm|] eqn:E; [|vm_compute in E; discriminate E].
  destruct (domain_setup CURVE_BYDIM (v3 2 2 1) (v3 8 8 1) (v3 true false false) (Some [1; 3]) 2) as [dm'|] eqn:E'; [|vm_compute in E'; discriminate E'].
  exists dm, dm'. split; [reflexivity|]. split; [reflexivity|].
  assert (D : domain_ok (v3 1 1 0) 2 dm).
  { exists CURVE_BYDIM, (v3 2 2 1), (v3 8 8 1), (v3 true false false), None. split; [intros []; cbn; lia|]. split; [exact E|]. split; [cbn; lia|]. split; [exact Logic.I|]. intros []; vm_compute; split; discriminate. }
  assert (D' : domain_ok (v3 1 1 0) 2 dm').
  { exists CURVE_BYDIM, (v3 2 2 1), (v3 8 8 1), (v3 true false false), (Some [1; 3]). split; [intros []; cbn; lia|]. split; [exact E'|]. split; [vm_compute; repeat constructor; discriminate|]. split; [vm_compute; reflexivity|]. intros []; vm_compute; split; discriminate. }
  split; [exact D|]. split; [exact D'|]. split; [repeat constructor; cbn; try lia; exact D'|].
  vm_compute in E, E'. injection E as <-. injection E' as <-. eexists _, _, _. split; [vm_compute; reflexivity|]. split; discriminate.
Qed.
