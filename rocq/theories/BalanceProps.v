(** The theorems about load balancing (properties C06 to C08). *)
From Verif Require Import Base DomainModel DomainSpec DomainProofs HilbertDomainProofs DomainBoxProofs
  MpiModel MpiProofs BalanceModel BalanceSpec BalanceMapProofs BalanceMoveProofs BalanceCommProofs.
From Coq Require Import Reals Lra.
From Flocq Require Import Core.
Local Open Scope Z_scope.

(** C06: with positive loads and no more processes than patches, every process
    gets at least one patch and no patch is lost (exact arithmetic) ... *)
Theorem C06_best_mapping : forall loads n_procs,
  Forall (fun x => 0 < x)%R loads -> 1 <= n_procs <= Z.of_nat (length loads) ->
  exists l, best_mapping (fun x => x) n_procs loads = Some l /\
    Z.of_nat (length l) = n_procs /\ Forall (fun c => 1 <= c) l /\ zsum l = Z.of_nat (length loads).
Proof. exact best_mapping_exact. Qed.
Print Assumptions C06_best_mapping.

(** ... and also with every operation rounded to nearest in a binary format with
    [prec] bits (53 for double), for loads that are not tiny. *)
Theorem C06_best_mapping_float : forall emin prec, Prec_gt_0 prec -> 2 < prec ->
  forall loads n_procs,
  Forall (fun x => (bpow radix2 (emin + prec) <= x)%R) loads ->
  1 <= n_procs <= Z.of_nat (length loads) -> n_procs <= 2 ^ (prec - 2) ->
  exists l, best_mapping (round radix2 (FLT_exp emin prec) ZnearestE) n_procs loads = Some l /\
    Z.of_nat (length l) = n_procs /\ Forall (fun c => 1 <= c) l /\ zsum l = Z.of_nat (length loads).
Proof. intros. eapply best_mapping_float; eassumption. Qed.
Print Assumptions C06_best_mapping_float.

(** The loads the code computes are positive whenever the field weight is. *)
Theorem C06_loads_positive : forall factor ldims n,
  (0 < factor)%R -> (forall d, 0 < get3 ldims d) -> 0 <= n ->
  (0 < patch_load (fun x => x) factor ldims n)%R.
Proof. exact patch_load_pos. Qed.
Print Assumptions C06_loads_positive.

(** What the balancer hands on: the "unchanged" marker, exactly when the best
    mapping is the present one, or a full mapping. *)
Theorem C06_find_best_mapping : forall old loads,
  Forall (fun x => 0 < x)%R loads -> (1 <= length old <= length loads)%nat ->
  exists new, find_best_mapping (fun x => x) old loads = Some new /\ length new = length old /\
    (Forall (fun c => c = -1) new /\ best_mapping (fun x => x) (Z.of_nat (length old)) loads = Some old \/
     Forall (fun c => 1 <= c) new /\ zsum new = Z.of_nat (length loads) /\ new <> old).
Proof. exact find_best_mapping_ok. Qed.
Print Assumptions C06_find_best_mapping.

Example ex_C06 : Forall (fun x => 0 < x)%R [4; 1; 1; 1; 1]%R /\ 1 <= 3 <= Z.of_nat (length [4; 1; 1; 1; 1]%R).
Proof. split; [repeat constructor; lra|cbn; lia]. Qed.

Example ex_C06_value : best_mapping (fun x => x) 2 [3; 1; 1; 1]%R = Some [1; 3].
Proof. exact best_mapping_example. Qed.

(** C07: with all loads zero -- no particles and no weight for the fields -- the
    search runs off the end of the loads, for any number of processes ... *)
Theorem C07_all_zero_fails : forall loads n_procs,
  Forall (fun x => x = 0)%R loads -> 2 <= n_procs -> best_mapping (fun x => x) n_procs loads = None.
Proof. exact best_mapping_all_zero. Qed.
Print Assumptions C07_all_zero_fails.

(** ... and it does so already if the loads at the end are zero; there are as
    many patches as processes here. *)
Theorem C07_some_zero_loads_refuted : exists loads n_procs,
  Forall (fun x => 0 <= x)%R loads /\ (exists x, In x loads /\ 0 < x)%R /\
  1 <= n_procs <= Z.of_nat (length loads) /\ best_mapping (fun x => x) n_procs loads = None.
Proof.
  exists [1; 0; 0; 0]%R, 4. split; [repeat constructor; lra|].
  split; [exists 1%R; split; [now left|lra]|]. split; [cbn; lia|]. exact best_mapping_tail_zero.
Qed.
Print Assumptions C07_some_zero_loads_refuted.

(** What remains true: if only the last patch of the curve has load, loads of
    zero elsewhere do no harm.  Missing from the full statement: a last patch
    without load, where the two theorems above show the failure. *)
Theorem C07_zero_loads_partial : forall loads n_procs last,
  Forall (fun x => 0 <= x)%R loads -> (0 < last)%R -> 1 <= n_procs <= Z.of_nat (length (loads ++ [last])) ->
  exists l, best_mapping (fun x => x) n_procs (loads ++ [last]) = Some l /\
    Z.of_nat (length l) = n_procs /\ Forall (fun c => 1 <= c) l /\
    zsum l = Z.of_nat (length (loads ++ [last])).
Proof. exact best_mapping_last. Qed.
Print Assumptions C07_zero_loads_partial.

Example ex_C07_partial : Forall (fun x => 0 <= x)%R [0; 5; 0]%R /\ (0 < 2)%R /\
  1 <= 3 <= Z.of_nat (length ([0; 5; 0] ++ [2])%R).
Proof. split; [repeat constructor; lra|]. split; [lra|cbn; lia]. Qed.

Example ex_C07 : Forall (fun x => x = 0)%R [0; 0; 0]%R /\ 2 <= 3.
Proof. split; [repeat constructor|lia]. Qed.

(** C08: rebalancing moves every patch's fields to its new owner, in curve
    order, whatever the order of arrival; sends and receives match one to one. *)
Theorem C08_fields : forall c np gdims per size co cn dom_old dom_new,
  all_pos np ->
  domain_setup c np gdims per (Some co) size = Some dom_old ->
  domain_setup c np gdims per (Some cn) size = Some dom_new ->
  spreads co (volume np) size -> spreads cn (volume np) size ->
  forall (D : Type) (glob : list D), Z.of_nat (length glob) = volume np ->
  exists msgs,
    field_messages dom_old dom_new (zrange 0 size) (distribute co glob) = Some msgs /\
    balanced msgs (phase_recvs dom_old dom_new (zrange 0 size) field_posts) /\
    forall pool r, Permutation pool msgs -> 0 <= r < size ->
      fields_after dom_old dom_new pool (distribute co glob) r = Some (distribute cn glob r).
Proof.
  intros c np gdims per size co cn dom_old dom_new Hpos Ho Hn [L1 V1] [L2 V2] D glob Hl.
  destruct (fields_ok c np gdims per size (Some co) (Some cn) dom_old dom_new Hpos Ho Hn V1 V2 L1 L2 glob Hl)
    as [msgs [E H]].
  exists msgs. split; [exact E|]. split; [|exact H].
  exact (phase_balanced c np gdims per size (Some co) (Some cn) dom_old dom_new Hpos Ho Hn V1 V2 L1 L2
           field_posts glob msgs field_posts_spec field_posts_nodup Hl E).
Qed.
Print Assumptions C08_fields.

(** The numbers of particles arrive first ... *)
Theorem C08_particle_numbers : forall c np gdims per size co cn dom_old dom_new,
  all_pos np ->
  domain_setup c np gdims per (Some co) size = Some dom_old ->
  domain_setup c np gdims per (Some cn) size = Some dom_new ->
  spreads co (volume np) size -> spreads cn (volume np) size ->
  forall n : list Z, Z.of_nat (length n) = volume np ->
  exists msgs,
    count_messages dom_old dom_new (zrange 0 size) (distribute co n) = Some msgs /\
    balanced msgs (phase_recvs dom_old dom_new (zrange 0 size) (fun r i => count_posts r (build_by_ri i))) /\
    forall pool r, Permutation pool msgs -> 0 <= r < size ->
      new_n_prts dom_old dom_new pool (distribute co n) r = Some (distribute cn n r).
Proof.
  intros c np gdims per size co cn dom_old dom_new Hpos Ho Hn [L1 V1] [L2 V2] n Hl.
  destruct (counts_ok c np gdims per size (Some co) (Some cn) dom_old dom_new Hpos Ho Hn V1 V2 L1 L2 n Hl)
    as [msgs [E [_ H]]].
  exists msgs. split; [exact E|]. split; [|exact H].
  exact (counts_balanced c np gdims per size (Some co) (Some cn) dom_old dom_new Hpos Ho Hn V1 V2 L1 L2 n msgs Hl E).
Qed.
Print Assumptions C08_particle_numbers.

(** ... then the particles: every patch's particles, in order, end up with its
    new owner. *)
Theorem C08_particles : forall c np gdims per size co cn dom_old dom_new,
  all_pos np ->
  domain_setup c np gdims per (Some co) size = Some dom_old ->
  domain_setup c np gdims per (Some cn) size = Some dom_new ->
  spreads co (volume np) size -> spreads cn (volume np) size ->
  forall (P : Type) (glob : list (list P)), Z.of_nat (length glob) = volume np ->
  exists msgs,
    particle_messages dom_old dom_new (zrange 0 size) (distribute co glob) = Some msgs /\
    balanced msgs (phase_recvs dom_old dom_new (zrange 0 size) (fun r i => particle_sends r (build_by_ri i))) /\
    forall pool r, Permutation pool msgs -> 0 <= r < size ->
      particles_after dom_old dom_new pool
        (distribute cn (map (fun prts => Z.of_nat (length prts)) glob) r) (distribute co glob) r
      = Some (distribute cn glob r).
Proof.
  intros c np gdims per size co cn dom_old dom_new Hpos Ho Hn [L1 V1] [L2 V2] P glob Hl.
  destruct (particles_ok c np gdims per size (Some co) (Some cn) dom_old dom_new Hpos Ho Hn V1 V2 L1 L2 glob Hl)
    as [msgs [E H]].
  exists msgs. split; [exact E|]. split; [|exact H].
  exact (phase_balanced c np gdims per size (Some co) (Some cn) dom_old dom_new Hpos Ho Hn V1 V2 L1 L2
           (fun r i => particle_sends r (build_by_ri i)) glob msgs
           (fun rank infos => particle_sends_spec rank infos) particle_sends_nodup Hl E).
Qed.
Print Assumptions C08_particles.

(** The initial distribution is a prescribed one, so the above covers it. *)
Theorem C08_initial : forall c np gdims per size,
  domain_setup c np gdims per None size
  = domain_setup c np gdims per (Some (default_counts (volume np) size)) size.
Proof. reflexivity. Qed.
Print Assumptions C08_initial.

(** The three phases use overlapping channels; as each is balanced, a receive
    never gets a message of another phase, however the phases overlap in time. *)
Theorem C08_phases : forall (D : Type) (phases : list (list (chan * D) * list chan)),
  Forall (fun ph => balanced (fst ph) (snd ph)) phases ->
  fifo (concat (map fst phases)) [] (concat (map snd phases))
  = concat (map (fun ph => fifo (fst ph) [] (snd ph)) phases).
Proof. intros D. exact fifo_phases. Qed.
Print Assumptions C08_phases.

(** 3x1x5 patches on 4 processes, moving patches between all of them *)
Example ex_C08 : exists dom_old dom_new msgs,
  domain_setup CURVE_HILBERT (v3 3 1 5) (v3 12 1 20) (v3 true true false) (Some [4; 4; 4; 3]) 4 = Some dom_old
  /\ domain_setup CURVE_HILBERT (v3 3 1 5) (v3 12 1 20) (v3 true true false) (Some [1; 8; 0; 6]) 4 = Some dom_new
  /\ spreads [4; 4; 4; 3] (volume (v3 3 1 5)) 4 /\ spreads [1; 8; 0; 6] (volume (v3 3 1 5)) 4
  /\ field_messages dom_old dom_new (zrange 0 4) (distribute [4; 4; 4; 3] (zrange 100 115)) = Some msgs
  /\ length msgs = 7%nat
  /\ fields_after dom_old dom_new (rev msgs) (distribute [4; 4; 4; 3] (zrange 100 115)) 1 = Some (zrange 101 109)
  /\ fields_after dom_old dom_new (rev msgs) (distribute [4; 4; 4; 3] (zrange 100 115)) 2 = Some [].
Proof.
  eexists _, _, _. split; [vm_compute; reflexivity|]. split; [vm_compute; reflexivity|].
  split; [repeat split; repeat constructor; lia|]. split; [repeat split; repeat constructor; lia|].
  split; [vm_compute; reflexivity|]. repeat split; vm_compute; reflexivity.
Qed.
