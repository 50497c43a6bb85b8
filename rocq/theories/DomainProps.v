(** Properties C01-C05: domain decomposition. *)
From Coq Require Import NArith.
From Verif Require Import Base HilbertModel HilbertProofs DomainModel DomainSpec DomainProofs
  HilbertDomainProofs DomainBoxProofs.
Local Open Scope Z_scope.

(** C01: every patch has exactly one owner, lookup inverts the enumeration. *)
Theorem C01_ownership : forall c np gdims per pr size dm,
  all_pos np -> domain_setup c np gdims per pr size = Some dm ->
  counts_valid pr (volume np) size ->
  exists counts,
    match pr with
    | Some l => counts = l
    | None => Z.of_nat (length counts) = size /\ even_split counts
    end /\
    zsum counts = volume np /\
    (forall gp, 0 <= gp < volume np ->
       exists info, get_global_patch_info dm gp = Some info /\
         owns counts (pi_rank info) (pi_patch info) gp /\
         forall r p, owns counts r p gp -> r = pi_rank info /\ p = pi_patch info) /\
    (forall r k p, 0 <= r -> nth_error counts (Z.to_nat r) = Some k -> 0 <= p < k ->
       nr_patches dm r = Some k /\
       exists info, get_local_patch_info dm r p = Some info /\
         pi_rank info = r /\ pi_patch info = p /\ owns counts r p (pi_global_patch info)).
Proof. exact ownership_full. Qed.
Print Assumptions C01_ownership.

(** C01: a patch number beyond the last one has no owner (the lookup asserts). *)
Theorem C01_no_owner_beyond : forall counts gp,
  Forall (fun c => 0 <= c) counts -> zsum counts <= gp ->
  gpatch_to_rank_patch (gpatch_off_all_from 0 counts) gp = None.
Proof. exact (fun counts gp H1 H2 => search_fails counts 0 0 gp H1 H2). Qed.
Print Assumptions C01_no_owner_beyond.

Example ex_C01 : exists dm,
  domain_setup CURVE_HILBERT (v3 3 1 5) (v3 12 1 20) (v3 true true false) (Some [3; 0; 7; 5]) 4 = Some dm
  /\ all_pos (v3 3 1 5) /\ counts_valid (Some [3; 0; 7; 5]) (volume (v3 3 1 5)) 4
  /\ option_map (fun i => (pi_rank i, pi_patch i)) (get_global_patch_info dm 4) = Some (2, 1).
Proof.
  eexists. split; [vm_compute; reflexivity|]. split; [intros []; cbn; lia|].
  split; [|vm_compute; reflexivity]. split; [|reflexivity]. repeat constructor; lia.
Qed.

(** C02: the patches tile the global grid. *)
Theorem C02_tiling : forall c np gdims per pr size dm,
  all_pos np -> domain_setup c np gdims per pr size = Some dm ->
  counts_valid pr (volume np) size ->
  (forall x, in_box gdims x <->
     exists gp info, 0 <= gp < volume np /\ get_global_patch_info dm gp = Some info /\
       in_patch (pi_off info) (pi_ldims info) x) /\
  (forall gp1 info1 gp2 info2 x,
     0 <= gp1 < volume np -> get_global_patch_info dm gp1 = Some info1 ->
     0 <= gp2 < volume np -> get_global_patch_info dm gp2 = Some info2 ->
     in_patch (pi_off info1) (pi_ldims info1) x -> in_patch (pi_off info2) (pi_ldims info2) x ->
     gp1 = gp2) /\
  (forall gp, 0 <= gp < volume np -> exists info, get_global_patch_info dm gp = Some info /\
     forall d, get3 (pi_ldims info) d * get3 np d = get3 gdims d).
Proof. exact tiling_full. Qed.
Print Assumptions C02_tiling.

(** C02: which decompositions are accepted. *)
Theorem C02_accepts : forall c np gdims per pr size s, all_pos np ->
  (forall d, get3 gdims d mod get3 np d = 0) -> sfc_setup c np = Some s ->
  exists dm, domain_setup c np gdims per pr size = Some dm.
Proof. exact domain_accepts. Qed.
Print Assumptions C02_accepts.

Example ex_C02 : exists dm,
  domain_setup CURVE_MORTON (v3 2 1 4) (v3 12 3 20) (v3 true true false) None 3 = Some dm
  /\ all_pos (v3 2 1 4) /\ counts_valid None (volume (v3 2 1 4)) 3
  /\ option_map (fun i => (pi_off i, pi_ldims i)) (get_global_patch_info dm 6)
     = Some (v3 0 0 15, v3 6 3 5).
Proof.
  eexists. split; [vm_compute; reflexivity|]. split; [intros []; cbn; lia|].
  split; [cbn; lia|vm_compute; reflexivity].
Qed.

(** C03: row-major ordering, any patch grid. *)
Theorem C03_bydim : forall np s, all_pos np -> sfc_setup CURVE_BYDIM np = Some s ->
  bijective_on np (sfc_idx3_to_idx s) (sfc_idx_to_idx3 s).
Proof. exact (fun np s => curve_bijective CURVE_BYDIM np s). Qed.
Print Assumptions C03_bydim.

(** C03: Morton ordering; set-up accepts exactly the power-of-two grids. *)
Theorem C03_morton : forall np,
  ((forall d, is_pow2 (get3 np d)) <-> exists s, sfc_setup CURVE_MORTON np = Some s) /\
  (forall s, sfc_setup CURVE_MORTON np = Some s ->
     bijective_on np (sfc_idx3_to_idx s) (sfc_idx_to_idx3 s)).
Proof. exact (fun np => conj (morton_accepts np) (morton_bijective np)). Qed.
Print Assumptions C03_morton.

Example ex_C03 : exists s, sfc_setup CURVE_MORTON (v3 8 1 2) = Some s
  /\ sfc_idx_to_idx3 s 11 = Some (v3 5 0 1) /\ sfc_idx3_to_idx s (v3 5 0 1) = Some 11.
Proof. eexists. split; [vm_compute; reflexivity|]. split; vm_compute; reflexivity. Qed.

(** C04: the bit-level Hilbert conversions are inverse bijections. *)
Theorem C04_hilbert_core : forall d n, (d = 2 \/ d = 3)%N -> (1 <= n)%N -> (d * n <= 64)%N ->
  (forall index, (index < 2 ^ (d * n))%N ->
     length (hilbert_i2c d n index) = N.to_nat d /\
     Forall (fun c => (c < 2 ^ n)%N) (hilbert_i2c d n index) /\
     hilbert_c2i d n (hilbert_i2c d n index) = Some index) /\
  (forall coord, length coord = N.to_nat d -> Forall (fun c => (c < 2 ^ n)%N) coord ->
     exists index, hilbert_c2i d n coord = Some index /\ (index < 2 ^ (d * n))%N
                   /\ hilbert_i2c d n index = coord).
Proof.
  exact (fun d n Hd Hn Hb => conj
    (fun index Hi => conj (proj1 (i2c_wf d n Hd Hn Hb index))
       (conj (proj2 (i2c_wf d n Hd Hn Hb index)) (c2i_i2c d n Hd Hn Hb index Hi)))
    (i2c_c2i d n Hd Hn Hb)).
Qed.
Print Assumptions C04_hilbert_core.

(** C04: the Hilbert ordering of any patch grid that set-up accepts, power of two
    or not, is a bijection ... *)
Theorem C04_hilbert : forall np s, all_pos np -> sfc_setup CURVE_HILBERT np = Some s ->
  bijective_on np (sfc_idx3_to_idx s) (sfc_idx_to_idx3 s).
Proof. exact hilbert_bijective. Qed.
Print Assumptions C04_hilbert.

(** ... and set-up accepts every grid of up to 1024 patches per direction. *)
Theorem C04_hilbert_accepts : forall np, (forall d, 1 <= get3 np d <= 1024) ->
  exists s, sfc_setup CURVE_HILBERT np = Some s.
Proof. exact hilbert_accepts. Qed.
Print Assumptions C04_hilbert_accepts.

(** With one direction unused, up to 32768 patches per direction. *)
Theorem C04_hilbert_accepts_2d : forall np d0, get3 np d0 = 1 ->
  (forall d, 1 <= get3 np d <= 32768) -> exists s, sfc_setup CURVE_HILBERT np = Some s.
Proof. exact hilbert_accepts_2d. Qed.
Print Assumptions C04_hilbert_accepts_2d.

Example ex_C04 : exists s, sfc_setup CURVE_HILBERT (v3 3 2 5) = Some s
  /\ option_map (sfc_idx3_to_idx s) (sfc_idx_to_idx3 s 17) = Some (Some 17).
Proof. eexists. split; [vm_compute; reflexivity|]. vm_compute; reflexivity. Qed.

(** C05: neighbour lookup never fails, is missing exactly at non-periodic sides,
    returns the wrapped coordinate, and is symmetric. *)
Theorem C05_neighbours : forall c np gdims per pr size dm r k p dir,
  all_pos np -> domain_setup c np gdims per pr size = Some dm ->
  counts_valid pr (volume np) size ->
  0 <= r -> nr_patches dm r = Some k -> 0 <= p < k ->
  (forall d, -1 <= get3 dir d <= 1) ->
  exists info, get_local_patch_info dm r p = Some info /\
  ((leaves np per (pi_idx3 info) dir /\ get_neighbor_rank_patch dm r p dir = Some None) \/
   (~ leaves np per (pi_idx3 info) dir /\
    exists r' p' info', get_neighbor_rank_patch dm r p dir = Some (Some (r', p')) /\
      get_local_patch_info dm r' p' = Some info' /\ pi_rank info' = r' /\ pi_patch info' = p' /\
      (forall d, nei_coord (get3 np d) (get3 per d) (get3 (pi_idx3 info) d) (get3 dir d)
                           (get3 (pi_idx3 info') d)) /\
      get_neighbor_rank_patch dm r' p' (gen3 (fun d => - get3 dir d)) = Some (Some (r, p)))).
Proof. exact neighbour_full. Qed.
Print Assumptions C05_neighbours.

Example ex_C05 : exists dm,
  domain_setup CURVE_HILBERT (v3 3 1 5) (v3 12 1 20) (v3 true true false) None 4 = Some dm
  /\ nr_patches dm 2 = Some 4
  /\ get_neighbor_rank_patch dm 2 1 (v3 (-1) 0 1) <> None
  /\ get_neighbor_rank_patch dm 0 0 (v3 0 0 (-1)) = Some None
  /\ get_neighbor_rank_patch dm 0 0 (v3 (-1) 1 1) = Some (Some (2, 2))
  /\ get_neighbor_rank_patch dm 2 2 (v3 1 (-1) (-1)) = Some (Some (0, 0)).
Proof.
  eexists. split; [vm_compute; reflexivity|].
  repeat split; try (vm_compute; reflexivity). vm_compute; discriminate.
Qed.
