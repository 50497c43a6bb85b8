(** C69: heating. *)
From Coq Require Import Reals Lra Permutation.
From Flocq Require Import Core.
From Verif Require Import Base Arr RSum DepositModel DepositProofs MomentModel CudaPrtModel CudaPrtSpec CudaLaunchModel CudaMomModel HeatModel HeatSpec HeatProofs.
Local Open Scope Z_scope.

(** The spot: H is the rate of the specification (within the foil the sum over the spot and its images), never
    negative, at most nine (in y and z three) times the strength, and zero outside of the foil. *)
Theorem C69_rate : forall s crd k, spot_ok s -> 0 <= k < alen (h_T s) ->
  exists H, spot_H s crd k = Some H /\ H = rate s (c0 crd) (c1 crd) (c2 crd) k /\
    (0 <= H <= (if h_yz s then 3 else 9) * strength s k)%R /\ (~ (h_zl s < c2 crd < h_zh s) -> H = 0)%R.
Proof.
  intros s crd k ok Hk. exists (rate s (c0 crd) (c1 crd) (c2 crd) k). split; [apply H_rate; assumption|]. split; [reflexivity|]. split; [apply rate_bounds; exact ok|].
  intros N. unfold rate. destruct (Rlt_dec _ _); [|reflexivity]. destruct (Rlt_dec _ _); [|reflexivity]. exfalso. apply N. lra.
Qed.
Print Assumptions C69_rate.

Definition ex69_s : spot := Spot 0 2 0 1 1 [1; 0]%R 4 1 8 true.

Lemma ex69_sok : spot_ok ex69_s.
Proof. split; [reflexivity|]. split; [intros T [<-|[<-|[]]]; lra|]. cbn. lra. Qed.

Lemma ex69_strength : strength ex69_s 0 = 2%R.
Proof. unfold strength. cbn. rewrite sqrt_1. replace 4%R with (2 * 2)%R by ring. rewrite sqrt_square by lra. field. Qed.

Lemma ex69_rate x : (rate ex69_s x 1 1 0 > 2)%R /\ (rate ex69_s x 1 1 0 <= 6)%R.
Proof.
  pose proof (rate_bounds ex69_s x 1 1 0 ex69_sok) as [_ B]. rewrite ex69_strength in B. cbn [ex69_s h_yz] in B. split; [|lra].
  unfold rate. cbn [ex69_s h_zl h_zh h_rH h_yz h_xc h_yc h_Lx h_Ly]. destruct (Rlt_dec _ _); [|exfalso; lra]. destruct (Rlt_dec _ _); [|exfalso; lra]. destruct (Req_EM_T _ _); [exfalso; lra|].
  fold ex69_s. change (strength {| h_zl := 0; h_zh := 2; h_xc := 0; h_yc := 1; h_rH := 1; h_T := [1; 0]%R; h_Mi := 4; h_Lx := 1; h_Ly := 8; h_yz := true |} 0) with (strength ex69_s 0). rewrite ex69_strength.
  cbn [flat_map map app]. rewrite !rsum_cons. cbn [rsum fold_right]. unfold gauss. cbn [h_yz h_rH].
  match goal with |- context [(exp ?a + (exp ?b + (exp ?c + 0)))%R] => pose proof (exp_pos a); pose proof (exp_pos c); replace b with 0%R by (cbn; unfold Rsqr; field) end. rewrite exp_0. lra.
Qed.

(** in the centre of the spot of a foil from z = 0 to 2, and outside *)
Example ex_C69_rate : spot_ok ex69_s /\ 0 <= 0 < alen (h_T ex69_s) /\ (exists H, spot_H ex69_s (v3 0 1 1)%R 0 = Some H /\ 2 < H <= 6)%R /\
  spot_H ex69_s (v3 0 1 3)%R 0 = Some 0%R /\ spot_H ex69_s (v3 0 1 1)%R 2 = None.
Proof.
  split; [apply ex69_sok|]. split; [cbn; lia|]. split.
  { destruct (C69_rate ex69_s (v3 0 1 1)%R 0 ex69_sok ltac:(cbn; lia)) as (H & E & EH & _). exists H. split; [exact E|]. pose proof (ex69_rate 0) as [A B]. cbn [c0 c1 c2] in EH. lra. }
  split; [|reflexivity]. destruct (C69_rate ex69_s (v3 0 1 3)%R 0 ex69_sok ltac:(cbn; lia)) as (H & E & _ & _ & Z0). rewrite E. f_equal. apply Z0. cbn. lra.
Qed.

(** At the two sides of a periodic domain the rates differ by at most that of a spot one domain away (they
    are not equal: only the nearest images are summed). *)
Theorem C69_seam : forall s x z k, spot_ok s -> h_yz s = true -> h_rH s <> 0%R -> (0 <= h_yc s <= h_Ly s)%R ->
  (Rabs (rate s x (h_Ly s) z k - rate s x 0 z k) <= strength s k * exp (- (Rsqr (h_Ly s) / Rsqr (h_rH s))))%R.
Proof. exact seam. Qed.
Print Assumptions C69_seam.

Example ex_C69_seam : spot_ok ex69_s /\ h_yz ex69_s = true /\ h_rH ex69_s <> 0%R /\ (0 <= h_yc ex69_s <= h_Ly ex69_s)%R /\
  (Rabs (rate ex69_s 0 8 1 0 - rate ex69_s 0 0 1 0) <= 2 * exp (- 64))%R.
Proof.
  assert (A : (0 <= h_yc ex69_s <= h_Ly ex69_s)%R) by (cbn; lra). assert (N : h_rH ex69_s <> 0%R) by (cbn; lra).
  split; [apply ex69_sok|]. split; [reflexivity|]. split; [exact N|]. split; [exact A|].
  pose proof (C69_seam ex69_s 0 1 0 ex69_sok eq_refl N A) as S. rewrite ex69_strength in S. replace (Rsqr (h_Ly ex69_s) / Rsqr (h_rH ex69_s))%R with 64%R in S by (cbn; unfold Rsqr; field). exact S.
Qed.

(** The CPU: if of the values drawn for every particle some round has six numbers below 1, all goes well, and each
    particle has its momentum changed by the square root of rate times time, times normals made of the first such round; nothing
    else of it changes.  The normals are bounded by sqrt(48 ln 2), since no float from random() is between 1 - 2^-24 and 1. *)
Theorem C69_cpu : forall s hdt xbs rnd mprts, spot_ok s -> alen xbs = alen mprts ->
  (forall b x, In b mprts -> In x b -> 0 <= mp_kind x < alen (h_T s)) ->
  (forall p n d k, In d (rnd p n) -> 0 <= d k < 2 ^ 31) ->
  (forall p n, exists d, In d (rnd p n) /\ forall k, 0 <= k < 6 -> (ran (d k) < 1)%R) ->
  exists mprts', cpu_heating s hdt xbs rnd mprts = Some mprts' /\ alen mprts' = alen mprts /\
    forall p b xb, aget mprts p = Some b -> aget xbs p = Some xb -> exists b', aget mprts' p = Some b' /\ alen b' = alen b /\
      forall n x, aget b n = Some x -> exists x', aget b' n = Some x' /\ (rate_at s xb x = 0%R -> x' = x) /\
        exists l d l', rnd p n = l ++ d :: l' /\ (forall e, In e l -> exists k, 0 <= k < 6 /\ ran (e k) = 1%R) /\ (forall k, 0 <= k < 6 -> (ran (d k) < 1)%R) /\
          let r := box_muller (fun k => ran (d k)) in heated s hdt xb r x x' /\ forall e, (Rabs (get3 r e) <= sqrt (48 * ln 2))%R.
Proof.
  intros s hdt xbs rnd mprts ok LX HK RG RO.
  apply (cpu_ok s hdt xbs rnd mprts (fun xb rounds x x' => (rate_at s xb x = 0%R -> x' = x) /\
        exists l d l', rounds = l ++ d :: l' /\ (forall e, In e l -> exists k, 0 <= k < 6 /\ ran (e k) = 1%R) /\ (forall k, 0 <= k < 6 -> (ran (d k) < 1)%R) /\
          let r := box_muller (fun k => ran (d k)) in heated s hdt xb r x x' /\ forall e, (Rabs (get3 r e) <= sqrt (48 * ln 2))%R) LX).
  intros p n b x xb Eb Ex Exb. apply heat_prt_ok; [exact ok|apply (HK b x (aget_In _ _ _ Eb) (aget_In _ _ _ Ex))|intros d k; apply RG|apply RO].
Qed.
Print Assumptions C69_cpu.

Lemma ran_max : ran (2 ^ 31 - 1) = 1%R.
Proof.
  unfold ran, to_float. replace (round radix2 (FLT_exp (-149) 24) ZnearestE (IZR (2 ^ 31 - 1))) with (IZR (2 ^ 31)); [apply Rinv_r; apply IZR_neq; discriminate|].
  unfold round, scaled_mantissa, cexp. rewrite (mag_unique_pos radix2 _ 31).
  2:{ change (bpow radix2 (31 - 1)) with 1073741824%R. change (bpow radix2 31) with 2147483648%R. change (IZR (2 ^ 31 - 1)) with 2147483647%R. lra. }
  change (FLT_exp (-149) 24 31) with 7. rewrite (Znearest_imp _ _ 16777216).
  - unfold F2R. cbn [Fnum Fexp]. change (bpow radix2 7) with 128%R. change (IZR (2 ^ 31)) with 2147483648%R. lra.
  - change (bpow radix2 (- (7))) with (/ 128)%R. change (IZR (2 ^ 31 - 1)) with 2147483647%R. apply Rabs_lt. lra.
Qed.

Lemma ran_half : ran (2 ^ 30) = (1 / 2)%R.
Proof.
  unfold ran, to_float. rewrite round_generic; [|typeclasses eauto|change (IZR (2 ^ 30)) with (bpow radix2 30); apply generic_format_bpow; vm_compute; discriminate].
  change (IZR (2 ^ 30)) with 1073741824%R. change (IZR (2 ^ 31)) with 2147483648%R. lra.
Qed.

Lemma alen_two {A} (l : list A) : alen l = 2 -> exists a b, l = [a; b].
Proof. unfold alen. destruct l as [|a [|b [|? ?]]]; cbn [length]; intros H; try lia. exists a, b. reflexivity. Qed.

Lemma alen_one {A} (l : list A) : alen l = 1 -> exists a, l = [a].
Proof. unfold alen. destruct l as [|a [|b l]]; cbn [length]; intros H; try lia. exists a. reflexivity. Qed.

Definition ex69_x (z : R) : mprt := MPrt (v3 0 1 z)%R (v3 0 0 0)%R 0 (-1)%R.
Definition ex69_rnd (p n : Z) : list (Z -> Z) := [fun _ => 2 ^ 31 - 1; fun _ => 2 ^ 30].

(** a round is rejected since random() gave its maximum; the particle in the foil gets the momentum of the
    next, that of the other patch (corner at z = 4) none *)
Example ex_C69_cpu : spot_ok ex69_s /\ (forall p n d k, In d (ex69_rnd p n) -> 0 <= d k < 2 ^ 31) /\
  (forall p n, exists d, In d (ex69_rnd p n) /\ forall k, 0 <= k < 6 -> (ran (d k) < 1)%R) /\
  exists x', cpu_heating ex69_s 1 [v3 0 0 0; v3 0 0 4]%R ex69_rnd [[ex69_x 1]; [ex69_x 1]] = Some [[x']; [ex69_x 1]] /\ (c0 (mp_u x') < 0)%R.
Proof.
  assert (RG : forall p n d k, In d (ex69_rnd p n) -> 0 <= d k < 2 ^ 31) by (intros p n d k [<-|[<-|[]]]; lia).
  assert (RO : forall p n, exists d, In d (ex69_rnd p n) /\ forall k, 0 <= k < 6 -> (ran (d k) < 1)%R).
  { intros p n. exists (fun _ => 2 ^ 30). split; [right; left; reflexivity|]. intros k _. rewrite ran_half. lra. }
  split; [apply ex69_sok|]. split; [exact RG|]. split; [exact RO|].
  destruct (C69_cpu ex69_s 1 [v3 0 0 0; v3 0 0 4]%R ex69_rnd [[ex69_x 1]; [ex69_x 1]] ex69_sok eq_refl) as (m & E & L & G); [|exact RG|exact RO|].
  { intros b x Hb Hx. destruct Hb as [<-|[<-|[]]]; destruct Hx as [<-|[]]; cbn; lia. }
  destruct (G 0 [ex69_x 1] (v3 0 0 0)%R eq_refl eq_refl) as (b0 & E0 & L0 & G0). destruct (G0 0 _ eq_refl) as (x0 & X0 & _ & l & d & l' & El & Hl & Hd & Hh & _).
  destruct (G 1 [ex69_x 1] (v3 0 0 4)%R eq_refl eq_refl) as (b1 & E1 & L1 & G1). destruct (G1 0 _ eq_refl) as (x1 & X1 & Z1 & _).
  assert (x1 = ex69_x 1) as ->.
  { apply Z1. unfold rate_at, rate. cbn. destruct (Rlt_dec _ _); [|reflexivity]. destruct (Rlt_dec _ _); [exfalso; lra|reflexivity]. }
  exists x0. split.
  - rewrite E. f_equal. destruct (alen_two m L) as (a & b & ->). cbn in E0, E1. injection E0 as ->. injection E1 as ->.
    destruct (alen_one b0 L0) as (y & ->). destruct (alen_one b1 L1) as (y' & ->). cbn in X0, X1. injection X0 as ->. injection X1 as ->. reflexivity.
  - destruct Hh as (_ & _ & _ & U). specialize (U D0). cbn [get3] in U. rewrite U. clear U.
    assert (HD : forall k, d k = 2 ^ 30).
    { destruct l as [|e1 [|e2 l2]]; unfold ex69_rnd in El; cbn [app] in El.
      - exfalso. injection El as E2 _. subst d. assert (Q : (ran (2 ^ 31 - 1) < 1)%R) by exact (Hd 0 ltac:(lia)). rewrite ran_max in Q. lra.
      - injection El as _ E2 _. subst d. reflexivity.
      - destruct l2; discriminate El. }
    unfold box_muller. cbn [gen3 c0 c1 c2 mp_u ex69_x]. rewrite !HD, ran_half. change (mp_u (ex69_x 1)) with (v3 0 0 0)%R. cbn [c0].
    replace (2 * PI * (1 / 2))%R with PI by field. rewrite cos_PI.
    match goal with |- (0 + sqrt ?a * (sqrt ?b * -1) < 0)%R => assert (0 < sqrt a)%R; [apply sqrt_lt_R0|assert (0 < sqrt b)%R; [apply sqrt_lt_R0|nra]] end.
    + rewrite Rmult_1_r. change (mp_kind (ex69_x 1)) with 0. change (mp_x (ex69_x 1)) with (v3 0 1 1)%R. cbn [c0 c1 c2]. rewrite !Rplus_0_r. pose proof (ex69_rate 0) as [A _]. lra.
    + assert (0 < ln (/ (1 - 1 / 2)))%R; [|lra]. rewrite <- ln_1. apply ln_increasing; lra.
Qed.

(** The GPU: whatever was done before (rebalancing, other users of the random numbers, calls of the heating), for any store that holds the
    particles [S], whatever is drawn and in whatever order threads run and store: the kernel finds the corners of the patches
    as they are now and generators for all its threads, no access is outside of an array, and what the store holds is [S] with
    each particle heated at its place by what is drawn for its slot. *)
Theorem C69_gpu : forall nk s hdt g xbs cnt rng hs cell c (S : list (Z * mprt)) r, let cpos := fun x => cell (mp_x x) in
  hreach nk s hdt (HWorld g xbs cnt rng hs) -> geom_ok g -> spot_ok s -> nk <= 4 -> alen xbs = g_np g ->
  represents cpos g c S -> (forall w, In w S -> 0 <= mp_kind (snd w) < alen (h_T s)) ->
  (exists o, heating_runs g nk s hdt xbs cnt rng hs r c o) /\
  forall o, heating_runs g nk s hdt xbs cnt rng hs r c o -> exists c' hs' L L', o = Some (c', hs', rng) /\ (S <> [] -> hs' = HState false cnt xbs) /\
    Permutation L S /\ represents cpos g c' L' /\ alen L' = alen L /\
    forall n p x, aget L n = Some (p, x) -> exists xb x', aget xbs p = Some xb /\ aget L' n = Some (p, x') /\ heated s hdt xb (r n) x x' /\
      (rate_at s xb x = 0%R -> x' = x).
Proof.
  intros nk s hdt g xbs cnt rng hs cell c S r cpos HR ok sok H4 LX RP HK. destruct (reach_inv _ _ _ _ HR) as (I1 & I2 & I3). cbn [w_rng w_hs w_cnt w_xb] in *. pose proof (heat_need g) as HN.
  destruct (heating_ok cell g s ok sok nk hdt xbs cnt rng hs r c S H4 RP HK LX ltac:(lia) I2 I3) as [EX ALL]. split; [exact EX|].
  intros o Ho. destruct (ALL o Ho) as (c' & hs' & L & Eo & Eh & PL & R'). exists c', hs', L, (heat_list s hdt xbs r L). split; [exact Eo|]. split; [exact Eh|]. split; [exact PL|]. split; [exact R'|]. split; [apply heat_list_len|].
  intros n p x E. assert (I : In (p, x) S) by (apply (Permutation_in _ PL), (aget_In _ _ _ E)). destruct RP as (_ & R2 & _). destruct (R2 _ I) as [Hp _]. cbn [fst] in Hp.
  destruct (aget_some xbs p ltac:(lia)) as [xb Ex]. exists xb. rewrite (heat_list_get _ _ _ _ _ _ _ E). unfold heat_w. cbn [fst snd]. rewrite Ex.
  eexists. split; [reflexivity|]. split; [reflexivity|]. pose proof (rate_bounds s (c0 (mp_x x) + c0 xb) (c1 (mp_x x) + c1 xb) (c2 (mp_x x) + c2 xb) (mp_kind x) sok) as [RB _]. fold (rate_at s xb x) in RB.
  destruct (Rlt_dec _ _) as [HP|HZ].
  - split; [apply add_u_heated; reflexivity|]. intros Z0. lra.
  - split; [apply heated_zero; lra|reflexivity].
Qed.
Print Assumptions C69_gpu.

Definition ex69_g : geom := mkgeom (v3 1 4 4) (v3 1 4 4) 2 true.
Definition ex69_cell (x : V3 R) : V3 Z := gen3 (fun d => fint (get3 x d)).
Definition ex69_c : cm mprt := mkcm [ex69_x 3; ex69_x 1] [] [] [1; 0] [0; 1; 2] 2 true.
Definition ex69_S : list (Z * mprt) := [(0, ex69_x 1); (1, ex69_x 3)].
Definition ex69_xb1 : list (V3 R) := [v3 0 0 0; v3 0 0 4]%R.
Definition ex69_xb2 : list (V3 R) := [v3 0 0 4; v3 0 0 (-2)]%R.

(** after heating and rebalancing the state still has the corners of the patches before; the next call
    heats the particle of patch 1, which now is in the foil *)
Example ex_C69_gpu : geom_ok ex69_g /\ represents (fun x => ex69_cell (mp_x x)) ex69_g ex69_c ex69_S /\ (forall w, In w ex69_S -> 0 <= mp_kind (snd w) < alen (h_T ex69_s)) /\
  hreach 2 ex69_s 1 (HWorld ex69_g ex69_xb2 1 131072 (HState false 0 ex69_xb1)) /\
  (rate_at ex69_s (v3 0 0 4)%R (ex69_x 1) = 0 /\ 2 < rate_at ex69_s (v3 0 0 (-2))%R (ex69_x 3))%R.
Proof.
  assert (G : geom_ok ex69_g).
  { constructor; cbn; try lia; try (intros []; cbn; lia). intros []; cbn; apply Z.divide_refl. }
  assert (P1 : ex69_cell (mp_x (ex69_x 1)) = v3 0 1 1) by (apply v3_ext; intros d; unfold ex69_cell; rewrite get3_gen3; apply fint_unique; destruct d; cbn; lra).
  assert (P3 : ex69_cell (mp_x (ex69_x 3)) = v3 0 1 3) by (apply v3_ext; intros d; unfold ex69_cell; rewrite get3_gen3; apply fint_unique; destruct d; cbn; lra).
  assert (Rep : represents (fun x => ex69_cell (mp_x x)) ex69_g ex69_c ex69_S).
  { split; [reflexivity|]. split.
    { intros w [<-|[<-|[]]]; (split; [cbn; lia|]); cbn [snd]; rewrite ?P1, ?P3; intros []; cbn; lia. }
    intros p b Hp Hb. pose proof (Hb D0) as H0. pose proof (Hb D1) as H1. pose proof (Hb D2) as H2. destruct b as [b0 b1 b2].
    change (nblk ex69_g D0) with 1 in H0. change (nblk ex69_g D1) with 1 in H1. change (nblk ex69_g D2) with 1 in H2. cbn [get3 c0 c1 c2] in H0, H1, H2. cbn [ex69_g g_np] in Hp.
    assert (b0 = 0) as -> by lia. assert (b1 = 0) as -> by lia. assert (b2 = 0) as -> by lia. assert (p = 0 \/ p = 1) as [-> | ->] by lia.
    - exists [ex69_x 1]. split.
      + exists 0, 1. split; [reflexivity|]. split; [reflexivity|]. split; [lia|]. split; [cbn; lia|]. split; [reflexivity|].
        intros i Hi. assert (i = 0) as -> by lia. cbn [c_re ex69_c]. exists 1. split; reflexivity.
      + unfold ex69_S. cbn [filter map fst snd]. rewrite P1, P3. apply Permutation_refl.
    - exists [ex69_x 3]. split.
      + exists 1, 2. split; [reflexivity|]. split; [reflexivity|]. split; [lia|]. split; [cbn; lia|]. split; [reflexivity|].
        intros i Hi. assert (i = 0) as -> by lia. cbn [c_re ex69_c]. exists 0. split; reflexivity.
      + unfold ex69_S. cbn [filter map fst snd]. rewrite P1, P3. apply Permutation_refl. }
  assert (K : forall w, In w ex69_S -> 0 <= mp_kind (snd w) < alen (h_T ex69_s)) by (intros w [<-|[<-|[]]]; cbn; lia).
  split; [exact G|]. split; [exact Rep|]. split; [exact K|]. split.
  - assert (R0 : hreach 2 ex69_s 1 (HWorld ex69_g ex69_xb1 0 131072 heat_init)) by (apply hr_start; lia).
    destruct (C69_gpu 2 ex69_s 1 ex69_g ex69_xb1 0 131072 heat_init ex69_cell ex69_c ex69_S (fun _ => v3 0 0 0)%R R0 G ex69_sok ltac:(lia) eq_refl Rep K) as [[o Ho] A].
    destruct (A o Ho) as (c' & hs' & L & L' & -> & E & _). rewrite (E ltac:(discriminate)) in Ho.
    assert (R1 : hreach 2 ex69_s 1 (HWorld ex69_g ex69_xb1 0 131072 (HState false 0 ex69_xb1))) by (eapply hr_step; [exact R0|]; eapply hs_heat; exact Ho).
    eapply hr_step; [exact R1|]. apply (hs_balance 2 ex69_s 1 ex69_g ex69_xb1 0 131072 _ ex69_g ex69_xb2).
  - split.
    + unfold rate_at, rate. cbn. destruct (Rlt_dec _ _); [|reflexivity]. destruct (Rlt_dec _ _); [exfalso; lra|reflexivity].
    + unfold rate_at. change (mp_kind (ex69_x 3)) with 0. change (mp_x (ex69_x 3)) with (v3 0 1 3)%R. cbn [c0 c1 c2]. replace (0 + 0)%R with 0%R by ring. replace (1 + 0)%R with 1%R by ring. replace (3 + -2)%R with 1%R by ring. apply ex69_rate.
Qed.
