From Coq Require Import Reals Lra.
From Verif Require Import Base Arr RSum DomainModel DomainSpec DomainProofs DomainBoxProofs MpiModel MpiProofs BalanceModel BalanceMoveProofs BalanceCommProofs
  CollisionProofs BndPrtModel DdcPrtModel DdcPrtSpec DdcPrtProofs SetupProofs GhostModel GhostSpec.
Local Open Scope Z_scope.

(** ** buffers *)

Lemma buf_get_in {T} (ws : list (Z * T)) k v : NoDup (map fst ws) -> In (k, v) ws -> buf_get ws k = Some v.
Proof.
  induction ws as [|[j w] ws IH]; intros ND H; [destruct H|]. cbn [map fst] in ND. inversion ND as [|? ? N ND']; subst. cbn [buf_get]. destruct H as [[= -> ->]|H].
  - assert (E : forall l : list (Z * T), ~ In k (map fst l) -> buf_get l k = None).
    { clear. induction l as [|[j w] l IH]; intros H; [reflexivity|]. cbn [buf_get]. rewrite IH by (intros X; apply H; now right).
      destruct (Z.eqb_spec j k) as [->|]; [exfalso; apply H; now left|reflexivity]. }
    rewrite E by exact N. rewrite Z.eqb_refl. reflexivity.
  - rewrite (IH ND' H). reflexivity.
Qed.

(** a box *)
Definition vol (ilo ihi : V3 Z) : Z := (c0 ihi - c0 ilo) * (c1 ihi - c1 ilo) * (c2 ihi - c2 ilo).
Definition box_ok (ilo ihi : V3 Z) : Prop := forall d, get3 ilo d <= get3 ihi d.
Definition in_boxb (ilo ihi i : V3 Z) : bool := forallb (fun d => (get3 ilo d <=? get3 i d) && (get3 i d <? get3 ihi d)) dims3.

Lemma in_boxb_iff ilo ihi i : in_boxb ilo ihi i = true <-> forall d, get3 ilo d <= get3 i d < get3 ihi d.
Proof.
  unfold in_boxb. rewrite forallb_forall. split.
  - intros H d. specialize (H d). assert (I : In d dims3) by (destruct d; cbn; auto). specialize (H I). lia.
  - intros H d _. specialize (H d). lia.
Qed.

Lemma in_loop4 mb me ilo ihi m i : In (m, i) (loop4 mb me ilo ihi) <-> mb <= m < me /\ in_boxb ilo ihi i = true.
Proof.
  unfold loop4. rewrite in_flat_map, in_boxb_iff. split.
  - intros [m' [Hm H]]. apply in_flat_map in H. destruct H as [z [Hz H]]. apply in_flat_map in H. destruct H as [y [Hy H]]. apply in_map_iff in H.
    destruct H as [x [[= <- <-] Hx]]. apply in_zrange in Hm, Hx, Hy, Hz. split; [lia|]. intros []; cbn; lia.
  - intros [Hm H]. pose proof (H D0). pose proof (H D1). pose proof (H D2). cbn [get3] in *. exists m. split; [apply in_zrange; lia|].
    apply in_flat_map. exists (c2 i). split; [apply in_zrange; lia|]. apply in_flat_map. exists (c1 i). split; [apply in_zrange; lia|].
    apply in_map_iff. exists (c0 i). split; [destruct i; reflexivity|apply in_zrange; lia].
Qed.

(** consecutive numbers, block by block *)
Lemma zrange_blocks base lo hi n : 0 <= n -> lo <= hi -> flat_map (fun j => zrange (base + (j - lo) * n) (base + (j - lo) * n + n)) (zrange lo hi) = zrange base (base + (hi - lo) * n).
Proof.
  intros Hn H. pattern hi. apply (Zlt_lower_bound_ind _ lo); [|exact H]. clear hi H. intros hi IH H. destruct (Z.eq_dec hi lo) as [->|Hne].
  - rewrite !zrange_empty by lia. reflexivity.
  - replace (zrange lo hi) with (zrange lo (hi - 1) ++ [hi - 1]) by (rewrite <- zrange_snoc by lia; f_equal; lia).
    rewrite flat_map_app, IH by lia. cbn [flat_map]. rewrite app_nil_r.
    replace (base + (hi - lo) * n) with (base + (hi - 1 - lo) * n + n) by ring. symmetry. apply zrange_app. nia.
Qed.

Lemma zrange_line base lo hi : lo <= hi -> map (fun i => base + (i - lo)) (zrange lo hi) = zrange base (base + (hi - lo)).
Proof.
  intros H. replace (zrange lo hi) with (zrange (0 + lo) (hi - lo + lo)) by (f_equal; lia). rewrite zrange_shift, map_map.
  replace (zrange base (base + (hi - lo))) with (zrange (0 + base) (hi - lo + base)) by (f_equal; lia). rewrite zrange_shift.
  apply map_ext. intros. ring.
Qed.

Lemma loop4_idx base mb me ilo ihi : box_ok ilo ihi -> mb <= me ->
  map (fun '(m, i) => base + buf3 ilo ihi (m - mb) i) (loop4 mb me ilo ihi) = zrange base (base + vol ilo ihi * (me - mb)).
Proof.
  intros H Hm. pose proof (H D0) as H0. pose proof (H D1) as H1. pose proof (H D2) as H2. cbn [get3] in *. unfold loop4, vol.
  set (nx := c0 ihi - c0 ilo). set (ny := c1 ihi - c1 ilo). set (nz := c2 ihi - c2 ilo).
  assert (0 <= nx /\ 0 <= ny /\ 0 <= nz) as [Kx [Ky Kz]] by (subst nx ny nz; lia).
  rewrite map_flat_map. replace (base + nx * ny * nz * (me - mb)) with (base + (me - mb) * (nx * ny * nz)) by ring.
  rewrite <- (zrange_blocks base mb me (nx * ny * nz)) by (try exact Hm; nia). apply flat_map_ext. intros m.
  rewrite map_flat_map. replace (base + (m - mb) * (nx * ny * nz) + nx * ny * nz) with (base + (m - mb) * (nx * ny * nz) + (c2 ihi - c2 ilo) * (nx * ny)) by (fold nz; ring).
  rewrite <- (zrange_blocks _ (c2 ilo) (c2 ihi) (nx * ny)) by (try exact H2; nia). apply flat_map_ext. intros z.
  rewrite map_flat_map. set (b2 := base + (m - mb) * (nx * ny * nz) + (z - c2 ilo) * (nx * ny)).
  replace (b2 + nx * ny) with (b2 + (c1 ihi - c1 ilo) * nx) by (fold ny; ring).
  rewrite <- (zrange_blocks _ (c1 ilo) (c1 ihi) nx) by (try exact H1; lia). apply flat_map_ext. intros y.
  rewrite map_map. set (b1 := b2 + (y - c1 ilo) * nx). change (b1 + nx) with (b1 + (c0 ihi - c0 ilo)). rewrite <- zrange_line by exact H0. apply map_ext. intros x. unfold buf3. cbn [c0 c1 c2].
  fold nx ny nz. subst b1 b2. ring.
Qed.

Lemma NoDup_loop4 mb me ilo ihi : NoDup (loop4 mb me ilo ihi).
Proof.
  unfold loop4. apply (NoDup_flat_map _ _ fst); [apply NoDup_zrange|..].
  - intros m b _ H. apply in_flat_map in H. destruct H as [z [_ H]]. apply in_flat_map in H. destruct H as [y [_ H]]. apply in_map_iff in H. destruct H as [x [<- _]]. reflexivity.
  - intros m _. apply (NoDup_flat_map _ _ (fun b => c2 (snd b))); [apply NoDup_zrange|..].
    + intros z b _ H. apply in_flat_map in H. destruct H as [y [_ H]]. apply in_map_iff in H. destruct H as [x [<- _]]. reflexivity.
    + intros z _. apply (NoDup_flat_map _ _ (fun b => c1 (snd b))); [apply NoDup_zrange|..].
      * intros y b _ H. apply in_map_iff in H. destruct H as [x [<- _]]. reflexivity.
      * intros y _. apply NoDup_map_inj_in; [|apply NoDup_zrange]. intros a b _ _ [= ->]. reflexivity.
Qed.

(** a box moved by s *)
Definition plus3 (a b : V3 Z) : V3 Z := gen3 (fun d => get3 a d + get3 b d).

Lemma plus3_get a b d : get3 (plus3 a b) d = get3 a d + get3 b d.
Proof. unfold plus3. rewrite get3_gen3. reflexivity. Qed.

Lemma buf3_shift ilo ihi s m i : buf3 (plus3 ilo s) (plus3 ihi s) m (plus3 i s) = buf3 ilo ihi m i.
Proof. unfold buf3, plus3, gen3. cbn [c0 c1 c2 get3]. ring. Qed.

(** ** updates *)
Section Updates.
  Context {T : Type}.
  Implicit Types F : flds T.

  Definition update := (Z * Z * V3 Z * T)%type.
  Definition apply_u (op : T -> T -> T) F (us : list update) : flds T := fold_left (fun F '(p, m, i, v) => upd F p m i (op (F p m i) v)) us F.
  Definition at_loc (p m : Z) (i : V3 Z) (u : update) : bool :=
    let '(p', m', i', _) := u in (p =? p') && (m =? m') && (c0 i =? c0 i') && (c1 i =? c1 i') && (c2 i =? c2 i').
  Definition vals (us : list update) (p m : Z) (i : V3 Z) : list T := map snd (filter (at_loc p m i) us).

  Lemma apply_u_app op F a b : apply_u op F (a ++ b) = apply_u op (apply_u op F a) b.
  Proof. apply fold_left_app. Qed.

  Lemma apply_u_get op us : forall F p m i, apply_u op F us p m i = fold_left op (vals us p m i) (F p m i).
  Proof.
    induction us as [|[[[p' m'] i'] v] us IH]; intros F p m i; [reflexivity|]. unfold apply_u in *. cbn [fold_left]. rewrite IH. unfold vals. cbn [filter at_loc].
    unfold upd. destruct ((p =? p') && (m =? m') && (c0 i =? c0 i') && (c1 i =? c1 i') && (c2 i =? c2 i')) eqn:E; [|reflexivity].
    assert (p = p' /\ m = m' /\ c0 i = c0 i' /\ c1 i = c1 i' /\ c2 i = c2 i') as (-> & -> & E0 & E1 & E2) by lia.
    replace i' with i by (destruct i, i'; cbn in *; congruence). reflexivity.
  Qed.

  Variables (st : Z -> Z -> V3 Z -> bool) (mb me : Z).

  Lemma copy_to_buf_some F e base : (forall m i, In (m, i) (loop4 mb me (sr_ilo e) (sr_ihi e)) -> st (sr_patch e) m i = true) ->
    copy_to_buf st mb me F e base = Some (map (fun '(m, i) => (base + buf3 (sr_ilo e) (sr_ihi e) (m - mb) i, F (sr_patch e) m i)) (loop4 mb me (sr_ilo e) (sr_ihi e))).
  Proof. intros H. unfold copy_to_buf. apply sequence_map_some. intros [m i] Hi. rewrite (H m i Hi). reflexivity. Qed.

  Lemma from_buf_some op p ilo ihi base buf (v : Z -> V3 Z -> T) F :
    (forall m i, In (m, i) (loop4 mb me ilo ihi) -> st p m i = true /\ buf (base + buf3 ilo ihi (m - mb) i) = Some (v m i)) ->
    from_buf st mb me op F p ilo ihi base buf = Some (apply_u op F (map (fun '(m, i) => (p, m, i, v m i)) (loop4 mb me ilo ihi))).
  Proof.
    unfold from_buf. revert F. induction (loop4 mb me ilo ihi) as [|[m i] l IH]; intros F H; [reflexivity|]. cbn [fold_left map].
    destruct (H m i (or_introl eq_refl)) as [-> ->]. rewrite IH by (intros; apply H; now right). reflexivity.
  Qed.
End Updates.

Lemma filter_nil_iff_local {A} (f : A -> bool) l : filter f l = [] <-> forall a, In a l -> f a = false.
Proof.
  split.
  - intros E a Ha. destruct (f a) eqn:Fa; [|reflexivity]. assert (In a (filter f l)) by (apply filter_In; auto). rewrite E in H. destruct H.
  - induction l as [|a l IH]; intros H; [reflexivity|]. cbn [filter]. rewrite (H a) by now left. apply IH. intros; apply H; now right.
Qed.

Lemma pair_v3_eq (a b : Z * V3 Z) : fst a = fst b -> c0 (snd a) = c0 (snd b) -> c1 (snd a) = c1 (snd b) -> c2 (snd a) = c2 (snd b) -> a = b.
Proof. destruct a as [m [x y z]], b as [m' [x' y' z']]. cbn. congruence. Qed.

(** ** entries *)
Section Domain.
  Variables (c : curve) (np gdims : V3 Z) (per : V3 bool) (pr : option (list Z)) (size : Z) (dm : domain).
  Hypothesis Hpos : all_pos np.
  Hypothesis Hset : domain_setup c np gdims per pr size = Some dm.
  Hypothesis Hcnt : counts_valid pr (volume np) size.
  Hypothesis Hproc : processes pr size.
  Variable ibn : V3 Z.
  Let ld := grid_ldims dm.
  Hypothesis Hibn : forall d, 0 <= get3 ibn d <= get3 ld d.

  Let N := patches_of dm.
  Let nb := nbd dm.
  Let val := valid size (patches_of dm).

  (** the patch at hand, as the domain has it *)
  Lemma patch_owns r p : val r p -> exists gp, owns (counts_of pr (volume np) size) r p gp.
  Proof.
    intros [Hr Hp]. pose proof (counts_length pr (volume np) size Hcnt Hproc) as HL.
    destruct (nth_error (counts_of pr (volume np) size) (Z.to_nat r)) as [k|] eqn:E; [|apply nth_error_None in E; unfold alen in HL; lia].
    exists (zsum (firstn (Z.to_nat r) (counts_of pr (volume np) size)) + p).
    unfold patches_of in Hp. rewrite (nr_patches_ok c np gdims per pr size dm Hset r k (proj1 Hr) E) in Hp.
    split; [lia|]. exists k. split; [exact E|]. split; [lia|reflexivity].
  Qed.

  Lemma dm_parts : dm_np dm = np /\ dm_gdims dm = gdims /\ dm_periodic dm = per.
  Proof.
    destruct (np_dm c np gdims per pr size dm Hset) as [A [B _]]. split; [exact A|]. split; [|exact B].
    clear -Hset. unfold domain_setup in Hset. repeat match type of Hset with match ?x with _ => _ end = _ => destruct x; try discriminate Hset end.
    all: injection Hset as <-; reflexivity.
  Qed.

  Lemma ld_eq : ld = gen3 (fun d => get3 gdims d / get3 np d).
  Proof. unfold ld, grid_ldims. destruct dm_parts as [-> [-> _]]. reflexivity. Qed.

  Lemma info_of r p : val r p -> exists info, get_local_patch_info dm r p = Some info /\ pi_ldims info = ld /\ in_box np (pi_idx3 info) /\
    forall d, get3 (pi_off info) d = get3 ld d * get3 (pi_idx3 info) d.
  Proof.
    intros Hv. destruct (patch_owns r p Hv) as [gp Ho]. destruct (owns_local c np gdims per pr size dm Hpos Hset Hcnt r p gp Ho) as [Hgp EL].
    destruct (global_info c np gdims per pr size dm Hpos Hset Hcnt gp Hgp) as [info [EI [_ [_ [Hb [_ HD]]]]]]. exists info. rewrite EL. split; [exact EI|].
    rewrite ld_eq. split; [apply v3_ext; intros d; apply HD|]. split; [exact Hb|]. intros d. apply HD.
  Qed.

  (** the box of a direction *)
  Definition lo (side : bool) (dir : V3 Z) : V3 Z := gen3 (fun d => fst ((if side then inside1 else outside1) (get3 ld d) (get3 ibn d) (get3 dir d))).
  Definition hi (side : bool) (dir : V3 Z) : V3 Z := gen3 (fun d => snd ((if side then inside1 else outside1) (get3 ld d) (get3 ibn d) (get3 dir d))).
  Definition shft (dir : V3 Z) : V3 Z := gen3 (fun d => get3 dir d * get3 ld d).
  Definition ent (side : bool) (k : Z * V3 Z * Z) : sr_entry :=
    let '(p, dir, q) := k in mkSR p q (dir2idx dir) (vol (lo side dir) (hi side dir)) (lo side dir) (hi side dir).

  Lemma box_cases side dir d : In dir dirs27 ->
    (get3 dir d = -1 /\ get3 (lo side dir) d = (if side then 0 else - get3 ibn d) /\ get3 (hi side dir) d = (if side then get3 ibn d else 0)) \/
    (get3 dir d = 0 /\ get3 (lo side dir) d = 0 /\ get3 (hi side dir) d = get3 ld d) \/
    (get3 dir d = 1 /\ get3 (lo side dir) d = (if side then get3 ld d - get3 ibn d else get3 ld d) /\ get3 (hi side dir) d = (if side then get3 ld d else get3 ld d + get3 ibn d)).
  Proof. clear Hibn.
    intros Hd. pose proof (proj1 (in_dirs27 dir) Hd d) as B. unfold lo, hi. rewrite !get3_gen3.
    assert (get3 dir d = -1 \/ get3 dir d = 0 \/ get3 dir d = 1) as [E|[E|E]] by lia; rewrite E; destruct side; cbn [inside1 outside1 fst snd Z.eqb Pos.eqb];
      [left|left|right; left|right; left|right; right|right; right]; repeat split; lia.
  Qed.

  Lemma box_ok_dir side dir : In dir dirs27 -> box_ok (lo side dir) (hi side dir).
  Proof. intros Hd d. pose proof (Hibn d). destruct (box_cases side dir d Hd) as [(_ & -> & ->)|[(_ & -> & ->)|(_ & -> & ->)]]; destruct side; lia. Qed.

  Lemma negdir_get dir d : get3 (negdir dir) d = - get3 dir d.
  Proof. destruct d; reflexivity. Qed.

  (** the two boxes of an exchange are translates *)
  Lemma box_mate side dir : In dir dirs27 ->
    lo side dir = plus3 (lo (negb side) (negdir dir)) (shft dir) /\ hi side dir = plus3 (hi (negb side) (negdir dir)) (shft dir).
  Proof. clear Hibn.
    intros Hd. pose proof (negdir_in dir Hd) as Hn. split; apply v3_ext; intros d; rewrite plus3_get; unfold shft; rewrite get3_gen3;
      pose proof (negdir_get dir d) as G;
      destruct (box_cases side dir d Hd) as [(E1 & A1 & B1)|[(E1 & A1 & B1)|(E1 & A1 & B1)]];
      destruct (box_cases (negb side) (negdir dir) d Hn) as [(E2 & A2 & B2)|[(E2 & A2 & B2)|(E2 & A2 & B2)]]; try lia;
      rewrite ?A1, ?A2, ?B1, ?B2, E1; destruct side; cbn [negb]; ring.
  Qed.

  Lemma vol_mate side dir : In dir dirs27 -> vol (lo side dir) (hi side dir) = vol (lo (negb side) (negdir dir)) (hi (negb side) (negdir dir)).
  Proof. clear Hibn. intros Hd. destruct (box_mate side dir Hd) as [-> ->]. unfold vol, plus3, gen3. cbn [c0 c1 c2 get3]. ring. Qed.

  (** points outside and inside the patch *)
  Definition interior (i : V3 Z) : bool := in_boxb (v3 0 0 0) ld i.

  Lemma interior_iff i : interior i = true <-> in_box ld i.
  Proof.
    unfold interior. rewrite in_boxb_iff. split; intros H d; specialize (H d); destruct d; cbn [get3 c0 c1 c2] in *; lia.
  Qed.

  Lemma box_side side dir i : In dir dirs27 -> dir <> v3 0 0 0 -> in_boxb (lo side dir) (hi side dir) i = true -> interior i = side.
  Proof.
    intros Hd Hn Hi. rewrite in_boxb_iff in Hi. destruct side.
    - apply interior_iff. intros d. specialize (Hi d). pose proof (Hibn d). destruct (box_cases true dir d Hd) as [(_ & A & B)|[(_ & A & B)|(_ & A & B)]]; lia.
    - destruct (interior i) eqn:E; [|reflexivity]. apply interior_iff in E. exfalso. apply Hn. apply v3_ext. intros d.
      replace (get3 (v3 0 0 0) d) with 0 by (destruct d; reflexivity). specialize (Hi d). specialize (E d).
      destruct (box_cases false dir d Hd) as [(K & A & B)|[(K & A & B)|(K & A & B)]]; lia.
  Qed.

  Lemma nb_nonzero r p dir : nb r p dir <> None -> dir <> v3 0 0 0.
  Proof. intros H ->. apply H. reflexivity. Qed.

  Lemma ddc_nei_is r p dir : ddc_nei_rank_patch dm r p dir = get_neighbor_rank_patch dm r p dir.
  Proof. reflexivity. Qed.

  Lemma ddc_init_val side r p dir : val r p -> In dir dirs27 ->
    ddc_init side dm ibn r p dir = Some (match nb r p dir with Some (r', q) => Some (r', ent side (p, dir, q)) | None => None end).
  Proof.
    intros Hv Hd. pose proof (nei_of_some c np gdims per pr size dm Hpos Hset Hcnt Hproc r p dir Hv Hd) as E. unfold nei_of in E. unfold ddc_init. rewrite ddc_nei_is.
    destruct (info_of r p Hv) as [info [EI [EL _]]]. rewrite EI. unfold nb. destruct ((c0 dir =? 0) && (c1 dir =? 0) && (c2 dir =? 0)).
    - injection E as <-. reflexivity.
    - rewrite E. destruct (nbd dm r p dir) as [[r' q]|]; [|reflexivity]. rewrite EL. unfold ent. cbn zeta. fold (lo side dir) (hi side dir). unfold vol. rewrite Z.mul_1_l. reflexivity.
  Qed.

  (** the entries of process r for r', as (patch, direction, patch of r') *)
  Definition keys (r r' : Z) : list (Z * V3 Z * Z) :=
    flat_map (fun p => flat_map (fun dir => match nb r p dir with Some (r'', q) => if r'' =? r' then [(p, dir, q)] else [] | None => [] end) dirs27) (zrange 0 (N r)).

  Lemma in_keys r r' p dir q : In (p, dir, q) (keys r r') <-> 0 <= p < N r /\ In dir dirs27 /\ nb r p dir = Some (r', q).
  Proof.
    unfold keys. rewrite in_flat_map. split.
    - intros [p' [Hp H]]. apply in_flat_map in H. destruct H as [dir' [Hd H]]. destruct (nb r p' dir') as [[r'' q']|] eqn:E; [|destruct H].
      destruct (Z.eqb_spec r'' r') as [->|]; [|destruct H]. destruct H as [[= <- <- <-]|[]]. apply in_zrange in Hp. auto.
    - intros [Hp [Hd E]]. exists p. split; [apply in_zrange; lia|]. apply in_flat_map. exists dir. split; [exact Hd|]. rewrite E, Z.eqb_refl. now left.
  Qed.

  Lemma NoDup_keys r r' : NoDup (keys r r').
  Proof.
    unfold keys. apply (NoDup_flat_map _ _ (fun k => fst (fst k))); [apply NoDup_zrange|..].
    - intros p k _ H. apply in_flat_map in H. destruct H as [dir [_ H]]. destruct (nb r p dir) as [[r'' q]|]; [|destruct H]. destruct (r'' =? r'); [|destruct H]. destruct H as [<-|[]]. reflexivity.
    - intros p _. apply (NoDup_flat_map _ _ (fun k => snd (fst k))); [apply NoDup_dirs27|..].
      + intros dir k _ H. destruct (nb r p dir) as [[r'' q]|]; [|destruct H]. destruct (r'' =? r'); [|destruct H]. destruct H as [<-|[]]. reflexivity.
      + intros dir _. destruct (nb r p dir) as [[r'' q]|]; [|constructor]. destruct (r'' =? r'); constructor; [intros []|constructor].
  Qed.

  Lemma sr_entries_val side r r' : 0 <= r < size -> sr_entries side dm ibn r r' = Some (map (ent side) (keys r r')).
  Proof.
    intros Hr. unfold sr_entries. rewrite (nr_some c np gdims per pr size dm Hset Hcnt Hproc r Hr). fold N.
    rewrite (flat_map_ext_in _ (fun p => map (fun dir => Some (match nb r p dir with Some (r', q) => Some (r', ent side (p, dir, q)) | None => None end)) dirs27)).
    2:{ intros p Hp. apply in_zrange in Hp. apply map_ext_in. intros dir Hd. apply ddc_init_val; [split; assumption|exact Hd]. }
    assert (E : forall l : list Z, sequence (flat_map (fun p => map (fun dir => Some (match nb r p dir with Some (r', q) => Some (r', ent side (p, dir, q)) | None => None end)) dirs27) l) =
      Some (flat_map (fun p => map (fun dir => match nb r p dir with Some (r', q) => Some (r', ent side (p, dir, q)) | None => None end) dirs27) l)).
    { intros l. pose proof (sequence_flat_some (fun p => map (fun dir => (p, dir)) dirs27)
        (fun '(p, dir) => Some (match nb r p dir with Some (r', q) => Some (r', ent side (p, dir, q)) | None => None end))
        (fun '(p, dir) => match nb r p dir with Some (r', q) => Some (r', ent side (p, dir, q)) | None => None end) l) as H.
      etransitivity; [|etransitivity; [apply H|]].
      - apply f_equal, flat_map_ext. intros p. rewrite map_map. reflexivity.
      - intros p [p' dir] _ _. reflexivity.
      - apply f_equal, flat_map_ext. intros p. rewrite map_map. reflexivity. }
    rewrite E. cbn [option_map]. f_equal. rewrite flat_map_flat. unfold keys. rewrite map_flat_map'. apply flat_map_ext. intros p.
    rewrite flat_map_map', map_flat_map'. apply flat_map_ext. intros dir. destruct (nb r p dir) as [[r'' q]|]; [|reflexivity]. destruct (r'' =? r'); reflexivity.
  Qed.

  Definition flipk (k : Z * V3 Z * Z) : Z * V3 Z * Z := let '(p, dir, q) := k in (q, negdir dir, p).

  Lemma flipk_flipk k : flipk (flipk k) = k.
  Proof. destruct k as [[p dir] q]. cbn. rewrite negdir_invol. reflexivity. Qed.

  Lemma flipk_in r r' k : 0 <= r < size -> In k (keys r r') -> In (flipk k) (keys r' r).
  Proof.
    destruct k as [[p dir] q]. intros Hr H. apply in_keys in H. destruct H as [Hp [Hd E]].
    destruct (nbd_sym c np gdims per pr size dm Hpos Hset Hcnt Hproc r p dir r' q (conj Hr Hp) Hd E) as [[_ Hq] E'].
    cbn [flipk]. apply in_keys. split; [exact Hq|]. split; [apply negdir_in; exact Hd|exact E'].
  Qed.

  Lemma dir2idx_inj a b : In a dirs27 -> In b dirs27 -> dir2idx a = dir2idx b -> a = b.
  Proof.
    intros Ha Hb E. rewrite in_dirs27 in Ha, Hb. pose proof (Ha D0). pose proof (Ha D1). pose proof (Ha D2). pose proof (Hb D0). pose proof (Hb D1). pose proof (Hb D2).
    unfold dir2idx in E. cbn [get3] in *. destruct a as [a0 a1 a2], b as [b0 b1 b2]. cbn [c0 c1 c2] in *. f_equal; lia.
  Qed.

  (** (nei_patch, dir1) determines the entry *)
  Lemma entries_key side r r' p dir : 0 <= r < size -> 0 <= r' < size -> In dir dirs27 ->
    find_recv_entry (map (ent side) (keys r r')) p (dir2idx (negdir dir)) =
    if (0 <=? p) && (p <? N r') then match nb r' p dir with Some (r'', q) => if r'' =? r then Some (ent side (q, negdir dir, p)) else None | None => None end else None.
  Proof.
    intros Hr Hr' Hd. unfold find_recv_entry. destruct (find _ _) as [e|] eqn:E.
    - apply find_some in E. destruct E as [Hin Hk]. apply in_map_iff in Hin. destruct Hin as [[[q dir'] p'] [<- Hin]]. cbn [ent sr_nei_patch sr_dir1] in Hk.
      pose proof Hin as Hin'. apply in_keys in Hin'. destruct Hin' as [_ [Hd' _]]. assert (p' = p /\ dir2idx dir' = dir2idx (negdir dir)) as [-> Ed] by lia.
      apply dir2idx_inj in Ed; [|exact Hd'|apply negdir_in; exact Hd]. subst dir'. apply flipk_in in Hin; [|exact Hr]. cbn [flipk] in Hin. rewrite negdir_invol in Hin.
      apply in_keys in Hin. destruct Hin as [Hp [_ En]]. replace ((0 <=? p) && (p <? N r')) with true by lia. rewrite En, Z.eqb_refl. reflexivity.
    - pose proof (find_none _ _ E) as NF. destruct ((0 <=? p) && (p <? N r')) eqn:B; [|reflexivity]. destruct (nb r' p dir) as [[r'' q]|] eqn:En; [|reflexivity].
      destruct (Z.eqb_spec r'' r) as [->|]; [|reflexivity]. exfalso.
      assert (K : In (p, dir, q) (keys r' r)) by (apply in_keys; split; [lia|auto]). apply flipk_in in K; [|exact Hr']. cbn [flipk] in K.
      specialize (NF (ent side (q, negdir dir, p)) (in_map _ _ _ K)). cbn [ent sr_nei_patch sr_dir1] in NF. lia.
  Qed.

  Lemma recv_round_val side r r' p : 0 <= r < size -> 0 <= r' < size -> 0 <= p < N r' ->
    recv_round (map (ent side) (keys r r')) p =
    flat_map (fun dir => match nb r' p dir with Some (r'', q) => if r'' =? r then [ent side (q, negdir dir, p)] else [] | None => [] end) dirs27.
  Proof.
    intros Hr Hr' Hp. unfold recv_round. apply flat_map_ext_in. intros dir Hd. rewrite entries_key by assumption. replace ((0 <=? p) && (p <? N r')) with true by lia.
    destruct (nb r' p dir) as [[r'' q]|]; [|reflexivity]. destruct (r'' =? r); reflexivity.
  Qed.

  Lemma reorganize_val es : forall k p cnt, cnt + alen (flat_map (recv_round es) (zrange p (p + Z.of_nat k))) = alen es ->
    reorganize es k p cnt = Some (flat_map (recv_round es) (zrange p (p + Z.of_nat k))).
  Proof.
    induction k as [|k IH]; intros p cnt H.
    - rewrite zrange_empty in * by lia. cbn [flat_map reorganize] in *. rewrite alen_nil in H. replace (alen es <=? cnt) with true by lia. reflexivity.
    - rewrite (zrange_cons p) in * by lia. cbn [flat_map] in *. rewrite alen_app in H.
      replace (p + Z.of_nat (Datatypes.S k)) with (p + 1 + Z.of_nat k) in * by lia. cbn [reorganize].
      pose proof (alen_nonneg (recv_round es p)). pose proof (alen_nonneg (flat_map (recv_round es) (zrange (p + 1) (p + 1 + Z.of_nat k)))).
      destruct (Z.leb_spec (alen es) cnt).
      + assert (recv_round es p = [] /\ flat_map (recv_round es) (zrange (p + 1) (p + 1 + Z.of_nat k)) = []) as [-> ->]; [|reflexivity].
        assert (Z0 : forall A (l : list A), alen l = 0 -> l = []) by (intros A [|a l] E; [reflexivity|rewrite alen_cons in E; pose proof (alen_nonneg l); lia]).
        split; apply Z0; lia.
      + replace (alen es <? cnt + alen (recv_round es p)) with false by lia. rewrite IH by lia. reflexivity.
  Qed.

  (** the receive entries are the mates of the send entries, in the same order *)
  Lemma recv_list_val side r r' : 0 <= r < size -> 0 <= r' < size -> recv_list side dm ibn r r' = Some (map (ent side) (map flipk (keys r' r))).
  Proof.
    intros Hr Hr'. unfold recv_list. rewrite (sr_entries_val side r r' Hr), (nr_some c np gdims per pr size dm Hset Hcnt Hproc r' Hr'). fold N.
    assert (E : flat_map (recv_round (map (ent side) (keys r r'))) (zrange 0 (N r')) = map (ent side) (map flipk (keys r' r))).
    { unfold keys at 2. rewrite !map_flat_map'. apply flat_map_ext_in. intros p Hp. apply in_zrange in Hp. rewrite recv_round_val by assumption. rewrite !map_flat_map'.
      apply flat_map_ext. intros dir. destruct (nb r' p dir) as [[r'' q]|]; [|reflexivity]. destruct (r'' =? r); reflexivity. }
    assert (L : alen (keys r r') = alen (keys r' r)).
    { unfold alen. f_equal. rewrite <- (map_length flipk (keys r' r)). apply Permutation_length. apply NoDup_Permutation; [apply NoDup_keys|..].
      - apply NoDup_map_inj_in; [|apply NoDup_keys]. intros x y _ _ Exy. rewrite <- (flipk_flipk x), Exy. apply flipk_flipk.
      - intros k. rewrite in_map_iff. split.
        + intros Hk. exists (flipk k). split; [apply flipk_flipk|apply flipk_in; assumption].
        + intros [k' [<- Hk]]. apply flipk_in; assumption. }
    rewrite reorganize_val.
    - rewrite Z.add_0_l. destruct (Z_le_gt_dec 0 (N r')).
      + rewrite Z2Nat.id by lia. rewrite E. reflexivity.
      + rewrite zrange_empty in * by lia. rewrite <- E. reflexivity.
    - rewrite !Z.add_0_l. destruct (Z_le_gt_dec 0 (N r')).
      + rewrite Z2Nat.id by lia. rewrite E. unfold alen in *. rewrite !map_length. lia.
      + rewrite zrange_empty by lia. cbn [flat_map]. unfold alen in *. rewrite map_length, L. unfold keys. rewrite zrange_empty by lia. reflexivity.
  Qed.

  (** ** the run *)
  Section Exchange.
    Context {T : Type}.
    Variables (n_comps mb me : Z) (send : bool).
    Hypothesis Hm : 0 <= mb /\ mb <= me /\ me <= n_comps.
    Variable F0 : Z -> flds T.
    Let st := store_of dm ibn n_comps.

    Lemma st_box r p side dir m i : val r p -> In dir dirs27 -> In (m, i) (loop4 mb me (lo side dir) (hi side dir)) -> st r p m i = true.
    Proof.
      intros [Hr Hp] Hd Hi. apply in_loop4 in Hi. destruct Hi as [Hmm Hi]. rewrite in_boxb_iff in Hi. unfold st, store_of.
      rewrite (nr_some c np gdims per pr size dm Hset Hcnt Hproc r Hr). unfold in_store. apply andb_true_intro. split; [lia|]. apply forallb_forall. intros d _. fold ld.
      specialize (Hi d). pose proof (Hibn d). destruct (box_cases side dir d Hd) as [(_ & A & B)|[(_ & A & B)|(_ & A & B)]]; destruct side; lia.
    Qed.

    (** what one entry (p, dir, q) writes *)
    Definition ups (F : flds T) (k : Z * V3 Z * Z) : list (@update T) :=
      let '(p, dir, q) := k in
      map (fun '(m, i) => (q, m, i, F p m (plus3 i (shft dir)))) (loop4 mb me (lo (negb send) (negdir dir)) (hi (negb send) (negdir dir))).

    (** contents of a message *)
    Fixpoint wsof (F : flds T) (ks : list (Z * V3 Z * Z)) (base : Z) : list (Z * T) :=
      match ks with
      | [] => []
      | (p, dir, q) :: ks =>
          map (fun '(m, i) => (base + buf3 (lo send dir) (hi send dir) (m - mb) i, F p m i)) (loop4 mb me (lo send dir) (hi send dir)) ++
          wsof F ks (base + vol (lo send dir) (hi send dir) * (me - mb))
      end.

    Lemma vol_nonneg side dir : In dir dirs27 -> 0 <= vol (lo side dir) (hi side dir).
    Proof. intros Hd. pose proof (box_ok_dir side dir Hd) as B. pose proof (B D0). pose proof (B D1). pose proof (B D2). cbn [get3] in *. unfold vol. repeat apply Z.mul_nonneg_nonneg; lia. Qed.

    Lemma pack_val F r r' ks : 0 <= r < size -> (forall k, In k ks -> In k (keys r r')) -> forall base, pack (st r) mb me F (map (ent send) ks) base = Some (wsof F ks base).
    Proof.
      intros Hr. induction ks as [|[[p dir] q] ks IH]; intros HK base; [reflexivity|]. cbn [map pack wsof].
      destruct (proj1 (in_keys r r' p dir q) (HK _ (or_introl eq_refl))) as [Hp [Hd E]].
      rewrite copy_to_buf_some by (cbn [ent sr_ilo sr_ihi sr_patch]; intros m i Hi; apply (st_box r p send dir m i (conj Hr Hp) Hd Hi)).
      cbn [ent sr_len]. rewrite IH by (intros k Hk; apply HK; now right). reflexivity.
    Qed.

    Lemma wsof_fst F ks : (forall p dir q, In (p, dir, q) ks -> In dir dirs27) -> forall base, map fst (wsof F ks base) = zrange base (base + total_len (map (ent send) ks) * (me - mb)) /\ 0 <= total_len (map (ent send) ks).
    Proof.
      induction ks as [|[[p dir] q] ks IH]; intros HK base.
      - cbn. rewrite zrange_empty by lia. split; [reflexivity|lia].
      - assert (Hd : In dir dirs27) by (apply (HK p dir q); now left). pose proof (vol_nonneg send dir Hd) as HV.
        destruct (IH (fun a b d H => HK a b d (or_intror H)) (base + vol (lo send dir) (hi send dir) * (me - mb))) as [E1 E2].
        unfold total_len in *. cbn [wsof map zsum ent sr_len]. fold (ent send). rewrite map_app, E1, map_map.
        rewrite (map_ext _ (fun '(m, i) => base + buf3 (lo send dir) (hi send dir) (m - mb) i)) by (intros [m i]; reflexivity).
        rewrite loop4_idx by (try apply box_ok_dir; try lia; assumption). split; [|lia].
        rewrite <- zrange_app by nia. f_equal. ring.
    Qed.

    Lemma unpack_val F op r r' ks buf : 0 <= r < size -> 0 <= r' < size -> (forall k, In k ks -> In k (keys r r')) -> forall base G,
      (forall k v, In (k, v) (wsof F ks base) -> buf k = Some v) ->
      unpack_msg (st r') mb me op G (map (ent (negb send)) (map flipk ks)) base buf = Some (apply_u op G (flat_map (ups F) ks)).
    Proof.
      intros Hr Hr'. induction ks as [|[[p dir] q] ks IH]; intros HK base G HB; [reflexivity|]. cbn [map unpack_msg flat_map flipk].
      destruct (proj1 (in_keys r r' p dir q) (HK _ (or_introl eq_refl))) as [Hp [Hd E]].
      destruct (nbd_sym c np gdims per pr size dm Hpos Hset Hcnt Hproc r p dir r' q (conj Hr Hp) Hd E) as [Vq E'].
      cbn [ent sr_patch sr_ilo sr_ihi sr_len]. fold (ent (negb send)).
      destruct (box_mate send dir Hd) as [M1 M2].
      rewrite (from_buf_some (st r') mb me op q _ _ base buf (fun m i => F p m (plus3 i (shft dir)))).
      - rewrite apply_u_app. rewrite <- vol_mate by exact Hd. rewrite IH; [reflexivity|intros k Hk; apply HK; now right|].
        intros k v Hk. apply HB. cbn [wsof]. apply in_or_app. now right.
      - intros m i Hi. split; [apply (st_box r' q (negb send) (negdir dir) m i Vq (negdir_in dir Hd) Hi)|].
        apply HB. cbn [wsof]. apply in_or_app. left. apply in_map_iff. exists (m, plus3 i (shft dir)). split.
        + rewrite M1, M2, buf3_shift. reflexivity.
        + apply in_loop4 in Hi. destruct Hi as [Hmm Hi]. apply in_loop4. split; [exact Hmm|]. rewrite in_boxb_iff in *. intros d. rewrite M1, M2, !plus3_get.
          specialize (Hi d). lia.
    Qed.

    Lemma ups_side (F : flds T) r r' k (u : @update T) : 0 <= r < size -> In k (keys r r') -> In u (ups F k) -> let '(q, m, i, _) := u in interior i = negb send.
    Proof.
      destruct k as [[p dir] q]. intros Hr Hk Hu. apply in_keys in Hk. destruct Hk as [Hp [Hd E]]. unfold ups in Hu. apply in_map_iff in Hu. destruct Hu as [[m i] [<- Hi]].
      apply in_loop4 in Hi. destruct Hi as [_ Hi]. apply (box_side (negb send) (negdir dir) i (negdir_in dir Hd)); [|exact Hi].
      intros Z0. apply (nb_nonzero r p dir); [rewrite E; discriminate|]. rewrite <- (negdir_invol dir), Z0. reflexivity.
    Qed.

    Lemma apply_u_other op (F : flds T) (us : list (@update T)) p m i : (forall u : @update T, In u us -> let '(_, _, j, _) := u in interior j = negb send) -> interior i = send -> apply_u op F us p m i = F p m i.
    Proof.
      intros H Hi. rewrite apply_u_get. unfold vals. rewrite (proj2 (filter_nil_iff_local (at_loc p m i) us)); [reflexivity|].
      intros [[[p' m'] j] v] Hu. specialize (H _ Hu). cbv beta iota in H. cbn [at_loc]. destruct (_ && _ && _ && _ && _) eqn:E; [|reflexivity]. exfalso.
      assert (c0 i = c0 j /\ c1 i = c1 j /\ c2 i = c2 j) as (A & B & C) by lia. replace j with i in H by (destruct i, j; cbn in *; congruence). rewrite Hi in H. destruct send; discriminate H.
    Qed.

    Lemma local_buf_ge es : forall e s, In e es \/ vol (sr_ilo e) (sr_ihi e) <= s ->
      vol (sr_ilo e) (sr_ihi e) <= fold_left (fun s e => Z.max s ((c0 (sr_ihi e) - c0 (sr_ilo e)) * (c1 (sr_ihi e) - c1 (sr_ilo e)) * (c2 (sr_ihi e) - c2 (sr_ilo e)))) es s.
    Proof.
      induction es as [|a es IH]; intros e s H; cbn [fold_left].
      - destruct H as [[]|H]; exact H.
      - apply IH. destruct H as [[->|H]|H]; [right; unfold vol; lia|left; exact H|right; lia].
    Qed.

    Lemma loop4_empty (ilo ihi : V3 Z) : (c0 ilo =? c0 ihi) || (c1 ilo =? c1 ihi) || (c2 ilo =? c2 ihi) = true -> loop4 mb me ilo ihi = [].
    Proof.
      intros H. destruct (loop4 mb me ilo ihi) as [|[m i] l] eqn:E; [reflexivity|]. exfalso.
      assert (I : In (m, i) (loop4 mb me ilo ihi)) by (rewrite E; now left). apply in_loop4 in I. destruct I as [_ I]. rewrite in_boxb_iff in I.
      pose proof (I D0). pose proof (I D1). pose proof (I D2). cbn [get3] in *. lia.
    Qed.

    Lemma run_local_val op lsize F r ks : 0 <= r < size -> (forall k, In k ks -> In k (keys r r)) ->
      (forall p dir q, In (p, dir, q) ks -> vol (lo send dir) (hi send dir) * (me - mb) <= lsize) ->
      forall G, (forall p m i, interior i = send -> G p m i = F p m i) ->
      run_local (st r) mb me op lsize G (map (ent send) ks) (map (ent (negb send)) (map flipk ks)) = Some (apply_u op G (flat_map (ups F) ks)).
    Proof.
      intros Hr. induction ks as [|[[p dir] q] ks IH]; intros HK HL G HG; [reflexivity|]. cbn [map flat_map flipk run_local].
      pose proof (HK _ (or_introl eq_refl)) as Hk. destruct (proj1 (in_keys r r p dir q) Hk) as [Hp [Hd E]].
      destruct (nbd_sym c np gdims per pr size dm Hpos Hset Hcnt Hproc r p dir r q (conj Hr Hp) Hd E) as [Vq E'].
      destruct (box_mate send dir Hd) as [M1 M2]. pose proof (nb_nonzero r p dir ltac:(rewrite E; discriminate)) as NZ.
      assert (HK' : forall k, In k ks -> In k (keys r r)) by (intros k H; apply HK; now right).
      assert (HL' : forall p dir q, In (p, dir, q) ks -> vol (lo send dir) (hi send dir) * (me - mb) <= lsize) by (intros a b d H; apply (HL a b d); now right).
      cbn [ent sr_patch sr_nei_patch sr_ilo sr_ihi sr_len]. fold (ent send). fold (ent (negb send)).
      destruct ((c0 (lo send dir) =? c0 (hi send dir)) || (c1 (lo send dir) =? c1 (hi send dir)) || (c2 (lo send dir) =? c2 (hi send dir))) eqn:EE.
      - rewrite (IH HK' HL' G HG). f_equal. unfold ups at 2. rewrite (loop4_empty (lo (negb send) (negdir dir))); [reflexivity|].
        rewrite M1, M2 in EE. unfold plus3, gen3 in EE. cbn [c0 c1 c2 get3] in EE. lia.
      - rewrite copy_to_buf_some by (cbn [ent sr_ilo sr_ihi sr_patch]; intros m i Hi; apply (st_box r p send dir m i (conj Hr Hp) Hd Hi)). cbn [ent sr_patch sr_ilo sr_ihi].
        set (ws := map _ (loop4 mb me (lo send dir) (hi send dir))).
        assert (Efst : map fst ws = zrange 0 (0 + vol (lo send dir) (hi send dir) * (me - mb))).
        { unfold ws. rewrite map_map. rewrite (map_ext _ (fun '(m, i) => 0 + buf3 (lo send dir) (hi send dir) (m - mb) i)) by (intros [m i]; reflexivity).
          apply loop4_idx; [apply box_ok_dir; exact Hd|lia]. }
        replace (forallb _ ws) with true.
        2:{ symmetry. apply forallb_forall. intros [j v] Hj. apply (in_map fst) in Hj. rewrite Efst in Hj. apply in_zrange in Hj. cbn [fst] in *.
            pose proof (HL p dir q (or_introl eq_refl)). lia. }
        rewrite (from_buf_some (st r) mb me op q _ _ 0 (buf_get ws) (fun m i => F p m (plus3 i (shft dir)))).
        + rewrite apply_u_app. apply (IH HK' HL'). intros p' m' i' Hi'. rewrite apply_u_other; [apply HG; exact Hi'| |exact Hi'].
          intros u Hu. apply (ups_side F r r (p, dir, q) u Hr Hk Hu).
        + intros m i Hi. split; [apply (st_box r q (negb send) (negdir dir) m i Vq (negdir_in dir Hd) Hi)|].
          apply buf_get_in; [rewrite Efst; apply NoDup_zrange|]. apply in_map_iff. exists (m, plus3 i (shft dir)).
          apply in_loop4 in Hi. destruct Hi as [Hmm Hi].
          assert (IB : in_boxb (lo send dir) (hi send dir) (plus3 i (shft dir)) = true).
          { rewrite in_boxb_iff in *. intros d. rewrite M1, M2, !plus3_get. specialize (Hi d). lia. }
          split.
          * rewrite HG by (apply (box_side send dir _ Hd NZ IB)). rewrite M1, M2, buf3_shift. reflexivity.
          * apply in_loop4. split; assumption.
    Qed.

    Lemma ddc_local_val op r : 0 <= r < size -> ddc_local dm ibn n_comps send mb me op (F0 r) r = Some (apply_u op (F0 r) (flat_map (ups (F0 r)) (keys r r))).
    Proof.
      intros Hr. unfold ddc_local. rewrite sr_entries_val by exact Hr. rewrite recv_list_val by exact Hr. fold st. apply run_local_val; [exact Hr|auto| |auto].
      intros p dir q Hk. pose proof Hk as Hk'. apply in_keys in Hk'. destruct Hk' as [_ [Hd _]]. unfold local_buf_size. apply Z.mul_le_mono_nonneg_r; [lia|].
      rewrite (vol_mate send dir Hd).
      apply (local_buf_ge (map (ent (negb send)) (map flipk (keys r r))) (ent (negb send) (flipk (p, dir, q))) 0). left. apply in_map, in_map, Hk.
    Qed.

    (** messages *)
    Definition msg (r r' : Z) : list (chan * (Z * list (Z * T))) :=
      match keys r r' with
      | [] => []
      | ks => if r' =? r then [] else [((r, r', 4660), (total_len (map (ent send) ks) * (me - mb), wsof (F0 r) ks 0))]
      end.
    Definition msgs : list (chan * (Z * list (Z * T))) := flat_map (fun r => flat_map (msg r) (zrange 0 size)) (zrange 0 size).

    Lemma posts_val : all_ddc_posts dm size ibn n_comps send mb me F0 = Some msgs.
    Proof.
      unfold all_ddc_posts, msgs. apply concat_option_some. intros r Hr. apply in_zrange in Hr. unfold ddc_posts. apply concat_option_some. intros r' Hr'. rewrite sr_entries_val by exact Hr.
      unfold msg. destruct (keys r r') as [|k ks] eqn:E; [reflexivity|]. cbn [map]. destruct (r' =? r); [reflexivity|].
      change (ent send k :: map (ent send) ks) with (map (ent send) (k :: ks)). fold st. rewrite (pack_val (F0 r) r r') by (try exact Hr; rewrite E; auto). reflexivity.
    Qed.

    Definition rchan (r' r : Z) : list chan := match keys r r' with [] => [] | _ => if r =? r' then [] else [(r, r', 4660)] end.
    Definition rchans : list chan := flat_map (fun r' => flat_map (rchan r') (zrange 0 size)) (zrange 0 size).

    Lemma recvs_val : all_ddc_recvs dm size ibn send = Some rchans.
    Proof.
      unfold all_ddc_recvs, rchans. apply concat_option_some. intros r Hr. apply in_zrange in Hr. unfold ddc_recvs. apply concat_option_some. intros r' Hr'. apply in_zrange in Hr'.
      rewrite recv_list_val by assumption. unfold rchan. destruct (keys r' r) as [|k ks]; [reflexivity|]. cbn [map]. destruct (r' =? r); reflexivity.
    Qed.

    Lemma in_msg r r' ch dt : In (ch, dt) (msg r r') <-> r' <> r /\ keys r r' <> [] /\ ch = (r, r', 4660) /\ dt = (total_len (map (ent send) (keys r r')) * (me - mb), wsof (F0 r) (keys r r') 0).
    Proof.
      unfold msg. destruct (keys r r') as [|k ks]; [split; [intros []|intros (_ & H & _); congruence]|].
      destruct (Z.eqb_spec r' r) as [->|N']; [split; [intros []|intros (H & _); congruence]|]. split.
      - intros [[= <- <-]|[]]. repeat split; try assumption. discriminate.
      - intros (_ & _ & -> & ->). now left.
    Qed.

    Lemma msgs_balanced : balanced msgs rchans.
    Proof.
      apply balanced_intro.
      - unfold msgs. rewrite map_flat_map'. apply (NoDup_flat_map _ _ (fun ch : chan => fst (fst ch))); [apply NoDup_zrange|..].
        + intros r ch _ H. rewrite map_flat_map' in H. apply in_flat_map in H. destruct H as [r' [_ H]]. apply in_map_iff in H. destruct H as [[ch' dt] [<- H]].
          apply in_msg in H. destruct H as (_ & _ & -> & _). reflexivity.
        + intros r _. rewrite map_flat_map'. apply (NoDup_flat_map _ _ (fun ch : chan => snd (fst ch))); [apply NoDup_zrange|..].
          * intros r' ch _ H. apply in_map_iff in H. destruct H as [[ch' dt] [<- H]]. apply in_msg in H. destruct H as (_ & _ & -> & _). reflexivity.
          * intros r' _. unfold msg. destruct (keys r r'); [constructor|]. destruct (r' =? r); [constructor|]. cbn [map]. constructor; [intros []|constructor].
      - unfold rchans. apply (NoDup_flat_map _ _ (fun ch : chan => snd (fst ch))); [apply NoDup_zrange|..].
        + intros r' ch _ H. apply in_flat_map in H. destruct H as [r [_ H]]. unfold rchan in H. destruct (keys r r'); [destruct H|]. destruct (r =? r'); [destruct H|]. destruct H as [<-|[]]. reflexivity.
        + intros r' _. apply (NoDup_flat_map _ _ (fun ch : chan => fst (fst ch))); [apply NoDup_zrange|..].
          * intros r ch _ H. unfold rchan in H. destruct (keys r r'); [destruct H|]. destruct (r =? r'); [destruct H|]. destruct H as [<-|[]]. reflexivity.
          * intros r _. unfold rchan. destruct (keys r r'); [constructor|]. destruct (r =? r'); constructor; [intros []|constructor].
      - intros ch. unfold msgs, rchans. split.
        + intros H. apply in_map_iff in H. destruct H as [[ch' dt] [<- H]]. apply in_flat_map in H. destruct H as [r [Hr H]]. apply in_flat_map in H. destruct H as [r' [Hr' H]].
          apply in_msg in H. destruct H as (Hne & HK & -> & _). apply in_flat_map. exists r'. split; [exact Hr'|]. apply in_flat_map. exists r. split; [exact Hr|].
          unfold rchan. destruct (keys r r'); [congruence|]. replace (r =? r') with false by lia. now left.
        + intros H. apply in_flat_map in H. destruct H as [r' [Hr' H]]. apply in_flat_map in H. destruct H as [r [Hr H]]. unfold rchan in H.
          destruct (keys r r') eqn:E; [destruct H|]. destruct (Z.eqb_spec r r'); [destruct H|]. destruct H as [<-|[]]. apply in_map_iff.
          eexists (_, _). split; [reflexivity|]. apply in_flat_map. exists r. split; [exact Hr|]. apply in_flat_map. exists r'. split; [exact Hr'|].
          apply in_msg. split; [congruence|]. split; [rewrite E; discriminate|]. split; reflexivity.
    Qed.

    Lemma receive_val pool r r' : Permutation pool msgs -> 0 <= r < size -> 0 <= r' < size -> r <> r' -> keys r r' <> [] ->
      receive pool r' r 4660 = Some (total_len (map (ent send) (keys r r')) * (me - mb), wsof (F0 r) (keys r r') 0).
    Proof.
      intros HP Hr Hr' Hne HK. apply (receive_unique pool msgs); [exact HP|..].
      - unfold msgs. apply in_flat_map. exists r. split; [apply in_zrange; lia|]. apply in_flat_map. exists r'. split; [apply in_zrange; lia|]. apply in_msg. auto.
      - intros dt H. unfold msgs in H. apply in_flat_map in H. destruct H as [r1 [_ H]]. apply in_flat_map in H. destruct H as [r2 [_ H]]. apply in_msg in H.
        destruct H as (_ & _ & [= <- <-] & ->). reflexivity.
    Qed.

    Lemma total_mate ks : (forall p dir q, In (p, dir, q) ks -> In dir dirs27) -> total_len (map (ent (negb send)) (map flipk ks)) = total_len (map (ent send) ks).
    Proof. clear Hibn.
      unfold total_len. induction ks as [|[[p dir] q] ks IH]; intros H; [reflexivity|]. cbn [map zsum flipk ent sr_len]. fold (ent send). fold (ent (negb send)).
      rewrite IH by (intros a b d Hk; apply (H a b d); now right). rewrite (vol_mate send dir) by (apply (H p dir q); now left). reflexivity.
    Qed.

    Lemma ddc_end_val op pool r' : Permutation pool msgs -> 0 <= r' < size -> forall l G, (forall r, In r l -> 0 <= r < size) ->
      fold_left (fun acc r =>
        match acc with
        | None => None
        | Some F =>
            match recv_list (negb send) dm ibn r' r with
            | None => None
            | Some [] => Some F
            | Some es =>
                if r =? r' then Some F
                else match receive pool r' r 4660 with
                     | Some (n, ws) =>
                         if n =? total_len es * (me - mb)
                         then unpack_msg (store_of dm ibn n_comps r') mb me op F es 0 (fun k => if (0 <=? k) && (k <? n) then buf_get ws k else None)
                         else None
                     | None => None
                     end
            end
        end) l (Some G) = Some (apply_u op G (flat_map (fun r => if r =? r' then [] else flat_map (ups (F0 r)) (keys r r')) l)).
    Proof.
      intros HP Hr'. induction l as [|r l IH]; intros G HL; [reflexivity|]. pose proof (HL r (or_introl eq_refl)) as Hr. cbn [flat_map]. rewrite apply_u_app.
      match goal with |- fold_left ?f _ _ = _ => set (stp := f) in * end. cbn [fold_left].
      assert (E : stp (Some G) r = Some (apply_u op G (if r =? r' then [] else flat_map (ups (F0 r)) (keys r r')))).
      2:{ rewrite E. apply IH. intros; apply HL; now right. }
      unfold stp. rewrite recv_list_val by assumption. destruct (keys r r') as [|k ks] eqn:EK; [destruct (r =? r'); reflexivity|].
      cbn [map]. destruct (Z.eqb_spec r r') as [->|Hne]; [reflexivity|].
      rewrite (receive_val pool r r' HP Hr Hr' Hne) by (rewrite EK; discriminate). rewrite EK.
      change (ent (negb send) (flipk k) :: map (ent (negb send)) (map flipk ks)) with (map (ent (negb send)) (map flipk (k :: ks))).
      assert (HD : forall p dir q, In (p, dir, q) (k :: ks) -> In dir dirs27).
      { intros p dir q H. rewrite <- EK in H. apply in_keys in H. apply H. }
      rewrite (total_mate (k :: ks) HD), Z.eqb_refl. fold st. destruct (wsof_fst (F0 r) (k :: ks) HD 0) as [W1 W2]. apply (unpack_val (F0 r) op r r'); try assumption.
      - rewrite EK. auto.
      - intros j v Hj. assert (In j (map fst (wsof (F0 r) (k :: ks) 0))) as Hj' by (apply (in_map fst) in Hj; exact Hj). rewrite W1 in Hj'. apply in_zrange in Hj'.
        replace ((0 <=? j) && (j <? total_len (map (ent send) (k :: ks)) * (me - mb))) with true by lia.
        apply buf_get_in; [rewrite W1; apply NoDup_zrange|exact Hj].
    Qed.

    (** all updates of process r' *)
    Definition U (r' : Z) : list (@update T) :=
      flat_map (ups (F0 r')) (keys r' r') ++ flat_map (fun r => if r =? r' then [] else flat_map (ups (F0 r)) (keys r r')) (zrange 0 size).

    Lemma run_val op pool r' : Permutation pool msgs -> 0 <= r' < size ->
      ddc_run dm size ibn n_comps send mb me op pool (F0 r') r' = Some (apply_u op (F0 r') (U r')).
    Proof.
      intros HP Hr'. unfold ddc_run. rewrite ddc_local_val by exact Hr'. unfold ddc_end.
      rewrite (ddc_end_val op pool r' HP Hr') by (intros r Hr; apply in_zrange in Hr; exact Hr). unfold U. rewrite apply_u_app. reflexivity.
    Qed.

    (** the updates of one entry at one place *)
    Lemma ups_vals F p dir q q' m i : vals (ups F (p, dir, q)) q' m i =
      if (q' =? q) && ((mb <=? m) && (m <? me) && in_boxb (lo (negb send) (negdir dir)) (hi (negb send) (negdir dir)) i) then [F p m (plus3 i (shft dir))] else [].
    Proof.
      unfold vals, ups. set (l := loop4 mb me _ _). pose proof (NoDup_loop4 mb me (lo (negb send) (negdir dir)) (hi (negb send) (negdir dir))) as ND.
      pose proof (in_loop4 mb me (lo (negb send) (negdir dir)) (hi (negb send) (negdir dir)) m i) as IL. fold l in ND, IL.
      assert (E : forall l : list (Z * V3 Z), NoDup l -> map snd (filter (at_loc q' m i) (map (fun '(m, i) => (q, m, i, F p m (plus3 i (shft dir)))) l)) =
        if (q' =? q) && (if in_dec (fun a b => match Z.eq_dec (fst a) (fst b), Z.eq_dec (c0 (snd a)) (c0 (snd b)), Z.eq_dec (c1 (snd a)) (c1 (snd b)), Z.eq_dec (c2 (snd a)) (c2 (snd b)) with
            | left e, left e0, left e1, left e2 => left (pair_v3_eq a b e e0 e1 e2) | right n, _, _, _ => right (fun H => n (f_equal fst H)) | _, right n, _, _ => right (fun H => n (f_equal (fun x => c0 (snd x)) H))
            | _, _, right n, _ => right (fun H => n (f_equal (fun x => c1 (snd x)) H)) | _, _, _, right n => right (fun H => n (f_equal (fun x => c2 (snd x)) H)) end) (m, i) l then true else false)
        then [F p m (plus3 i (shft dir))] else []).
      { clear. induction l as [|[m' i'] l IH]; intros ND; [destruct (q' =? q); reflexivity|]. inversion ND as [|? ? N1 N2]; subst. cbn [map filter at_loc].
        specialize (IH N2). destruct ((q' =? q) && (m =? m') && (c0 i =? c0 i') && (c1 i =? c1 i') && (c2 i =? c2 i')) eqn:E.
        - assert (q' = q /\ m = m' /\ c0 i = c0 i' /\ c1 i = c1 i' /\ c2 i = c2 i') as (-> & -> & E0 & E1 & E2) by lia.
          assert (i' = i) as -> by (destruct i, i'; cbn in *; congruence). cbn [map snd]. rewrite IH. rewrite Z.eqb_refl.
          destruct (in_dec _ (m', i) l) as [Hin|_]; [contradiction|]. destruct (in_dec _ (m', i) ((m', i) :: l)) as [_|Hn]; [reflexivity|exfalso; apply Hn; now left].
        - rewrite IH. destruct (Z.eqb_spec q' q) as [->|]; [|reflexivity]. destruct (in_dec _ (m, i) l) as [Hin|Hn].
          + destruct (in_dec _ (m, i) ((m', i') :: l)) as [_|Hn]; [reflexivity|exfalso; apply Hn; now right].
          + destruct (in_dec _ (m, i) ((m', i') :: l)) as [[[= -> ->]|Hin]|_]; [exfalso; rewrite !Z.eqb_refl in E; discriminate E|contradiction|reflexivity]. }
      rewrite (E l ND). destruct (q' =? q); [|reflexivity]. cbn [andb]. destruct (in_dec _ (m, i) l) as [Hin|Hn].
      - apply IL in Hin. destruct Hin as [A B]. rewrite B. replace ((mb <=? m) && (m <? me) && true) with true by lia. reflexivity.
      - destruct ((mb <=? m) && (m <? me) && in_boxb _ _ i) eqn:B; [|reflexivity]. exfalso. apply Hn, IL. split; [lia|]. destruct (in_boxb _ _ i); [reflexivity|lia].
    Qed.

    Lemma vals_app (us us' : list (@update T)) p m i : vals (us ++ us') p m i = vals us p m i ++ vals us' p m i.
    Proof. unfold vals. rewrite filter_app, map_app. reflexivity. Qed.

    Lemma vals_flat {A} (f : A -> list (@update T)) l p m i : vals (flat_map f l) p m i = flat_map (fun a => vals (f a) p m i) l.
    Proof. induction l as [|a l IH]; [reflexivity|]. cbn [flat_map]. rewrite vals_app, IH. reflexivity. Qed.

    (** what arrives at a place, by direction *)
    Definition arrive (r q m : Z) (i : V3 Z) (dir : V3 Z) : list T :=
      match nb r q dir with
      | Some (r', p) => if (mb <=? m) && (m <? me) && in_boxb (lo (negb send) dir) (hi (negb send) dir) i then [F0 r' p m (plus3 i (shft (negdir dir)))] else []
      | None => []
      end.

    Lemma vals_U r q m i : val r q -> Permutation (vals (U r) q m i) (flat_map (arrive r q m i) dirs27).
    Proof.
      intros [Hr Hq].
      set (W := fun k4 : Z * (Z * V3 Z * Z) => vals (ups (F0 (fst k4)) (snd k4)) q m i).
      set (K1 := flat_map (fun r' => map (fun k => (r', k)) (keys r' r)) (zrange 0 size)).
      set (K2 := flat_map (fun q0 => flat_map (fun dir => match nb r q0 dir with Some (r', p) => [(r', (p, negdir dir, q0))] | None => [] end) dirs27) (zrange 0 (N r))).
      transitivity (flat_map W K1); [|transitivity (flat_map W K2)].
      - unfold U. rewrite vals_app, !vals_flat. unfold K1. rewrite flat_map_flat.
        rewrite (flat_map_ext _ (fun r' => if r' =? r then [] else flat_map W (map (fun k => (r', k)) (keys r' r)))) .
        2:{ intros r'. destruct (r' =? r); [reflexivity|]. rewrite vals_flat, flat_map_map'. reflexivity. }
        assert (P : forall (g : Z -> list T) l, NoDup l -> In r l -> Permutation (g r ++ flat_map (fun r' => if r' =? r then [] else g r') l) (flat_map g l)).
        { clear. intros g l ND Hin. induction l as [|a l IH]; [destruct Hin|]. inversion ND as [|? ? N1 N2]; subst. cbn [flat_map]. destruct (Z.eqb_spec a r) as [->|Hne].
          - cbn [app]. apply Permutation_app_head. rewrite (flat_map_ext_in _ g); [apply Permutation_refl|]. intros b Hb. destruct (Z.eqb_spec b r) as [->|]; [contradiction|reflexivity].
          - destruct Hin as [->|Hin]; [congruence|]. rewrite <- (IH N2 Hin), !app_assoc. apply Permutation_app_tail, Permutation_app_comm. }
        rewrite <- (P (fun r' => flat_map W (map (fun k => (r', k)) (keys r' r)))); [|apply NoDup_zrange|apply in_zrange; lia].
        apply Permutation_app_tail. rewrite flat_map_map'. apply Permutation_refl.
      - apply Permutation_flat_map. apply NoDup_Permutation.
        + unfold K1. apply (NoDup_flat_map _ _ fst); [apply NoDup_zrange|..].
          * intros a b _ H. apply in_map_iff in H. destruct H as [k [<- _]]. reflexivity.
          * intros a _. apply NoDup_map_inj_in; [|apply NoDup_keys]. intros x y _ _ [= ->]. reflexivity.
        + unfold K2. apply (NoDup_flat_map _ _ (fun k4 => snd (snd k4))); [apply NoDup_zrange|..].
          * intros a b _ H. apply in_flat_map in H. destruct H as [dir [_ H]]. destruct (nb r a dir) as [[r' p]|]; [|destruct H]. destruct H as [<-|[]]. reflexivity.
          * intros a _. apply (NoDup_flat_map _ _ (fun k4 => negdir (snd (fst (snd k4))))); [apply NoDup_dirs27|..].
            -- intros dir b _ H. destruct (nb r a dir) as [[r' p]|]; [|destruct H]. destruct H as [<-|[]]. cbn [fst snd]. apply negdir_invol.
            -- intros dir _. destruct (nb r a dir) as [[r' p]|]; constructor; [intros []|constructor].
        + intros [r' [[p dir] q0]]. unfold K1, K2. split.
          * intros H. apply in_flat_map in H. destruct H as [a [Ha H]]. apply in_map_iff in H. destruct H as [k [[= -> ->] Hk]]. apply in_zrange in Ha.
            apply flipk_in in Hk; [|exact Ha]. cbn [flipk] in Hk. apply in_keys in Hk. destruct Hk as [Hq0 [Hd E]].
            apply in_flat_map. exists q0. split; [apply in_zrange; lia|]. apply in_flat_map. exists (negdir dir). split; [exact Hd|]. rewrite E, negdir_invol. now left.
          * intros H. apply in_flat_map in H. destruct H as [q1 [Hq1 H]]. apply in_flat_map in H. destruct H as [dir1 [Hd H]]. destruct (nb r q1 dir1) as [[r1 p1]|] eqn:E; [|destruct H].
            destruct H as [[= -> -> <- ->]|[]]. apply in_zrange in Hq1.
            assert (K : In (q0, dir1, p) (keys r r')) by (apply in_keys; auto). apply flipk_in in K; [|exact Hr]. cbn [flipk] in K.
            destruct (nbd_sym c np gdims per pr size dm Hpos Hset Hcnt Hproc r q0 dir1 r' p (conj Hr Hq1) Hd E) as [[Vr _] _].
            apply in_flat_map. exists r'. split; [apply in_zrange; lia|]. apply in_map. exact K.
      - unfold K2. rewrite flat_map_flat. rewrite (flat_map_pick _ (zrange 0 (N r)) q); [|apply NoDup_zrange|apply in_zrange; exact Hq|].
        + rewrite flat_map_flat. rewrite (flat_map_ext_in _ (arrive r q m i)); [apply Permutation_refl|]. intros dir Hd. unfold arrive. destruct (nb r q dir) as [[r' p]|]; [|reflexivity].
          cbn [flat_map]. rewrite app_nil_r. unfold W. cbn [fst snd]. rewrite ups_vals, Z.eqb_refl, negdir_invol. reflexivity.
        + intros q1 _ Hne. rewrite flat_map_flat. apply flat_map_none. intros dir _. destruct (nb r q1 dir) as [[r' p]|]; [|reflexivity].
          cbn [flat_map]. rewrite app_nil_r. unfold W. cbn [fst snd]. rewrite ups_vals. replace (q =? q1) with false by lia. reflexivity.
    Qed.
  End Exchange.

  (** ** places *)
  Definition minus_shft (x dir : V3 Z) : V3 Z := plus3 x (shft (negdir dir)).

  Lemma minus_shft_get x dir d : get3 (minus_shft x dir) d = get3 x d - get3 dir d * get3 ld d.
  Proof. unfold minus_shft, shft. rewrite plus3_get, get3_gen3, negdir_get. ring. Qed.

  Lemma gdims_ld d : get3 gdims d = get3 np d * get3 ld d.
  Proof. clear Hibn. rewrite (gdims_eq c np gdims per pr size dm Hpos Hset d), ld_eq. reflexivity. Qed.

  Lemma global_idx_val r p : val r p -> exists idx, in_box np idx /\ (exists info, get_local_patch_info dm r p = Some info /\ pi_idx3 info = idx) /\
    forall x d, global_idx dm (r, p, x) d = get3 ld d * get3 idx d + get3 x d.
  Proof. clear Hibn.
    intros Hv. destruct (info_of r p Hv) as [info [EI [EL [Hb HO]]]]. exists (pi_idx3 info). split; [exact Hb|]. split; [exists info; auto|].
    intros x d. unfold global_idx. rewrite EI, HO. reflexivity.
  Qed.

  Lemma size_of_val r p x : val r p -> size_of dm (r, p, x) = ld.
  Proof. intros Hv. destruct (info_of r p Hv) as [info [EI [EL _]]]. unfold size_of. rewrite EI. exact EL. Qed.

  Lemma is_own_val r p x : val r p -> is_own dm (r, p, x) = interior x.
  Proof.
    intros Hv. unfold is_own, interior, in_boxb. rewrite size_of_val by exact Hv. cbn [snd]. apply eq_iff_eq_true. rewrite !forallb_forall.
    split; intros H d Hd; specialize (H d Hd); destruct d; exact H.
  Qed.

  Lemma same_point_iff a b : same_point dm a b <-> forall d, if get3 per d then exists k, global_idx dm a d = global_idx dm b d + k * get3 gdims d else global_idx dm a d = global_idx dm b d.
  Proof. clear Hibn.
    destruct dm_parts as [_ [EG EP]]. unfold same_point, same_pointb. rewrite EG, EP, forallb_forall. split.
    - intros H d. specialize (H d (in_dims3 d)). destruct (get3 per d); [|lia]. exists ((global_idx dm a d - global_idx dm b d) / get3 gdims d).
      apply Z.eqb_eq in H. destruct (Z.eq_dec (get3 gdims d) 0) as [Z0|Z0].
      + rewrite Z0 in *. rewrite Zmod_0_r in H. lia.
      + pose proof (Z.div_mod (global_idx dm a d - global_idx dm b d) (get3 gdims d) Z0). lia.
    - intros H d _. specialize (H d). destruct (get3 per d); [|lia]. destruct H as [k H]. apply Z.eqb_eq. rewrite H.
      replace (global_idx dm b d + k * get3 gdims d - global_idx dm b d) with (k * get3 gdims d) by ring. apply Z_mod_mult.
  Qed.

  Lemma same_point_refl a : same_point dm a a.
  Proof. clear Hibn. apply same_point_iff. intros d. destruct (get3 per d); [exists 0|]; lia. Qed.

  Lemma same_point_sym a b : same_point dm a b -> same_point dm b a.
  Proof. clear Hibn. rewrite !same_point_iff. intros H d. specialize (H d). destruct (get3 per d); [destruct H as [k H]; exists (- k)|]; lia. Qed.

  Lemma same_point_trans a b e : same_point dm a b -> same_point dm b e -> same_point dm a e.
  Proof. clear Hibn. rewrite !same_point_iff. intros H H' d. specialize (H d). specialize (H' d). destruct (get3 per d); [destruct H as [k H], H' as [k' H']; exists (k + k')|]; lia. Qed.

  (** a point in space belongs to one patch *)
  Lemma place_unique r p x r' p' x' : val r p -> val r' p' -> interior x = true -> interior x' = true -> same_point dm (r, p, x) (r', p', x') -> r = r' /\ p = p' /\ x = x'.
  Proof. clear Hibn.
    intros V V' Hx Hx' HS. apply interior_iff in Hx, Hx'. rewrite same_point_iff in HS.
    destruct (global_idx_val r p V) as [idx [Hb [[info [EI Eidx]] G]]]. destruct (global_idx_val r' p' V') as [idx' [Hb' [[info' [EI' Eidx']] G']]].
    assert (E : forall d, get3 idx d = get3 idx' d /\ get3 x d = get3 x' d).
    { intros d. specialize (HS d). rewrite G, G' in HS. specialize (Hx d). specialize (Hx' d). specialize (Hb d). specialize (Hb' d). pose proof (gdims_ld d) as GD.
      assert (E1 : get3 ld d * get3 idx d + get3 x d = get3 ld d * get3 idx' d + get3 x' d).
      { destruct (get3 per d); [|exact HS]. destruct HS as [k HS]. rewrite GD in HS.
        assert (0 <= get3 ld d * get3 idx d + get3 x d < get3 np d * get3 ld d) by nia. assert (0 <= get3 ld d * get3 idx' d + get3 x' d < get3 np d * get3 ld d) by nia.
        assert (k = 0) by (set (M := get3 np d * get3 ld d) in *; nia). subst k. lia. }
      assert (get3 idx d = get3 idx' d) by nia. split; [assumption|]. nia. }
    assert (x = x') by (apply v3_ext; intros d; apply E). assert (Ei : idx = idx') by (apply v3_ext; intros d; apply E). 
    destruct (patch_owns r p V) as [gp Ho]. destruct (patch_owns r' p' V') as [gp' Ho'].
    destruct (owns_local c np gdims per pr size dm Hpos Hset Hcnt r p gp Ho) as [Hgp EL]. destruct (owns_local c np gdims per pr size dm Hpos Hset Hcnt r' p' gp' Ho') as [Hgp' EL'].
    set (X := gen3 (fun d => get3 ld d * get3 idx d + get3 x d)).
    assert (IP : forall info0, pi_ldims info0 = ld -> (forall d, get3 (pi_off info0) d = get3 ld d * get3 idx d) -> in_patch (pi_off info0) (pi_ldims info0) X).
    { intros info0 A B d. rewrite A, B. unfold X. rewrite get3_gen3. specialize (Hx d). lia. }
    destruct (info_of r p V) as [i1 [I1 [L1 [_ O1]]]]. destruct (info_of r' p' V') as [i2 [I2 [L2 [_ O2]]]].
    rewrite EI in I1. injection I1 as <-. rewrite EI' in I2. injection I2 as <-. rewrite Eidx in O1. rewrite Eidx', <- Ei in O2.
    assert (HX : in_box gdims X) by (apply (patch_in_domain c np gdims per pr size dm Hpos Hset Hcnt gp info X Hgp); [rewrite <- EL; exact EI|apply IP; assumption]).
    destruct (cell_patch c np gdims per pr size dm Hpos Hset Hcnt X HX) as [g [_ [_ [_ [_ U1]]]]].
    assert (gp = g) by (apply (U1 gp info Hgp); [rewrite <- EL; exact EI|apply IP; assumption]).
    assert (gp' = g) by (apply (U1 gp' info' Hgp'); [rewrite <- EL'; exact EI'|apply IP; assumption]). subst g gp'.
    destruct (counts_of_ok pr (volume np) size ltac:(pose proof (volume_pos np Hpos); lia) Hcnt) as [HC1 _].
    pose proof (lookup_complete _ _ _ _ HC1 Ho) as Q1. pose proof (lookup_complete _ _ _ _ HC1 Ho') as Q2. rewrite Q1 in Q2. injection Q2 as -> ->.
    repeat split. assumption.
  Qed.

  Lemma nb_place r p dir r' q x : val r p -> In dir dirs27 -> nb r p dir = Some (r', q) -> val r' q /\ same_point dm (r, p, x) (r', q, minus_shft x dir).
  Proof. clear Hibn.
    intros V Hd E. destruct (nbd_sym c np gdims per pr size dm Hpos Hset Hcnt Hproc r p dir r' q V Hd E) as [V' _]. split; [exact V'|].
    destruct (patch_owns r p V) as [gp Ho]. destruct (global_idx_val r p V) as [idx [Hb [[info [EI Ei]] G]]]. destruct (global_idx_val r' q V') as [idx' [Hb' [[info' [EI' Ei']] G']]].
    assert (E2 : get_neighbor_rank_patch dm r p dir = Some (Some (r', q))).
    { unfold nb, nbd, dest in E. destruct ((c0 dir =? 0) && (c1 dir =? 0) && (c2 dir =? 0)); [discriminate E|]. destruct (get_neighbor_rank_patch dm r p dir); [congruence|discriminate E]. }
    destruct (neighbour_cases c np gdims per pr size dm Hpos Hset Hcnt r p gp info dir Ho EI (proj1 (in_dirs27 dir) Hd)) as [[_ K]|[_ [r1 [p1 [gp1 [i1 [K [_ [EI1 HN]]]]]]]]].
    { rewrite E2 in K. discriminate K. }
    rewrite E2 in K. injection K as <- <-. rewrite EI' in EI1. injection EI1 as <-. rewrite Ei, Ei' in HN.
    apply same_point_iff. intros d. rewrite G, G', minus_shft_get. specialize (HN d). destruct HN as [_ HN]. destruct (get3 per d).
    - exists ((get3 idx d + get3 dir d) / get3 np d). rewrite HN. unfold wrap. rewrite gdims_ld. pose proof (Hpos d).
      pose proof (Z.div_mod (get3 idx d + get3 dir d) (get3 np d) ltac:(lia)) as DM.
      rewrite Z.mod_eq by lia. ring.
    - rewrite HN. ring.
  Qed.

  (** the direction of a point with respect to its patch *)
  Definition dir_of (x : V3 Z) : V3 Z := gen3 (fun d => if get3 x d <? 0 then -1 else if get3 x d <? get3 ld d then 0 else 1).
  Definition stored_pt (x : V3 Z) : bool := in_boxb (gen3 (fun d => - get3 ibn d)) (gen3 (fun d => get3 ld d + get3 ibn d)) x.

  Lemma stored_iff x : stored_pt x = true <-> forall d, - get3 ibn d <= get3 x d < get3 ld d + get3 ibn d.
  Proof. unfold stored_pt. rewrite in_boxb_iff. split; intros H d; specialize (H d); rewrite !get3_gen3 in *; exact H. Qed.

  Lemma dir_of_in x : In (dir_of x) dirs27.
  Proof. apply in_dirs27. intros d. unfold dir_of. rewrite get3_gen3. destruct (get3 x d <? 0); [lia|]. destruct (get3 x d <? get3 ld d); lia. Qed.

  Lemma dir_of_zero x : dir_of x = v3 0 0 0 <-> interior x = true.
  Proof.
    rewrite interior_iff. split.
    - intros E d. apply (f_equal (fun v => get3 v d)) in E. unfold dir_of in E. rewrite get3_gen3 in E. replace (get3 (v3 0 0 0) d) with 0 in E by (destruct d; reflexivity).
      destruct (Z.ltb_spec (get3 x d) 0); [lia|]. destruct (Z.ltb_spec (get3 x d) (get3 ld d)); lia.
    - intros H. apply v3_ext. intros d. specialize (H d). unfold dir_of. rewrite get3_gen3. replace (get3 (v3 0 0 0) d) with 0 by (destruct d; reflexivity).
      replace (get3 x d <? 0) with false by lia. replace (get3 x d <? get3 ld d) with true by lia. reflexivity.
  Qed.

  Lemma outside_dir x dir : In dir dirs27 -> (in_boxb (lo false dir) (hi false dir) x = true <-> stored_pt x = true /\ dir = dir_of x).
  Proof.
    intros Hd. rewrite in_boxb_iff, stored_iff. split.
    - intros H. split.
      + intros d. specialize (H d). pose proof (Hibn d). destruct (box_cases false dir d Hd) as [(E & A & B)|[(E & A & B)|(E & A & B)]]; lia.
      + apply v3_ext. intros d. specialize (H d). pose proof (Hibn d). unfold dir_of. rewrite get3_gen3.
        destruct (box_cases false dir d Hd) as [(E & A & B)|[(E & A & B)|(E & A & B)]]; destruct (Z.ltb_spec (get3 x d) 0); try lia; destruct (Z.ltb_spec (get3 x d) (get3 ld d)); lia.
    - intros [H ->] d. specialize (H d). pose proof (box_cases false (dir_of x) d Hd) as BC. unfold dir_of in BC at 1 4 7. rewrite !get3_gen3 in BC.
      destruct (Z.ltb_spec (get3 x d) 0); [|destruct (Z.ltb_spec (get3 x d) (get3 ld d))]; destruct BC as [(E & A & B)|[(E & A & B)|(E & A & B)]]; lia.
  Qed.

  (** the neighbour in the direction of a ghost point, moved, owns it *)
  Lemma dir_of_owner x : stored_pt x = true -> interior (minus_shft x (dir_of x)) = true.
  Proof.
    rewrite stored_iff, interior_iff. intros H d. specialize (H d). pose proof (Hibn d). rewrite minus_shft_get. unfold dir_of. rewrite get3_gen3.
    destruct (Z.ltb_spec (get3 x d) 0); [lia|]. destruct (Z.ltb_spec (get3 x d) (get3 ld d)); lia.
  Qed.

  Lemma nb_zero r p : nb r p (v3 0 0 0) = None.
  Proof. reflexivity. Qed.

  Lemma nb_none r p x r' p' x' : val r p -> val r' p' -> stored_pt x = true -> interior x = false -> interior x' = true -> same_point dm (r, p, x) (r', p', x') ->
    nb r p (dir_of x) <> None.
  Proof.
    intros V V' Hs Hg Hx' HS E. rewrite stored_iff in Hs. rewrite interior_iff in Hx'. rewrite same_point_iff in HS.
    destruct (patch_owns r p V) as [gp Ho]. destruct (global_idx_val r p V) as [idx [Hb [[info [EI Ei]] G]]]. destruct (global_idx_val r' p' V') as [idx' [Hb' [_ G']]].
    assert (NZ : dir_of x <> v3 0 0 0) by (intros K; apply dir_of_zero in K; congruence).
    unfold nb, nbd, dest in E. destruct ((c0 (dir_of x) =? 0) && (c1 (dir_of x) =? 0) && (c2 (dir_of x) =? 0)) eqn:E0.
    { apply NZ. destruct (dir_of x) as [a b e]. cbn [c0 c1 c2] in E0. f_equal; lia. }
    destruct (neighbour_cases c np gdims per pr size dm Hpos Hset Hcnt r p gp info (dir_of x) Ho EI (proj1 (in_dirs27 _) (dir_of_in x))) as [[[d [P L]] _]|[_ [r1 [p1 [gp1 [i1 [K _]]]]]]].
    2:{ rewrite K in E. discriminate E. }
    specialize (HS d). rewrite P in HS. rewrite G, G' in HS. specialize (Hs d). specialize (Hx' d). specialize (Hb' d). pose proof (Hibn d). rewrite Ei in L.
    unfold dir_of in L. rewrite get3_gen3 in L. apply L.
    destruct (Z.ltb_spec (get3 x d) 0); [|destruct (Z.ltb_spec (get3 x d) (get3 ld d))].
    - assert (get3 idx' d = get3 idx d - 1) by nia. lia.
    - assert (get3 idx' d = get3 idx d) by nia. lia.
    - assert (get3 idx' d = get3 idx d + 1) by nia. lia.
  Qed.

  (** ** filling *)
  Section Fill.
    Context {T : Type}.
    Variables (n_comps mb me : Z).
    Hypothesis Hm : 0 <= mb /\ mb <= me /\ me <= n_comps.
    Variable F0 : Z -> flds T.

    Lemma arrive_fill r p m x : val r p -> stored_pt x = true ->
      flat_map (arrive mb me true F0 r p m x) dirs27 =
      match nb r p (dir_of x) with Some (r', q) => if (mb <=? m) && (m <? me) then [F0 r' q m (minus_shft x (dir_of x))] else [] | None => [] end.
    Proof.
      intros V Hs. rewrite (flat_map_pick _ dirs27 (dir_of x)); [|apply NoDup_dirs27|apply dir_of_in|].
      - unfold arrive. destruct (nb r p (dir_of x)) as [[r' q]|]; [|reflexivity]. cbn [negb].
        rewrite (proj2 (outside_dir x (dir_of x) (dir_of_in x))) by auto. rewrite andb_true_r. reflexivity.
      - intros dir Hd Hne. unfold arrive. destruct (nb r p dir) as [[r' q]|]; [|reflexivity]. cbn [negb].
        destruct (in_boxb (lo false dir) (hi false dir) x) eqn:B; [|rewrite andb_false_r; reflexivity]. apply (outside_dir x dir Hd) in B. destruct B; congruence.
    Qed.

    Lemma fill_val r p m x : val r p -> stored_pt x = true ->
      apply_u (fun _ v => v) (F0 r) (U mb me true F0 r) p m x =
      match nb r p (dir_of x) with Some (r', q) => if (mb <=? m) && (m <? me) then F0 r' q m (minus_shft x (dir_of x)) else F0 r p m x | None => F0 r p m x end.
    Proof.
      intros V Hs. rewrite apply_u_get. pose proof (vals_U n_comps mb me true F0 r p m x V) as P. rewrite (arrive_fill r p m x V Hs) in P.
      destruct (nb r p (dir_of x)) as [[r' q]|].
      - destruct ((mb <=? m) && (m <? me)).
        + apply Permutation_sym, Permutation_length_1_inv in P. rewrite P. reflexivity.
        + apply Permutation_sym, Permutation_nil in P. rewrite P. reflexivity.
      - apply Permutation_sym, Permutation_nil in P. rewrite P. reflexivity.
    Qed.

    Lemma fill_spec r p m x : val r p -> stored_pt x = true -> mb <= m < me ->
      let v := apply_u (fun _ v => v) (F0 r) (U mb me true F0 r) p m x in
      (forall r' p' x', val r' p' -> interior x' = true -> same_point dm (r, p, x) (r', p', x') -> v = F0 r' p' m x') /\
      ((forall r' p' x', val r' p' -> interior x' = true -> ~ same_point dm (r, p, x) (r', p', x')) -> v = F0 r p m x).
    Proof.
      intros V Hs Hmm v. unfold v. rewrite (fill_val r p m x V Hs). replace ((mb <=? m) && (m <? me)) with true by lia. split.
      - intros r' p' x' V' Hx' HS. destruct (interior x) eqn:Hi.
        + destruct (place_unique r p x r' p' x' V V' Hi Hx' HS) as [<- [<- <-]]. rewrite (proj2 (dir_of_zero x) Hi), nb_zero. reflexivity.
        + destruct (nb r p (dir_of x)) as [[r1 q1]|] eqn:E; [|exfalso; apply (nb_none r p x r' p' x' V V' Hs Hi Hx' HS E)].
          destruct (nb_place r p (dir_of x) r1 q1 x V (dir_of_in x) E) as [V1 S1].
          assert (S2 : same_point dm (r1, q1, minus_shft x (dir_of x)) (r', p', x')) by (apply same_point_trans with (r, p, x); [apply same_point_sym; exact S1|exact HS]).
          destruct (place_unique _ _ _ _ _ _ V1 V' (dir_of_owner x Hs) Hx' S2) as [-> [-> ->]]. reflexivity.
      - intros NS. destruct (nb r p (dir_of x)) as [[r1 q1]|] eqn:E; [|reflexivity].
        destruct (nb_place r p (dir_of x) r1 q1 x V (dir_of_in x) E) as [V1 S1]. exfalso. exact (NS _ _ _ V1 (dir_of_owner x Hs) S1).
    Qed.

    Lemma fill_other r p m x : val r p -> stored_pt x = true -> ~ (mb <= m < me) -> apply_u (fun _ v => v) (F0 r) (U mb me true F0 r) p m x = F0 r p m x.
    Proof. intros V Hs Hmm. rewrite (fill_val r p m x V Hs). destruct (nb r p (dir_of x)) as [[r' q]|]; [|reflexivity]. replace ((mb <=? m) && (m <? me)) with false by lia. reflexivity. Qed.
  End Fill.

  (** ** adding *)
  Lemma in_spec_box (a b x : V3 Z) : In x (box a b) <-> in_boxb a b x = true.
  Proof.
    rewrite in_boxb_iff. unfold box. split.
    - intros H. apply in_flat_map in H. destruct H as [k [Hk H]]. apply in_flat_map in H. destruct H as [j [Hj H]]. apply in_map_iff in H. destruct H as [i [<- Hi]].
      apply in_zrange in Hk, Hj, Hi. intros []; cbn; lia.
    - intros H. pose proof (H D0). pose proof (H D1). pose proof (H D2). cbn [get3] in *. apply in_flat_map. exists (c2 x). split; [apply in_zrange; lia|].
      apply in_flat_map. exists (c1 x). split; [apply in_zrange; lia|]. apply in_map_iff. exists (c0 x). split; [destruct x; reflexivity|apply in_zrange; lia].
  Qed.

  Lemma NoDup_box (a b : V3 Z) : NoDup (box a b).
  Proof.
    unfold box. apply (NoDup_flat_map _ _ c2); [apply NoDup_zrange|..].
    - intros z v _ H. apply in_flat_map in H. destruct H as [y [_ H]]. apply in_map_iff in H. destruct H as [x [<- _]]. reflexivity.
    - intros z _. apply (NoDup_flat_map _ _ c1); [apply NoDup_zrange|..].
      + intros y v _ H. apply in_map_iff in H. destruct H as [x [<- _]]. reflexivity.
      + intros y _. apply NoDup_map_inj_in; [|apply NoDup_zrange]. intros u v _ _ [= ->]. reflexivity.
  Qed.

  Lemma in_places pts r p x : In (r, p, x) (places dm size pts) <-> val r p /\ In x (pts r p).
  Proof.
    unfold places. rewrite in_flat_map. split.
    - intros [r' [Hr H]]. apply in_flat_map in H. destruct H as [p' [Hp H]]. apply in_map_iff in H. destruct H as [x' [[= -> -> ->] Hx]]. apply in_zrange in Hr, Hp. split; [split; assumption|exact Hx].
    - intros [[Hr Hp] Hx]. exists r. split; [apply in_zrange; lia|]. apply in_flat_map. exists p. split; [apply in_zrange; exact Hp|]. apply in_map. exact Hx.
  Qed.

  Lemma NoDup_places pts : (forall r p, NoDup (pts r p)) -> NoDup (places dm size pts).
  Proof.
    intros H. unfold places. apply (NoDup_flat_map _ _ (fun a : place => fst (fst a))); [apply NoDup_zrange|..].
    - intros r a _ Ha. apply in_flat_map in Ha. destruct Ha as [p [_ Ha]]. apply in_map_iff in Ha. destruct Ha as [x [<- _]]. reflexivity.
    - intros r _. apply (NoDup_flat_map _ _ (fun a : place => snd (fst a))); [apply NoDup_zrange|..].
      + intros p a _ Ha. apply in_map_iff in Ha. destruct Ha as [x [<- _]]. reflexivity.
      + intros p _. apply NoDup_map_inj_in; [|apply H]. intros u v _ _ [= ->]. reflexivity.
  Qed.

  Lemma in_own r p x : In (r, p, x) (own_places dm size) <-> val r p /\ interior x = true.
  Proof.
    unfold own_places. rewrite in_places. unfold own_points. rewrite in_spec_box. split; intros [V H]; (split; [exact V|]).
    - rewrite size_of_val in H by exact V. exact H.
    - rewrite size_of_val by exact V. exact H.
  Qed.

  Lemma in_all r p x : In (r, p, x) (all_places dm size ibn) <-> val r p /\ stored_pt x = true.
  Proof.
    unfold all_places. rewrite in_places. unfold all_points. rewrite in_spec_box. split; intros [V H]; (split; [exact V|]).
    - rewrite size_of_val in H by exact V. exact H.
    - rewrite size_of_val by exact V. exact H.
  Qed.

  Lemma in_ghost r p x : In (r, p, x) (ghost_places dm size ibn) <-> val r p /\ stored_pt x = true /\ interior x = false.
  Proof.
    unfold ghost_places. rewrite filter_In, in_all. split.
    - intros [[V S] H]. rewrite is_own_val in H by exact V. destruct (interior x); [discriminate H|auto].
    - intros [V [S H]]. split; [auto|]. rewrite is_own_val by exact V. rewrite H. reflexivity.
  Qed.

  Lemma own_stored x : interior x = true -> stored_pt x = true.
  Proof. rewrite interior_iff, stored_iff. intros H d. specialize (H d). pose proof (Hibn d). lia. Qed.

  (** the ghost places that denote an own point, by direction *)
  Definition sources (r p : Z) (x : V3 Z) : list place :=
    flat_map (fun dir => match nb r p dir with
                         | Some (r', q) => if in_boxb (lo true dir) (hi true dir) x then [(r', q, minus_shft x dir)] else []
                         | None => []
                         end) dirs27.

  Lemma sources_ghosts r p x : val r p -> interior x = true -> Permutation (sources r p x) (filter (same_pointb dm (r, p, x)) (ghost_places dm size ibn)).
  Proof.
    intros V Hx. pose proof (proj1 (interior_iff x) Hx) as Hx'. apply NoDup_Permutation.
    - unfold sources. apply (NoDup_flat_map _ _ (fun a : place => gen3 (fun d => (get3 x d - get3 (snd a) d) / get3 ld d))); [apply NoDup_dirs27|..].
      + intros dir a Hd Ha. destruct (nb r p dir) as [[r' q]|]; [|destruct Ha]. destruct (in_boxb _ _ x); [|destruct Ha]. destruct Ha as [<-|[]].
        apply v3_ext. intros d. rewrite get3_gen3. cbn [snd]. rewrite minus_shft_get. specialize (Hx' d).
        replace (get3 x d - (get3 x d - get3 dir d * get3 ld d)) with (get3 dir d * get3 ld d) by ring. apply Z.div_mul. lia.
      + intros dir _. destruct (nb r p dir) as [[r' q]|]; [|constructor]. destruct (in_boxb _ _ x); constructor; [intros []|constructor].
    - apply NoDup_filter. unfold ghost_places. apply NoDup_filter. apply NoDup_places. intros. apply NoDup_box.
    - intros [[r' q] y]. rewrite filter_In, in_ghost. unfold sources. rewrite in_flat_map. split.
      + intros [dir [Hd H]]. destruct (nb r p dir) as [[r1 q1]|] eqn:E; [|destruct H]. destruct (in_boxb (lo true dir) (hi true dir) x) eqn:B; [|destruct H].
        destruct H as [[= -> -> <-]|[]]. destruct (nb_place r p dir r' q x V Hd E) as [V' S].
        assert (B' : in_boxb (lo false (negdir dir)) (hi false (negdir dir)) (minus_shft x dir) = true).
        { destruct (box_mate true dir Hd) as [M1 M2]. rewrite in_boxb_iff in *. intros d. specialize (B d). rewrite M1, M2, !plus3_get in B. cbn [negb] in B.
          rewrite minus_shft_get. unfold shft in B. rewrite get3_gen3 in B. lia. }
        assert (NZ : dir <> v3 0 0 0) by (apply (nb_nonzero r p); rewrite E; discriminate).
        split; [split; [exact V'|]|exact S]. split.
        * apply (outside_dir _ _ (negdir_in dir Hd)) in B'. apply B'.
        * apply (box_side false (negdir dir) _ (negdir_in dir Hd)); [|exact B']. intros K. apply NZ. rewrite <- (negdir_invol dir), K. reflexivity.
      + intros [[V' [Hs Hg]] S]. fold (same_point dm (r, p, x) (r', q, y)) in S. apply same_point_sym in S.
        destruct (nb r' q (dir_of y)) as [[r1 p1]|] eqn:E; [|exfalso; exact (nb_none r' q y r p x V' V Hs Hg Hx S E)].
        destruct (nb_place r' q (dir_of y) r1 p1 y V' (dir_of_in y) E) as [V1 S1].
        assert (S2 : same_point dm (r1, p1, minus_shft y (dir_of y)) (r, p, x)) by (apply same_point_trans with (r', q, y); [apply same_point_sym; exact S1|exact S]).
        destruct (place_unique _ _ _ _ _ _ V1 V (dir_of_owner y Hs) Hx S2) as [-> [-> Ex]].
        destruct (nbd_sym c np gdims per pr size dm Hpos Hset Hcnt Hproc r' q (dir_of y) r p V' (dir_of_in y) E) as [_ E'].
        exists (negdir (dir_of y)). split; [apply negdir_in, dir_of_in|]. unfold nb. rewrite E'.
        replace (in_boxb (lo true (negdir (dir_of y))) (hi true (negdir (dir_of y))) x) with true.
        * left. f_equal. rewrite <- Ex. apply v3_ext. intros d. rewrite !minus_shft_get, negdir_get. ring.
        * symmetry. destruct (box_mate true (negdir (dir_of y)) (negdir_in _ (dir_of_in y))) as [M1 M2].
          assert (B : in_boxb (lo false (dir_of y)) (hi false (dir_of y)) y = true) by (apply outside_dir; [apply dir_of_in|auto]).
          rewrite in_boxb_iff in *. intros d. specialize (B d). rewrite M1, M2, !plus3_get. cbn [negb]. rewrite negdir_invol, <- Ex, minus_shft_get.
          unfold shft. rewrite get3_gen3, negdir_get. lia.
  Qed.

  Section Add.
    Variables (n_comps mb me : Z).
    Hypothesis Hm : 0 <= mb /\ mb <= me /\ me <= n_comps.
    Variable F0 : Z -> flds R.

    Lemma fold_plus l : forall a : R, fold_left Rplus l a = (a + rsum l)%R.
    Proof. induction l as [|b l IH]; intros a; cbn [fold_left]; [cbn; ring|]. rewrite IH, rsum_cons. ring. Qed.

    Lemma rsum_perm l l' : Permutation l l' -> rsum l = rsum l'.
    Proof. induction 1; rewrite ?rsum_cons; try lra; reflexivity. Qed.

    Lemma add_own r p m x : val r p -> interior x = true -> mb <= m < me ->
      apply_u Rplus (F0 r) (U mb me false F0 r) p m x = (F0 r p m x + rsum (map (at_place F0 m) (filter (same_pointb dm (r, p, x)) (ghost_places dm size ibn))))%R.
    Proof.
      intros V Hx Hmm. rewrite apply_u_get, fold_plus. f_equal. apply rsum_perm. rewrite (vals_U n_comps mb me false F0 r p m x V).
      rewrite <- (Permutation_map _ (sources_ghosts r p x V Hx)). unfold sources. rewrite map_flat_map'.
      rewrite (flat_map_ext (arrive mb me false F0 r p m x) (fun dir => map (at_place F0 m) (match nb r p dir with
        | Some (r', q) => if in_boxb (lo true dir) (hi true dir) x then [(r', q, minus_shft x dir)] else [] | None => [] end))); [apply Permutation_refl|].
      intros dir. unfold arrive. destruct (nb r p dir) as [[r' q]|]; [|reflexivity]. replace ((mb <=? m) && (m <? me)) with true by lia. cbn [andb negb].
      destruct (in_boxb _ _ x); reflexivity.
    Qed.

    Lemma add_other r p m x : val r p -> interior x = false \/ ~ (mb <= m < me) -> apply_u Rplus (F0 r) (U mb me false F0 r) p m x = F0 r p m x.
    Proof.
      intros V H. rewrite apply_u_get. pose proof (vals_U n_comps mb me false F0 r p m x V) as P. rewrite (flat_map_none (arrive mb me false F0 r p m x) dirs27) in P.
      - apply Permutation_sym, Permutation_nil in P. rewrite P. reflexivity.
      - intros dir Hd. unfold arrive. destruct (nb r p dir) as [[r' q]|] eqn:E; [|reflexivity]. cbn [negb].
        destruct ((mb <=? m) && (m <? me)) eqn:Em; [|reflexivity]. destruct (in_boxb (lo true dir) (hi true dir) x) eqn:B; [|reflexivity]. exfalso.
        apply (box_side true dir x Hd) in B; [|apply (nb_nonzero r p); rewrite E; discriminate]. destruct H as [H|H]; [congruence|lia].
    Qed.

    (** sums over the own points *)
    Lemma own_all : Permutation (all_places dm size ibn) (own_places dm size ++ ghost_places dm size ibn).
    Proof.
      apply NoDup_Permutation.
      - apply NoDup_places. intros. apply NoDup_box.
      - apply NoDup_app_intro; [apply NoDup_places; intros; apply NoDup_box|apply NoDup_filter, NoDup_places; intros; apply NoDup_box|].
        intros [[r p] x] H1 H2. apply in_own in H1. apply in_ghost in H2. destruct H1 as [_ H1], H2 as [_ [_ H2]]. congruence.
      - intros [[r p] x]. rewrite in_app_iff, in_all, in_own, in_ghost. split.
        + intros [V S]. destruct (interior x); auto.
        + intros [[V H]|[V [S _]]]; split; auto using own_stored.
    Qed.

    Lemma rsum_filter {A} (f : A -> R) (b : A -> bool) l : rsum (map f (filter b l)) = rsum (map (fun a => if b a then f a else 0%R) l).
    Proof. induction l as [|a l IH]; [reflexivity|]. cbn [filter map]. destruct (b a); cbn [map]; rewrite ?rsum_cons, IH; ring. Qed.

    Lemma rsum_one {A} (b : A -> bool) (v : R) l a : NoDup l -> In a l -> b a = true -> (forall a', In a' l -> b a' = true -> a' = a) -> rsum (map (fun a => if b a then v else 0%R) l) = v.
    Proof.
      intros ND Hin Hb HU. induction l as [|a1 l IH]; [destruct Hin|]. inversion ND as [|? ? N1 N2]; subst. cbn [map]. rewrite rsum_cons. destruct Hin as [->|Hin].
      - rewrite Hb, rsum_zero; [ring|]. intros a' Ha'. destruct (b a') eqn:E; [|reflexivity]. exfalso. apply N1. rewrite <- (HU a' (or_intror Ha') E). exact Ha'.
      - destruct (b a1) eqn:E; [exfalso; apply N1; rewrite (HU a1 (or_introl eq_refl) E); exact Hin|]. rewrite IH; [ring|exact N2|exact Hin|]. intros a' Ha'. apply HU. now right.
    Qed.

    (** in a periodic domain every stored point has an owner *)
    Lemma owner_exists r q y : val r q -> stored_pt y = true -> (forall d, get3 per d = true) ->
      exists r1 p1 x1, val r1 p1 /\ interior x1 = true /\ same_point dm (r, q, y) (r1, p1, x1).
    Proof.
      intros V S Hper. destruct (interior y) eqn:Hy; [exists r, q, y; split; [exact V|]; split; [exact Hy|apply same_point_refl]|].
      destruct (nb r q (dir_of y)) as [[r1 p1]|] eqn:E.
      - destruct (nb_place r q (dir_of y) r1 p1 y V (dir_of_in y) E) as [V1 S1]. exists r1, p1, (minus_shft y (dir_of y)). split; [exact V1|]. split; [apply dir_of_owner; exact S|exact S1].
      - exfalso. destruct (patch_owns r q V) as [gp Ho]. destruct (global_idx_val r q V) as [idx [Hb [[info [EI Ei]] G]]].
        unfold nb, nbd, dest in E. destruct ((c0 (dir_of y) =? 0) && (c1 (dir_of y) =? 0) && (c2 (dir_of y) =? 0)) eqn:E0.
        { assert (dir_of y = v3 0 0 0) as K by (destruct (dir_of y) as [a b e]; cbn [c0 c1 c2] in E0; f_equal; lia). apply dir_of_zero in K. congruence. }
        destruct (neighbour_cases c np gdims per pr size dm Hpos Hset Hcnt r q gp info (dir_of y) Ho EI (proj1 (in_dirs27 _) (dir_of_in y))) as [[[d [P L]] _]|[_ [r1 [p1 [gp1 [i1 [K _]]]]]]].
        + rewrite Hper in P. discriminate P.
        + rewrite K in E. discriminate E.
    Qed.

    Lemma add_total m : mb <= m < me -> (forall d, get3 per d = true) ->
      rsum (map (at_place (fun r => apply_u Rplus (F0 r) (U mb me false F0 r)) m) (own_places dm size)) = rsum (map (at_place F0 m) (all_places dm size ibn)).
    Proof.
      intros Hmm Hper. rewrite (rsum_perm _ _ (Permutation_map _ own_all)), map_app, rsum_app.
      rewrite (rsum_ext _ (fun a => (at_place F0 m a + rsum (map (fun g => if same_pointb dm a g then at_place F0 m g else 0%R) (ghost_places dm size ibn)))%R)).
      2:{ intros [[r p] x] Ha. apply in_own in Ha. destruct Ha as [V Hx]. rewrite <- rsum_filter. exact (add_own r p m x V Hx Hmm). }
      rewrite rsum_plus. f_equal. rewrite rsum_swap. apply rsum_ext. intros [[r q] y] Hg. apply in_ghost in Hg. destruct Hg as [V [S Hy]].
      destruct (nb r q (dir_of y)) as [[r1 p1]|] eqn:E.
      - destruct (nb_place r q (dir_of y) r1 p1 y V (dir_of_in y) E) as [V1 S1].
        apply (rsum_one (fun a => same_pointb dm a (r, q, y)) _ _ (r1, p1, minus_shft y (dir_of y))).
        + apply NoDup_places. intros. apply NoDup_box.
        + apply in_own. split; [exact V1|apply dir_of_owner; exact S].
        + exact (same_point_sym _ _ S1).
        + intros [[r2 p2] x2] Ha Hs. apply in_own in Ha. destruct Ha as [V2 I2].
          destruct (place_unique r2 p2 x2 r1 p1 (minus_shft y (dir_of y)) V2 V1 I2 (dir_of_owner y S)) as [-> [-> ->]]; [|reflexivity].
          apply same_point_trans with (r, q, y); [exact Hs|exact S1].
      - exfalso. destruct (patch_owns r q V) as [gp Ho]. destruct (global_idx_val r q V) as [idx [Hb [[info [EI Ei]] G]]].
        unfold nb, nbd, dest in E. destruct ((c0 (dir_of y) =? 0) && (c1 (dir_of y) =? 0) && (c2 (dir_of y) =? 0)) eqn:E0.
        { assert (dir_of y = v3 0 0 0) as K by (destruct (dir_of y) as [a b e]; cbn [c0 c1 c2] in E0; f_equal; lia). apply dir_of_zero in K. congruence. }
        destruct (neighbour_cases c np gdims per pr size dm Hpos Hset Hcnt r q gp info (dir_of y) Ho EI (proj1 (in_dirs27 _) (dir_of_in y))) as [[[d [P L]] _]|[_ [r1 [p1 [gp1 [i1 [K _]]]]]]].
        + rewrite Hper in P. discriminate P.
        + rewrite K in E. discriminate E.
    Qed.
  End Add.

  (** ** layout *)
  Lemma layout (send : bool) r r' : 0 <= r < size -> 0 <= r' < size ->
    exists ss rs, sr_entries send dm ibn r r' = Some ss /\ recv_list (negb send) dm ibn r' r = Some rs /\ total_len ss = total_len rs /\
      Forall2 (fun s e => sr_patch s = sr_nei_patch e /\ sr_nei_patch s = sr_patch e /\ sr_len s = sr_len e /\
        (exists sh, sr_ilo s = plus3 (sr_ilo e) sh /\ sr_ihi s = plus3 (sr_ihi e) sh /\ forall x, same_point dm (r', sr_patch e, x) (r, sr_patch s, plus3 x sh))) ss rs.
  Proof. clear Hibn.
    intros Hr Hr'. exists (map (ent send) (keys r r')), (map (ent (negb send)) (map flipk (keys r r'))). split; [apply sr_entries_val; exact Hr|]. split; [apply recv_list_val; assumption|].
    split; [symmetry; apply total_mate; intros p dir q H; apply in_keys in H; apply H|].
    assert (HK : forall k, In k (keys r r') -> In k (keys r r')) by auto. revert HK. generalize (keys r r') at 1 3 4. intros ks. induction ks as [|[[p dir] q] ks IH]; intros HK; [constructor|].
    constructor; [|apply IH; intros; apply HK; now right]. cbn [flipk ent sr_patch sr_nei_patch sr_len sr_ilo sr_ihi].
    destruct (proj1 (in_keys r r' p dir q) (HK _ (or_introl eq_refl))) as [Hp [Hd E]]. destruct (box_mate send dir Hd) as [M1 M2].
    split; [reflexivity|]. split; [reflexivity|]. split; [apply vol_mate; exact Hd|]. exists (shft dir). split; [exact M1|]. split; [exact M2|].
    intros x. apply same_point_sym. destruct (nb_place r p dir r' q (plus3 x (shft dir)) (conj Hr Hp) Hd E) as [_ S].
    replace (minus_shft (plus3 x (shft dir)) dir) with x in S; [exact S|]. apply v3_ext. intros d. rewrite minus_shft_get, plus3_get. unfold shft. rewrite get3_gen3. ring.
  Qed.
End Domain.
