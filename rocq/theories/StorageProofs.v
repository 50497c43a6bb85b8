From Verif Require Import Base StorageModel.
Local Open Scope Z_scope.

(** a point with a component and a patch, inside the declared box *)
Record point := Point { pt_m : Z; pt_i : V3 Z; pt_p : Z }.

Definition declared (f : mfields) (a : point) : Prop :=
  (forall d, get3 (ib f) d <= get3 (pt_i a) d < get3 (ib f) d + get3 (im f) d) /\
  0 <= pt_m a < n_comps f /\ 0 <= pt_p a < n_patches f.

Definition pos_of (f : mfields) (a : point) : Z := mf_pos f (pt_m a) (c0 (pt_i a)) (c1 (pt_i a)) (c2 (pt_i a)) (pt_p a).

(** one digit *)
Lemma digit_range n q lo hi : 0 <= lo < n -> 0 <= hi < q -> 0 <= lo + n * hi < n * q.
Proof.
  intros H1 H2. assert (n * (hi + 1) <= n * q) by (apply Z.mul_le_mono_nonneg_l; lia).
  assert (0 <= n * hi) by (apply Z.mul_nonneg_nonneg; lia). lia.
Qed.

Lemma digit_inj n lo hi lo' hi' : 0 <= lo < n -> 0 <= lo' < n -> lo + n * hi = lo' + n * hi' -> lo = lo' /\ hi = hi'.
Proof.
  intros H1 H2 E. assert (hi = hi').
  { rewrite (Z.div_unique_pos (lo + n * hi) n hi lo), (Z.div_unique_pos (lo' + n * hi') n hi' lo') by lia. rewrite E. reflexivity. }
  subst. lia.
Qed.

Lemma digit_surj n q x : 0 < n -> 0 <= x < n * q -> exists lo hi, 0 <= lo < n /\ 0 <= hi < q /\ x = lo + n * hi.
Proof.
  intros Hn Hx. exists (x mod n), (x / n). split; [apply Z.mod_pos_bound; lia|]. split.
  - split; [apply Z.div_pos; lia|]. apply Z.div_lt_upper_bound; lia.
  - pose proof (Z.div_mod x n ltac:(lia)). lia.
Qed.

Section S.
  Variable f : mfields.

  Lemma mf_pos_horner a : pos_of f a =
    (c0 (pt_i a) - c0 (ib f)) + c0 (im f) * ((c1 (pt_i a) - c1 (ib f)) + c1 (im f) * ((c2 (pt_i a) - c2 (ib f))
      + c2 (im f) * (pt_m a + n_comps f * pt_p a))).
  Proof. unfold pos_of, mf_pos, storage_pos. ring. Qed.

  Lemma size_horner : storage_size f = c0 (im f) * (c1 (im f) * (c2 (im f) * (n_comps f * n_patches f))).
  Proof. unfold storage_size. ring. Qed.

  Lemma pos_in_allocation a : declared f a -> 0 <= pos_of f a < storage_size f.
  Proof.
    intros [Hi [Hm Hp]]. pose proof (Hi D0) as H0. pose proof (Hi D1) as H1. pose proof (Hi D2) as H2. cbn [get3] in *.
    rewrite mf_pos_horner, size_horner. do 3 (apply digit_range; [lia|]). apply digit_range; assumption.
  Qed.

  Lemma pos_inj a b : declared f a -> declared f b -> pos_of f a = pos_of f b -> a = b.
  Proof.
    intros [Hi [Hm Hp]] [Hi' [Hm' Hp']] E. pose proof (Hi D0). pose proof (Hi D1). pose proof (Hi D2).
    pose proof (Hi' D0). pose proof (Hi' D1). pose proof (Hi' D2). cbn [get3] in *. rewrite !mf_pos_horner in E.
    apply digit_inj in E; [|lia|lia]. destruct E as [E0 E]. apply digit_inj in E; [|lia|lia]. destruct E as [E1 E].
    apply digit_inj in E; [|lia|lia]. destruct E as [E2 E]. apply digit_inj in E; [|lia|lia]. destruct E as [E3 E4].
    destruct a as [m [i j k] p], b as [m' [i' j' k'] p']. cbn in *. f_equal; [exact E3| |exact E4]. f_equal; lia.
  Qed.

  Lemma pos_surj x : (forall d, 0 < get3 (im f) d) -> 0 < n_comps f -> 0 <= x < storage_size f ->
    exists a, declared f a /\ pos_of f a = x.
  Proof.
    intros Him Hc Hx. pose proof (Him D0). pose proof (Him D1). pose proof (Him D2). cbn [get3] in *.
    rewrite size_horner in Hx. apply digit_surj in Hx; [|lia]. destruct Hx as [i [h [Hi [Hh ->]]]].
    apply digit_surj in Hh; [|lia]. destruct Hh as [j [h2 [Hj [Hh ->]]]].
    apply digit_surj in Hh; [|lia]. destruct Hh as [k [h3 [Hk [Hh ->]]]].
    apply digit_surj in Hh; [|lia]. destruct Hh as [m [p [Hm [Hp ->]]]].
    exists (Point m (v3 (i + c0 (ib f)) (j + c1 (ib f)) (k + c2 (ib f))) p). split.
    - split; [|split; assumption]. intros []; cbn; lia.
    - rewrite mf_pos_horner. cbn. ring_simplify. ring.
  Qed.

  Lemma view_same p m i j k :
    view_pos f p (i - c0 (ib f)) (j - c1 (ib f)) (k - c2 (ib f)) m = mf_pos f m i j k p.
  Proof. unfold view_pos, mf_pos, storage_pos, span_pos, strides. ring. Qed.

  (** in an invariant direction the index is irrelevant *)
  Lemma fields3d_same invar p m i j k :
    (forall d, get3 invar d = true -> get3 (ib f) d = 0 /\ get3 (im f) d = 1) ->
    fields3d_pos invar f p m i j k =
    mf_pos f m (if c0 invar then 0 else i) (if c1 invar then 0 else j) (if c2 invar then 0 else k) p.
  Proof.
    intros H. pose proof (H D0) as H0. pose proof (H D1) as H1. pose proof (H D2) as H2. cbn [get3] in *.
    rewrite <- view_same. unfold fields3d_pos.
    destruct (c0 invar), (c1 invar), (c2 invar);
      try (rewrite (proj1 (H0 eq_refl))); try (rewrite (proj1 (H1 eq_refl))); try (rewrite (proj1 (H2 eq_refl))); rewrite ?Z.sub_0_r; reflexivity.
  Qed.
End S.

(** array-of-structures layout *)
Lemma aos_range (im : V3 Z) n i j k m : 0 <= i < c0 im -> 0 <= j < c1 im -> 0 <= k < c2 im -> 0 <= m < n ->
  0 <= span_pos (strides_aos im n) i j k m < c0 im * c1 im * c2 im * n.
Proof.
  intros. replace (span_pos _ i j k m) with (m + n * (i + c0 im * (j + c1 im * k))) by (unfold span_pos, strides_aos; ring).
  replace (c0 im * c1 im * c2 im * n) with (n * (c0 im * (c1 im * c2 im))) by ring.
  apply digit_range; [lia|]. apply digit_range; [lia|]. apply digit_range; lia.
Qed.

Lemma aos_inj (im : V3 Z) n i j k m i' j' k' m' :
  0 <= i < c0 im -> 0 <= j < c1 im -> 0 <= m < n -> 0 <= i' < c0 im -> 0 <= j' < c1 im -> 0 <= m' < n ->
  span_pos (strides_aos im n) i j k m = span_pos (strides_aos im n) i' j' k' m' -> i = i' /\ j = j' /\ k = k' /\ m = m'.
Proof.
  intros ? ? ? ? ? ? E.
  replace (span_pos _ i j k m) with (m + n * (i + c0 im * (j + c1 im * k))) in E by (unfold span_pos, strides_aos; ring).
  replace (span_pos _ i' j' k' m') with (m' + n * (i' + c0 im * (j' + c1 im * k'))) in E by (unfold span_pos, strides_aos; ring).
  apply digit_inj in E; [|lia|lia]. destruct E as [E0 E]. apply digit_inj in E; [|lia|lia]. destruct E as [E1 E].
  apply digit_inj in E; [|lia|lia]. destruct E. auto.
Qed.
