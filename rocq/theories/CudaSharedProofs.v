(** Proofs about shared memory, racing updates, and the current of the push on the GPU. *)
From Coq Require Import Reals Permutation.
From Verif Require Import Base Arr RSum FieldModel CurrentModel CurrentProofs CudaPrtModel CudaPrtSpec CudaPrtProofs CudaLaunchModel CudaLaunchSpec CudaLaunchProofs BalanceCommProofs UidProofs GhostProofs SetupProofs CollisionProofs.
Local Open Scope Z_scope.

Lemma v3_eqb_eq (a b : V3 Z) : v3_eqb a b = true <-> a = b.
Proof.
  destruct a as [a0 a1 a2], b as [b0 b1 b2]. unfold v3_eqb. cbn [c0 c1 c2]. rewrite !Bool.andb_true_iff, !Z.eqb_eq. split.
  - intros [[-> ->] ->]. reflexivity.
  - intros E. injection E as -> -> ->. auto.
Qed.

Lemma addr_eqb_eq a b : addr_eqb a b = true <-> a = b.
Proof.
  destruct a as [[p m] n], b as [[p' m'] n']. unfold addr_eqb. rewrite !Bool.andb_true_iff, Z.eqb_eq, dim3_eqb_eq, v3_eqb_eq. split.
  - intros [[-> ->] ->]. reflexivity.
  - intros E. injection E as -> -> ->. auto.
Qed.

Lemma addr_dec (a b : addr) : {a = b} + {a <> b}.
Proof. destruct (addr_eqb a b) eqn:E; [left; apply addr_eqb_eq; exact E|right]. intros X. apply addr_eqb_eq in X. congruence. Qed.

Lemma jget_jset F a v b : jget (jset F a v) b = if addr_eqb a b then v else jget F b.
Proof. destruct b as [[p m] n]. reflexivity. Qed.

(** ** Racing updates *)

Section Race.
Context (g : geom) (ibn : V3 Z) (ts : list (addr * R)).
Hypothesis Hnd : NoDup (map fst ts).
Hypothesis Hin : forall t, In t ts -> in_field g ibn (fst t) = true.
Context (F0 : jfield) (l : list event).
Hypothesis Hl : schedule (length ts) l.

Lemma sched_nodup : NoDup l.
Proof.
  destruct Hl as [P _]. apply (Permutation_NoDup (Permutation_sym P)). apply DomainProofs.NoDup_app_intro.
  - apply NoDup_map_in; [|apply seq_NoDup]. intros a b _ _ E. congruence.
  - apply NoDup_map_in; [|apply seq_NoDup]. intros a b _ _ E. congruence.
  - intros e H1 H2. apply in_map_iff in H1, H2. destruct H1 as (a & <- & _), H2 as (b & E & _). discriminate.
Qed.

Lemma sched_lt e : In e l -> (match e with Rd k | Wr k => k end < length ts)%nat.
Proof.
  destruct Hl as [P _]. intros H. apply (Permutation_in _ P) in H. apply in_app_or in H.
  destruct H as [H|H]; apply in_map_iff in H; destruct H as (k & <- & H); apply in_seq in H; lia.
Qed.

Lemma sched_wr k : (k < length ts)%nat -> In (Wr k) l.
Proof.
  destruct Hl as [P _]. intros H. apply (Permutation_in _ (Permutation_sym P)). apply in_or_app. right. apply in_map, in_seq. lia.
Qed.

Lemma task_at k : (k < length ts)%nat -> exists a v, nth_error ts k = Some (a, v) /\ in_field g ibn a = true.
Proof.
  intros H. destruct (nth_error ts k) as [[a v]|] eqn:E; [|apply nth_error_None in E; lia].
  exists a, v. split; [reflexivity|]. apply nth_error_In in E. apply (Hin _ E).
Qed.

Lemma task_inj j k a v a' v' : nth_error ts j = Some (a, v) -> nth_error ts k = Some (a', v') -> a = a' -> j = k.
Proof.
  intros Ej Ek <-. pose proof (proj1 (NoDup_nth_error (map fst ts)) Hnd j k) as X. apply X.
  - rewrite map_length. apply nth_error_Some. congruence.
  - rewrite !nth_error_map, Ej, Ek. reflexivity.
Qed.

Let inv (l1 : list event) (s : jfield * (nat -> R)) : Prop :=
  (forall k a v, nth_error ts k = Some (a, v) ->
     (In (Wr k) l1 -> jget (fst s) a = (jget F0 a + v)%R) /\
     (~ In (Wr k) l1 -> jget (fst s) a = jget F0 a /\ (In (Rd k) l1 -> snd s k = jget F0 a))) /\
  (forall a, ~ In a (map fst ts) -> jget (fst s) a = jget F0 a).

Lemma exec_inv l2 : forall l1 s, l = l1 ++ l2 -> inv l1 s -> exists s', exec_evs g ibn ts s l2 = Some s' /\ inv l s'.
Proof.
  induction l2 as [|e l2 IH]; intros l1 [F reg] E I.
  - rewrite app_nil_r in E. subst l1. exists (F, reg). split; [reflexivity|exact I].
  - assert (Hlt := sched_lt e). rewrite E in Hlt at 1. specialize (Hlt ltac:(apply in_or_app; right; left; reflexivity)).
    assert (ND := sched_nodup). rewrite E in ND. assert (Ne : ~ In e l1) by (apply NoDup_remove_2 in ND; intros X; apply ND, in_or_app; left; exact X).
    assert (E' : l = (l1 ++ [e]) ++ l2) by (rewrite <- app_assoc; exact E).
    cbn [exec_evs]. destruct I as [I1 I2]. cbn [fst snd] in I1, I2. destruct e as [k|k].
    + destruct (task_at k Hlt) as (a & v & Ek & Fk).
      assert (Nw : ~ In (Wr k) l1).
      { intros X. apply in_split in X. destruct X as (la & lb & ->). apply Ne. apply in_or_app. left.
        apply (proj2 Hl k la (lb ++ Rd k :: l2)). rewrite E, <- app_assoc. reflexivity. }
      unfold exec_ev. rewrite Ek, Fk. apply (IH (l1 ++ [Rd k])); [exact E'|]. split; cbn [fst snd].
      * intros j b w Ej. destruct (I1 j b w Ej) as [J1 J2]. split.
        -- intros X. apply in_app_or in X. destruct X as [X|[X|[]]]; [exact (J1 X)|discriminate].
        -- intros X. assert (X' : ~ In (Wr j) l1) by (intros Y; apply X, in_or_app; left; exact Y). destruct (J2 X') as [K1 K2]. split; [exact K1|].
           intros Y. destruct (Nat.eqb j k) eqn:Q.
           ++ apply Nat.eqb_eq in Q. subst j. rewrite Ek in Ej. injection Ej as <- <-. apply (proj1 (I1 k a v Ek) ) || apply (proj2 (I1 k a v Ek) Nw).
           ++ apply K2. apply in_app_or in Y. destruct Y as [Y|[Y|[]]]; [exact Y|]. injection Y as ->. rewrite Nat.eqb_refl in Q. discriminate.
      * exact I2.
    + destruct (task_at k Hlt) as (a & v & Ek & Fk).
      assert (Hr : In (Rd k) l1) by (apply (proj2 Hl k l1 l2 E)).
      unfold exec_ev. rewrite Ek, Fk. apply (IH (l1 ++ [Wr k])); [exact E'|]. split; cbn [fst snd].
      * intros j b w Ej. rewrite jget_jset. destruct (I1 j b w Ej) as [J1 J2]. destruct (addr_eqb a b) eqn:Q.
        -- apply addr_eqb_eq in Q. pose proof (task_inj _ _ _ _ _ _ Ek Ej Q) as <-. rewrite Ek in Ej. injection Ej as <- <-. split.
           ++ intros _. destruct (J2 Ne) as [_ K]. rewrite (K Hr). reflexivity.
           ++ intros X. exfalso. apply X, in_or_app. right. left. reflexivity.
        -- assert (j <> k) by (intros ->; rewrite Ek in Ej; injection Ej as <- <-; assert (addr_eqb a a = true) by (apply addr_eqb_eq; reflexivity); congruence).
           assert (forall (ev : event), (ev = Wr j \/ ev = Rd j) -> In ev (l1 ++ [Wr k]) -> In ev l1).
           { intros ev D X. apply in_app_or in X. destruct X as [X|[X|[]]]; [exact X|]. destruct D as [->| ->]; [injection X as X; congruence|discriminate]. }
           split; [intros X; apply J1, H0; [left; reflexivity|exact X]|]. intros X. destruct J2 as [K1 K2]; [intros Y; apply X, in_or_app; left; exact Y|].
           split; [exact K1|]. intros Y. apply K2, H0; [right; reflexivity|exact Y].
      * intros b Hb. rewrite jget_jset. destruct (addr_eqb a b) eqn:Q; [|apply I2; exact Hb]. apply addr_eqb_eq in Q. subst b. exfalso. apply Hb.
        apply nth_error_In in Ek. apply in_map_iff. exists (a, v). split; [reflexivity|exact Ek].
Qed.

(** whatever the order, every update is done *)
Lemma exec_race reg : exists s, exec_evs g ibn ts (F0, reg) l = Some s /\
  forall a, jget (fst s) a = (jget F0 a + rsum (map (fun t => if addr_eqb (fst t) a then snd t else 0) ts))%R.
Proof.
  destruct (exec_inv l [] (F0, reg) eq_refl) as (s & E & [I1 I2]).
  - split; cbn [fst snd]; [|reflexivity]. intros k a v _. split; [intros []|]. intros _. split; [reflexivity|intros []].
  - exists s. split; [exact E|]. intros a. destruct (in_dec addr_dec a (map fst ts)) as [H|H].
    + apply in_map_iff in H. destruct H as ([b v] & <- & H). cbn [fst]. pose proof H as H'. apply In_nth_error in H. destruct H as [k Ek].
      rewrite (proj1 (I1 k b v Ek) (sched_wr k ltac:(apply nth_error_Some; congruence))). f_equal.
      clear - Hnd H'. induction ts as [|[c w] r IH]; [destruct H'|]. cbn [map fst snd] in *. rewrite rsum_cons. inversion Hnd; subst. destruct H' as [E|H'].
      * injection E as -> ->. assert (addr_eqb b b = true) as -> by (apply addr_eqb_eq; reflexivity). rewrite rsum_zero; [ring|].
        intros [d u] Hd. cbn [fst snd]. destruct (addr_eqb d b) eqn:Q; [|reflexivity]. apply addr_eqb_eq in Q. subst d. exfalso. apply H1. apply in_map_iff. exists (b, u). split; [reflexivity|exact Hd].
      * destruct (addr_eqb c b) eqn:Q; [|rewrite <- IH by assumption; ring]. apply addr_eqb_eq in Q. subst c. exfalso. apply H1. apply in_map_iff. exists (b, v). split; [reflexivity|exact H'].
    + rewrite (I2 a H). rewrite rsum_zero; [ring|]. intros [b v] Hb. cbn [fst snd]. destruct (addr_eqb b a) eqn:Q; [|reflexivity].
      apply addr_eqb_eq in Q. subst b. exfalso. apply H. apply in_map_iff. exists (a, v). split; [reflexivity|exact Hb].
Qed.
End Race.

Lemma app_split_prefix {A} (P Q : A -> Prop) : forall (l1 m1 l2 m2 : list A) x, (forall a, In a m1 -> P a) -> (forall a, In a m2 -> Q a) -> ~ P x ->
  l1 ++ x :: l2 = m1 ++ m2 -> forall a, In a m1 -> In a l1.
Proof.
  induction l1 as [|b l1 IH]; intros m1 l2 m2 x H1 H2 Nx E a Ha.
  - destruct m1 as [|c m1]; [destruct Ha|]. cbn in E. injection E as E _. exfalso. apply Nx. rewrite E. apply H1. left. reflexivity.
  - destruct m1 as [|c m1]; [destruct Ha|]. cbn in E. injection E as -> E. destruct Ha as [->|Ha]; [left; reflexivity|right].
    apply (IH m1 l2 m2 x); try assumption. intros d Hd. apply H1. right. exact Hd.
Qed.

Lemma schedule_exists n : schedule n (map Rd (seq 0 n) ++ map Wr (seq 0 n)).
Proof.
  split; [reflexivity|]. intros k l1 l2 E.
  assert (K : In (Wr k) (map Rd (seq 0 n) ++ map Wr (seq 0 n))) by (rewrite E; apply in_or_app; right; left; reflexivity).
  apply in_app_or in K. destruct K as [K|K]; apply in_map_iff in K; destruct K as (j & Ej & K); [discriminate|]. injection Ej as ->.
  apply (app_split_prefix (fun e => match e with Rd _ => True | Wr _ => False end) (fun _ => True) l1 (map Rd (seq 0 n)) l2 (map Wr (seq 0 n)) (Wr k)).
  - intros e He. apply in_map_iff in He. destruct He as (i & <- & _). exact Logic.I.
  - intros; exact Logic.I.
  - intros [].
  - symmetry. exact E.
  - apply in_map. exact K.
Qed.

(** ** Shared memory *)

Section Shared.
Context (g : geom) (ok : geom_ok g).

Lemma sy_pos : 3 < stride_y g.
Proof. unfold stride_y. pose proof (go_bs g ok D1) as H. cbn [get3] in H. lia. Qed.
Lemma sz_pos : 3 < stride_z g.
Proof. unfold stride_z. pose proof (go_bs g ok D2) as H. cbn [get3] in H. lia. Qed.

(** a point of the block's part of the current *)
Definition in_box (jy jz : Z) : Prop := 0 <= jy + 1 < stride_y g /\ 0 <= jz + 1 < stride_z g.

Lemma m_no_bound m : 0 <= m_no m < 3.
Proof. destruct m; cbn; lia. Qed.

Lemma m_no_inj m m' : m_no m = m_no m' -> m = m'.
Proof. destruct m, m'; cbn; congruence || lia. Qed.

Lemma radix n a a' q q' : 0 <= a < n -> 0 <= a' < n -> q * n + a = q' * n + a' -> q = q' /\ a = a'.
Proof.
  intros A A' E. assert (q = q'); [|subst; lia].
  assert (n * (q - q') = a' - a) by lia. assert (- n < n * (q - q') < n) by lia. assert (-1 < q - q' < 1) by nia. lia.
Qed.

Lemma sh_index_inj jy jz m w jy' jz' m' w' : in_box jy jz -> in_box jy' jz' -> 0 <= w < 16 -> 0 <= w' < 16 ->
  sh_index g jy jz m w = sh_index g jy' jz' m' w' -> jy = jy' /\ jz = jz' /\ m = m' /\ w = w'.
Proof.
  intros [B1 B2] [B1' B2'] W W' E. unfold sh_index in E. apply radix in E; [|exact W|exact W']. destruct E as [E ->].
  apply radix in E; [|exact B1|exact B1']. destruct E as [E E1]. apply radix in E; [|exact B2|exact B2']. lia.
Qed.

Lemma sh_index_bound jy jz m w : in_box jy jz -> 0 <= m < 3 -> 0 <= w < 16 -> 0 <= sh_index g jy jz m w < sh_size g.
Proof.
  intros [B1 B2] M W. unfold sh_index, sh_size.
  assert (A : 0 <= m * stride_z g + (jz + 1) < 3 * stride_z g) by nia.
  assert (B : 0 <= (m * stride_z g + (jz + 1)) * stride_y g + (jy + 1) < 3 * stride_z g * stride_y g) by nia.
  nia.
Qed.

Lemma sh_zero_get sh i : 0 <= i < sh_size g -> sh_zero g sh i = 0%R.
Proof.
  intros H. unfold sh_zero. assert (I : In i (flat_map (fun tid => strided tid (sh_size g) tpb) (zrange 0 tpb))).
  { apply (in_threads 0 tpb (sh_size g) i); [reflexivity|lia]. }
  assert (K : forall l sh, (In i l \/ sh i = 0%R) -> fold_left (fun sh i => sh_set sh i 0%R) l sh i = 0%R).
  { clear. induction l as [|a l IH]; intros sh H; [destruct H as [[]|H]; exact H|]. cbn [fold_left]. apply IH.
    unfold sh_set. destruct (i =? a) eqn:E; [right; reflexivity|]. apply Z.eqb_neq in E. destruct H as [[H|H]|H]; [congruence|left; exact H|right; exact H]. }
  apply K. left. exact I.
Qed.

Lemma land15 t : 0 <= t -> 0 <= Z.land t 15 < 16.
Proof. intros H. change 15 with (Z.ones 4). rewrite Z.land_ones by lia. apply Z.mod_pos_bound. reflexivity. Qed.

(** an add that stays within the block's part of the current *)
Definition add_ok (ci0 : V3 Z) (te : Z * entry) : Prop := 0 <= fst te /\ in_box (c1 (snd (fst (snd te))) - c1 ci0) (c2 (snd (fst (snd te))) - c2 ci0).

(** what adds leave at a point of it *)
Definition adds_at (ci0 : V3 Z) (l : list (Z * entry)) (m : dim3) (jy jz : Z) : R :=
  rsum (map (fun te => let '(_, (m', n, v)) := te in if (dim3_eqb m' m && (c1 n - c1 ci0 =? jy) && (c2 n - c2 ci0 =? jz))%bool then v else 0%R) l).

Lemma sh_sum_set sh i v jy jz m : sh_sum g (sh_set sh i (sh i + v)%R) jy jz m =
  (sh_sum g sh jy jz m + rsum (map (fun wid => if sh_index g jy jz m wid =? i then v else 0) (zrange 0 16)))%R.
Proof.
  unfold sh_sum. rewrite <- rsum_plus. apply rsum_ext. intros w _. unfold sh_set. destruct (sh_index g jy jz m w =? i) eqn:E; [|ring].
  apply Z.eqb_eq in E. rewrite E. reflexivity.
Qed.

Lemma rsum_one (f : Z -> R) w lo hi : lo <= w < hi -> (forall x, lo <= x < hi -> x <> w -> f x = 0%R) -> rsum (map f (zrange lo hi)) = f w.
Proof.
  intros H Z. rewrite (zrange_split lo w hi) by lia. rewrite (zrange_cons w hi) by lia. rewrite map_app, rsum_app. cbn [map]. rewrite rsum_cons.
  rewrite !rsum_zero; [ring| |]; intros x Hx; apply in_zrange in Hx; apply Z; lia.
Qed.

Lemma sh_adds_ok ci0 l : forall sh, (forall te, In te l -> add_ok ci0 te) ->
  exists sh', sh_adds g ci0 sh l = Some sh' /\
    forall m jy jz, in_box jy jz -> sh_sum g sh' jy jz (m_no m) = (sh_sum g sh jy jz (m_no m) + adds_at ci0 l m jy jz)%R.
Proof.
  induction l as [|[t [[m n] v]] l IH]; intros sh H.
  - exists sh. split; [reflexivity|]. intros. unfold adds_at. cbn. ring.
  - destruct (H (t, ((m, n), v)) (or_introl eq_refl)) as [Ht Hb]. cbn [fst snd] in Ht, Hb. pose proof (land15 t Ht) as W.
    cbn [sh_adds]. unfold sh_add. set (i := sh_index g (c1 n - c1 ci0) (c2 n - c2 ci0) (m_no m) (Z.land t 15)).
    assert (B : 0 <= i < sh_size g) by (apply sh_index_bound; [exact Hb|apply m_no_bound|exact W]).
    replace ((0 <=? i) && (i <? sh_size g))%bool with true by (symmetry; apply Bool.andb_true_iff; split; [apply Z.leb_le|apply Z.ltb_lt]; lia).
    destruct (IH (sh_set sh i (sh i + v)%R)) as (sh' & E & S); [intros te Hte; apply H; right; exact Hte|].
    exists sh'. split; [exact E|]. intros m' jy jz J. rewrite (S m' jy jz J), sh_sum_set. unfold adds_at. cbn [map]. rewrite rsum_cons.
    assert (X : rsum (map (fun wid => if sh_index g jy jz (m_no m') wid =? i then v else 0%R) (zrange 0 16)) =
                (if (dim3_eqb m m' && (c1 n - c1 ci0 =? jy) && (c2 n - c2 ci0 =? jz))%bool then v else 0%R)).
    { destruct (_ && _)%bool eqn:Q.
      - rewrite !Bool.andb_true_iff, !Z.eqb_eq, dim3_eqb_eq in Q. destruct Q as [[<- <-] <-].
        rewrite (rsum_one _ (Z.land t 15)); [unfold i; rewrite Z.eqb_refl; reflexivity|exact W|].
        intros x Hx Nx. destruct (_ =? i) eqn:Y; [|reflexivity]. apply Z.eqb_eq in Y. apply sh_index_inj in Y; try assumption. lia.
      - apply rsum_zero. intros x Hx. apply in_zrange in Hx. destruct (_ =? i) eqn:Y; [|reflexivity]. exfalso. apply Z.eqb_eq in Y.
        apply sh_index_inj in Y; try assumption. destruct Y as (-> & -> & Y & _). apply m_no_inj in Y. subst m'.
        rewrite !Z.eqb_refl, dim3_eqb_refl in Q. discriminate. }
    rewrite X. ring.
Qed.

Lemma sh_zero_sum sh jy jz m : in_box jy jz -> sh_sum g (sh_zero g sh) jy jz (m_no m) = 0%R.
Proof. intros H. apply rsum_zero. intros w Hw. apply in_zrange in Hw. apply sh_zero_get, sh_index_bound; [exact H|apply m_no_bound|exact Hw]. Qed.

(** ** The updates of a block *)

Hypothesis Hsmall : stride_y g * stride_z g <= tpb.

Definition point_tasks (b : blk) (sh : Z -> R) (i : Z) : list (addr * R) :=
  let jz := i / stride_y g - 1 in let jy := i - i / stride_y g * stride_y g - 1 in
  map (fun m => ((k_p b, m, v3 0 (jy + c1 (k_ci0 b)) (jz + c2 (k_ci0 b))), sh_sum g sh jy jz (m_no m))) dims3.

Lemma block_tasks_perm b sh : Permutation (block_tasks g b sh) (flat_map (point_tasks b sh) (zrange 0 (stride_y g * stride_z g))).
Proof.
  unfold block_tasks, thread_tasks.
  assert (E : forall l, flat_map (fun tid => flat_map (point_tasks b sh) (strided tid (stride_y g * stride_z g) (3 * tpb))) l =
                        flat_map (point_tasks b sh) (flat_map (fun tid => strided tid (stride_y g * stride_z g) (3 * tpb)) l)).
  { induction l as [|a l IH]; [reflexivity|]. cbn [flat_map]. rewrite flat_map_app, IH. reflexivity. }
  change (Permutation (flat_map (fun tid => flat_map (point_tasks b sh) (strided tid (stride_y g * stride_z g) (3 * tpb))) (zrange 0 tpb))
            (flat_map (point_tasks b sh) (zrange 0 (stride_y g * stride_z g)))).
  rewrite E. apply Permutation_flat_map. apply NoDup_Permutation.
  - apply (NoDup_threads 0); unfold tpb; lia.
  - apply NoDup_zrange.
  - intros i. rewrite in_flat_map, in_zrange. split.
    + intros (t & Ht & H). apply in_zrange in Ht. apply in_strided in H; [|reflexivity]. lia.
    + intros H. exists i. split; [apply in_zrange; lia|]. apply in_strided; [reflexivity|]. split; [lia|]. exists 0. lia.
Qed.

Lemma point_of i : 0 <= i < stride_y g * stride_z g -> in_box (i - i / stride_y g * stride_y g - 1) (i / stride_y g - 1).
Proof.
  intros H. pose proof sy_pos. pose proof (Z.div_mod i (stride_y g) ltac:(lia)). pose proof (Z.mod_pos_bound i (stride_y g) ltac:(lia)).
  assert (i / stride_y g < stride_z g) by (apply Z.div_lt_upper_bound; lia). assert (0 <= i / stride_y g) by (apply Z.div_pos; lia). unfold in_box. lia.
Qed.

Lemma block_tasks_nodup b sh : NoDup (map fst (block_tasks g b sh)).
Proof.
  apply (Permutation_NoDup (Permutation_map fst (Permutation_sym (block_tasks_perm b sh)))). rewrite map_flat_map.
  pose proof sy_pos as Hy.
  apply NoDup_flat_map with (k := fun a => let '(_, _, n) := a in (c2 n - c2 (k_ci0 b) + 1) * stride_y g + (c1 n - c1 (k_ci0 b) + 1)).
  - apply NoDup_zrange.
  - intros i a Hi H. unfold point_tasks in H. rewrite map_map in H. apply in_map_iff in H. destruct H as (m & <- & _). cbn [fst snd c1 c2].
    rewrite (Z.div_mod i (stride_y g)) at 2 by lia. pose proof (Z.div_mod i (stride_y g) ltac:(lia)). lia.
  - intros i _. unfold point_tasks. rewrite map_map. cbn [fst]. repeat constructor; cbn; intuition discriminate.
Qed.

Lemma block_tasks_addr b sh t : In t (block_tasks g b sh) -> exists m jy jz, in_box jy jz /\ fst t = (k_p b, m, v3 0 (jy + c1 (k_ci0 b)) (jz + c2 (k_ci0 b))).
Proof.
  intros H. apply (Permutation_in _ (block_tasks_perm b sh)) in H. apply in_flat_map in H. destruct H as (i & Hi & H). apply in_zrange in Hi.
  unfold point_tasks in H. apply in_map_iff in H. destruct H as (m & <- & _). exists m, (i - i / stride_y g * stride_y g - 1), (i / stride_y g - 1). split; [apply point_of; exact Hi|reflexivity].
Qed.

(** what a block adds at a point *)
Lemma block_tasks_sum b sh p m n :
  rsum (map (fun t => if addr_eqb (fst t) (p, m, n) then snd t else 0%R) (block_tasks g b sh)) =
  (let jy := c1 n - c1 (k_ci0 b) in let jz := c2 n - c2 (k_ci0 b) in
   if ((k_p b =? p) && (c0 n =? 0) && (0 <=? jy + 1) && (jy + 1 <? stride_y g) && (0 <=? jz + 1) && (jz + 1 <? stride_z g))%bool
   then sh_sum g sh jy jz (m_no m) else 0%R).
Proof.
  pose proof sy_pos as Hy. cbv zeta.
  rewrite (rsum_perm _ _ (Permutation_map _ (block_tasks_perm b sh))), map_flat_map.
  assert (FM : forall (h : Z -> list R) l, rsum (flat_map h l) = rsum (map (fun i => rsum (h i)) l)).
  { clear. intros h. induction l as [|a l IH]; [reflexivity|]. cbn [flat_map map]. rewrite rsum_app, rsum_cons, IH. reflexivity. }
  rewrite FM.
  assert (P : forall i, 0 <= i < stride_y g * stride_z g -> rsum (map (fun t => if addr_eqb (fst t) (p, m, n) then snd t else 0%R) (point_tasks b sh i)) =
     if ((k_p b =? p) && (c0 n =? 0) && (c1 n - c1 (k_ci0 b) =? i - i / stride_y g * stride_y g - 1) && (c2 n - c2 (k_ci0 b) =? i / stride_y g - 1))%bool
     then sh_sum g sh (c1 n - c1 (k_ci0 b)) (c2 n - c2 (k_ci0 b)) (m_no m) else 0%R).
  { intros i Hi. unfold point_tasks. rewrite map_map. cbn [fst snd]. set (jy := i - _ - 1). set (jz := _ / _ - 1).
    destruct (_ && _)%bool eqn:Q.
    - rewrite !Bool.andb_true_iff, !Z.eqb_eq in Q. destruct Q as [[[<- Q0] Q1] Q2]. rewrite Q1, Q2.
      assert (En : v3 0 (jy + c1 (k_ci0 b)) (jz + c2 (k_ci0 b)) = n) by (destruct n as [n0 n1 n2]; cbn [c0 c1 c2] in *; f_equal; lia). rewrite En.
      assert (V : v3_eqb n n = true) by (apply v3_eqb_eq; reflexivity).
      unfold addr_eqb. rewrite Z.eqb_refl, V. cbn [map dims3]. destruct m; cbn [dim3_eqb andb m_no]; unfold rsum; cbn [fold_right]; ring.
    - apply rsum_zero. intros m' _. destruct (addr_eqb _ _) eqn:Y; [|reflexivity]. exfalso. apply addr_eqb_eq in Y. injection Y as Y1 Y2 Y3. subst n.
      cbn [c0 c1 c2] in Q. rewrite Y1, !Z.eqb_refl in Q. cbn [andb] in Q.
      replace (jy + c1 (k_ci0 b) - c1 (k_ci0 b)) with jy in Q by lia. replace (jz + c2 (k_ci0 b) - c2 (k_ci0 b)) with jz in Q by lia.
      rewrite !Z.eqb_refl in Q. discriminate. }
  match goal with |- _ = (if ?c then _ else _) => destruct c eqn:Q end.
  - rewrite !Bool.andb_true_iff, !Z.eqb_eq, !Z.leb_le, !Z.ltb_lt in Q. destruct Q as [[[[[Q0 Q1] Q2] Q3] Q4] Q5].
    set (jy := c1 n - c1 (k_ci0 b)) in *. set (jz := c2 n - c2 (k_ci0 b)) in *.
    assert (D : ((jz + 1) * stride_y g + (jy + 1)) / stride_y g = jz + 1) by (rewrite Z.div_add_l, Z.div_small by lia; lia).
    rewrite (rsum_one _ ((jz + 1) * stride_y g + (jy + 1))); [|nia|].
    + rewrite P by nia. rewrite D. replace (k_p b =? p) with true by (symmetry; apply Z.eqb_eq; exact Q0). replace (c0 n =? 0) with true by (symmetry; apply Z.eqb_eq; exact Q1).
      replace (jy =? _) with true by (symmetry; apply Z.eqb_eq; lia). replace (jz =? _) with true by (symmetry; apply Z.eqb_eq; lia). reflexivity.
    + intros i Hi Ni. rewrite P by exact Hi. match goal with |- (if ?c then _ else _) = _ => destruct c eqn:Y end; [|reflexivity]. exfalso. apply Ni. rewrite !Bool.andb_true_iff, !Z.eqb_eq in Y. destruct Y as [[_ Y1] Y2].
      pose proof (Z.div_mod i (stride_y g) ltac:(lia)). nia.
  - apply rsum_zero. intros i Hi. apply in_zrange in Hi. rewrite P by exact Hi. match goal with |- (if ?c then _ else _) = _ => destruct c eqn:Y end; [|reflexivity]. exfalso.
    rewrite !Bool.andb_true_iff, !Z.eqb_eq in Y. destruct Y as [[[Y0 Y1] Y2] Y3]. pose proof (point_of i Hi) as [X1 X2]. rewrite <- Y2 in X1. rewrite <- Y3 in X2.
    assert (Q' : ((k_p b =? p) && (c0 n =? 0) && (0 <=? c1 n - c1 (k_ci0 b) + 1) && (c1 n - c1 (k_ci0 b) + 1 <? stride_y g) && (0 <=? c2 n - c2 (k_ci0 b) + 1) && (c2 n - c2 (k_ci0 b) + 1 <? stride_z g))%bool = true).
    { rewrite !Bool.andb_true_iff, !Z.eqb_eq, !Z.leb_le, !Z.ltb_lt. repeat split; lia. }
    congruence.
Qed.
End Shared.
