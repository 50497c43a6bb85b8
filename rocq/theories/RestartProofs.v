(** Proofs about checkpoints. *)
From Coq Require Import String.
From Verif Require Import Base Arr DomainModel DomainSpec DomainProofs DomainBoxProofs BalanceModel BalanceMoveProofs DdcPrtSpec StorageModel StorageProofs RestartModel RestartSpec.
Local Open Scope Z_scope.
Local Open Scope list_scope.

Definition prod (l : list Z) : Z := fold_right Z.mul 1 l.

Lemma ieqb_iff a b : ieqb a b = true <-> a = b.
Proof. unfold ieqb. destruct (list_eq_dec Z.eq_dec a b); split; intros; congruence. Qed.
Lemma ieqb_refl a : ieqb a a = true.
Proof. apply ieqb_iff. reflexivity. Qed.

(** ** Boxes of indices *)
Lemma in_slab count k : In k (slab count) <-> Forall2 (fun c i => 0 <= i < c) count k.
Proof.
  revert k. induction count as [|c cs IH]; intros k; cbn [slab].
  - split; [intros [<-|[]]; constructor|]. inversion 1. left. reflexivity.
  - rewrite in_flat_map. split.
    + intros [i [Hi Hk]]. apply in_zrange in Hi. apply in_map_iff in Hk. destruct Hk as [k' [<- Hk']]. apply IH in Hk'. constructor; assumption.
    + inversion 1 as [|? i ? k' H1 H2]; subst. exists i. split; [apply in_zrange; exact H1|]. apply in_map. apply IH, H2.
Qed.

Lemma prod_nonneg l : Forall (fun c => 0 <= c) l -> 0 <= prod l.
Proof. induction 1 as [|c l H1 H2 IH]; cbn [prod fold_right]; [lia|]. apply Z.mul_nonneg_nonneg; [lia|exact IH]. Qed.

Lemma zrange_mul' n m : 0 <= n -> 0 <= m -> flat_map (fun i => map (fun j => i * m + j) (zrange 0 m)) (zrange 0 n) = zrange 0 (n * m).
Proof.
  intros Hn Hm. pattern n. apply natlike_ind; [reflexivity| |exact Hn]. intros x Hx IH.
  unfold Z.succ. rewrite zrange_snoc by lia. rewrite flat_map_app. cbn [flat_map]. rewrite IH, app_nil_r.
  replace ((x + 1) * m) with (x * m + m) by ring.
  rewrite (zrange_app 0 (x * m) (x * m + m)) by (try lia; apply Z.mul_nonneg_nonneg; lia). f_equal.
  unfold zrange. rewrite map_map. replace (Z.to_nat (x * m + m - x * m)) with (Z.to_nat (m - 0)) by lia.
  apply map_ext. intros; lia.
Qed.

Lemma lin_slab count : Forall (fun c => 0 <= c) count -> map (lin count) (slab count) = zrange 0 (prod count).
Proof.
  induction 1 as [|c cs H1 H2 IH]; [reflexivity|]. cbn [slab]. cbn [prod fold_right]. fold (prod cs).
  rewrite <- zrange_mul' by (try assumption; apply prod_nonneg, H2).
  rewrite flat_map_concat_map, concat_map, map_map, <- flat_map_concat_map.
  apply flat_map_ext. intros i. rewrite map_map. cbn [lin]. rewrite <- IH, map_map. reflexivity.
Qed.

Lemma aget_slab count k : Forall (fun c => 0 <= c) count -> In k (slab count) -> aget (slab count) (lin count k) = Some k.
Proof.
  intros HC Hk. destruct (In_aget _ _ Hk) as [i Hi]. pose proof (lin_slab count HC) as E. apply (f_equal (fun l => aget l i)) in E.
  rewrite aget_map, Hi, aget_zrange in E. cbn [option_map] in E. destruct (_ && _); [|discriminate]. injection E as E. rewrite E. exact Hi.
Qed.
Lemma lin_range count k : Forall (fun c => 0 <= c) count -> In k (slab count) -> 0 <= lin count k < prod count.
Proof.
  intros HC Hk. apply (in_map (lin count)) in Hk. rewrite lin_slab in Hk by exact HC. apply in_zrange in Hk. exact Hk.
Qed.
Lemma alen_slab count : Forall (fun c => 0 <= c) count -> alen (slab count) = prod count.
Proof.
  intros HC. rewrite <- (alen_map (lin count)), lin_slab by exact HC. pose proof (prod_nonneg _ HC). rewrite alen_zrange; lia.
Qed.

Lemma map_all {A B} (f : A -> option B) l l' : sequence (map f l) = Some l' -> map f l = map Some l'.
Proof.
  revert l'. induction l as [|a l IH]; intros l'; cbn [map sequence]; [intros E; injection E as <-; reflexivity|].
  destruct (f a) as [b|]; [|discriminate]. destruct (sequence (map f l)) as [m|] eqn:E; [|discriminate]. intros E'. injection E' as <-.
  cbn [map]. f_equal. apply IH. reflexivity.
Qed.
Lemma sequence_some {A} (l : list A) : sequence (map Some l) = Some l.
Proof. rewrite (sequence_map_some Some (fun a => a)) by reflexivity. rewrite map_id. reflexivity. Qed.
Lemma sequence_nth {A B} (f : A -> option B) l l' : alen l' = alen l -> (forall i a, aget l i = Some a -> f a = aget l' i) -> sequence (map f l) = Some l'.
Proof.
  intros HL H. rewrite <- (sequence_some l'). f_equal. apply alist_ext; [rewrite !alen_map; lia|].
  intros i Hi. rewrite alen_map in Hi. rewrite !aget_map. destruct (aget_some l i Hi) as [a Ha]. destruct (aget_some l' i ltac:(lia)) as [b Hb].
  rewrite Ha, Hb. cbn [option_map]. rewrite (H i a Ha), Hb. reflexivity.
Qed.

(** ** The file *)
Section File.
  Context {T : Type}.
  Notation file := (@file T). Notation write := (@write T). Notation val := (@val T). Notation variable := (@variable T).

  (** the writes fit: shapes by name, indices within them, values determined by name and index *)
  Definition fits (sh : string -> list Z) (R : string -> list Z -> val -> Prop) (ws : list write) : Prop :=
    forall w, In w ws -> w_shape w = sh (w_name w) /\
      forall e, In e (w_elems w) -> in_shape (w_shape w) (fst e) = true /\ R (w_name w) (fst e) (snd e).
  Definition functional (R : string -> list Z -> val -> Prop) : Prop := forall n i v v', R n i v -> R n i v' -> v = v'.
  Definition good (sh : string -> list Z) (R : string -> list Z -> val -> Prop) (f : file) : Prop :=
    forall n v, f n = Some v -> v_shape v = sh n /\ forall i x, v_data v i = Some x -> R n i x.
  (** f' has what f has *)
  Definition extends (f f' : file) : Prop :=
    forall n v, f n = Some v -> exists v', f' n = Some v' /\ forall i x, v_data v i = Some x -> v_data v' i = Some x.
  Definition has_write (f : file) (w : write) : Prop :=
    exists v, f (w_name w) = Some v /\ forall e, In e (w_elems w) -> v_data v (fst e) = Some (snd e).

  Lemma upd_fold (es : list (list Z * val)) idx : forall r0,
    let r := fold_left (fun r e => if ieqb (fst e) idx then Some (snd e) else r) es r0 in
    (forall x, r = Some x -> r0 = Some x \/ In (idx, x) es) /\
    (r0 <> None -> r <> None) /\ (forall x, In (idx, x) es -> r <> None).
  Proof.
    induction es as [|[i x] es IH]; intros r0; cbn [fold_left fst snd].
    - repeat split; auto.
    - specialize (IH (if ieqb i idx then Some x else r0)). cbv zeta in *. destruct IH as [H1 [H2 H3]].
      destruct (ieqb i idx) eqn:E; [apply ieqb_iff in E; subst i|]; (split; [|split]).
      + intros y Hy. destruct (H1 y Hy) as [A|A]; [injection A as <-; right; left; reflexivity|right; right; exact A].
      + intros _. apply H2. discriminate.
      + intros y _. apply H2. discriminate.
      + intros y Hy. destruct (H1 y Hy) as [A|A]; [left; exact A|right; right; exact A].
      + exact H2.
      + intros y [Hy|Hy]; [injection Hy as -> ->; rewrite ieqb_refl in E; discriminate|exact (H3 y Hy)].
  Qed.

  Section S.
    Variables (sh : string -> list Z) (R : string -> list Z -> val -> Prop).
    Hypothesis HR : functional R.

    Lemma apply_write_ok f w : good sh R f -> fits sh R [w] ->
      exists f', apply_write f w = Some f' /\ good sh R f' /\ extends f f' /\ has_write f' w.
    Proof.
      intros HG HF. destruct (HF w (or_introl eq_refl)) as [HS HE]. unfold apply_write.
      assert (forallb (fun e => in_shape (w_shape w) (fst e)) (w_elems w) = true) as ->.
      { apply forallb_forall. intros e He. apply HE, He. }
      set (old := match f (w_name w) with Some v => v_data v | None => fun _ => None end).
      set (nf := fun n => if String.eqb n (w_name w) then Some (Var (w_shape w) (fun idx =>
        fold_left (fun r e => if ieqb (fst e) idx then Some (snd e) else r) (w_elems w) (old idx))) else f n).
      assert (forall i x, old i = Some x -> R (w_name w) i x) as HO.
      { unfold old. destruct (f (w_name w)) as [v|] eqn:E; [|discriminate]. apply (HG _ _ E). }
      exists nf. split; [|split; [|split]].
      - unfold nf, old. destruct (f (w_name w)) as [v|] eqn:E; [|reflexivity].
        destruct (HG _ _ E) as [A _]. rewrite A, <- HS, ieqb_refl. reflexivity.
      - intros n v. unfold nf. destruct (String.eqb_spec n (w_name w)) as [->|N]; [|apply HG].
        intros E. injection E as <-. cbn [v_shape v_data]. split; [exact HS|]. intros i x Hx.
        destruct (upd_fold (w_elems w) i (old i)) as [A _]. destruct (A x Hx) as [B|B]; [apply HO, B|]. apply (HE _ B).
      - intros n v E. unfold nf. destruct (String.eqb_spec n (w_name w)) as [->|N]; [|exists v; split; [exact E|auto]].
        eexists. split; [reflexivity|]. cbn [v_data]. intros i x Hx.
        assert (old i = Some x) as Ho by (unfold old; rewrite E; exact Hx).
        destruct (upd_fold (w_elems w) i (old i)) as [A [B _]].
        destruct (fold_left _ (w_elems w) (old i)) as [y|] eqn:EF; [|destruct (B ltac:(congruence) eq_refl)].
        f_equal. apply (HR (w_name w) i); [|apply HO, Ho]. destruct (A y eq_refl) as [C|C]; [apply HO, C|apply (HE _ C)].
      - exists (Var (w_shape w) (fun idx => fold_left (fun r e => if ieqb (fst e) idx then Some (snd e) else r) (w_elems w) (old idx))).
        split; [unfold nf; rewrite String.eqb_refl; reflexivity|]. intros [i x] He. cbn [v_data fst snd].
        destruct (upd_fold (w_elems w) i (old i)) as [A [_ B]].
        destruct (fold_left _ (w_elems w) (old i)) as [y|] eqn:EF; [|destruct (B x He eq_refl)].
        f_equal. apply (HR (w_name w) i); [|apply (HE _ He)]. destruct (A y eq_refl) as [C|C]; [apply HO, C|apply (HE _ C)].
    Qed.

    Lemma apply_writes_ok ws : forall f, good sh R f -> fits sh R ws ->
      exists f', apply_writes f ws = Some f' /\ good sh R f' /\ extends f f' /\ forall w, In w ws -> has_write f' w.
    Proof.
      induction ws as [|w ws IH]; intros f HG HF; cbn [apply_writes].
      - exists f. repeat split; try assumption; try apply (HG _ _ H); try (intros n v E; exists v; auto); try (intros w []).
      - destruct (apply_write_ok f w HG) as [f1 [E1 [G1 [X1 W1]]]]; [intros w' [<-|[]]; apply HF; left; reflexivity|].
        destruct (IH f1 G1) as [f2 [E2 [G2 [X2 W2]]]]; [intros w' Hw; apply HF; right; exact Hw|].
        rewrite E1. exists f2. split; [exact E2|]. split; [exact G2|]. split.
        + intros n v Hv. destruct (X1 n v Hv) as [v1 [A1 B1]]. destruct (X2 n v1 A1) as [v2 [A2 B2]]. exists v2. split; [exact A2|]. auto.
        + intros w' [<-|Hw]; [|apply W2, Hw]. destruct W1 as [v [A B]]. destruct (X2 _ _ A) as [v2 [A2 B2]]. exists v2. split; [exact A2|]. auto.
    Qed.

    Lemma written ws ws' : fits sh R ws -> Permutation ws ws' -> exists f, apply_writes empty_file ws' = Some f /\ good sh R f /\
      forall w, In w ws -> has_write f w.
    Proof.
      intros HF HP. destruct (apply_writes_ok ws' empty_file) as [f [E [G [_ W]]]].
      - intros n v. discriminate.
      - intros w Hw. apply HF. apply (Permutation_in _ (Permutation_sym HP)), Hw.
      - exists f. split; [exact E|]. split; [exact G|]. intros w Hw. apply W. apply (Permutation_in _ HP), Hw.
    Qed.
  End S.

  (** a box of values *)
  Definition box_write (name : string) (shape start count : list Z) (g : list Z -> val) : write :=
    Write name shape (map (fun k => (iadd start k, g k)) (slab count)).

  Lemma put_variable_ok name data shape start count mstart mcount g :
    (forall k, In k (slab count) -> aget data (lin mcount (iadd mstart k)) = Some (g k)) ->
    put_variable name data shape start count mstart mcount = Some (box_write name shape start count g).
  Proof.
    intros H. unfold put_variable. rewrite (sequence_map_some _ (fun k => (iadd start k, g k))); [reflexivity|].
    intros k Hk. rewrite (H k Hk). reflexivity.
  Qed.

  Lemma read_box sh R (f : file) name shape start count g : good sh R f -> shape = sh name ->
    (forall k, In k (slab count) -> in_shape shape (iadd start k) = true) ->
    has_write f (box_write name shape start count g) -> get_variable f name start count = Some (map g (slab count)) /\ shape_is f name shape = true.
  Proof.
    intros G HS HI [v [E W]]. cbn [w_name box_write] in E. destruct (G _ _ E) as [S _].
    unfold get_variable, shape_is, variable_shape. rewrite E. cbn [option_map]. rewrite S, <- HS, ieqb_refl. split; [|reflexivity].
    apply sequence_map_some. intros k Hk. rewrite (HI k Hk).
    apply (W (iadd start k, g k)). cbn [w_elems box_write]. apply in_map_iff. exists k. split; [reflexivity|exact Hk].
  Qed.
End File.

Lemma iadd_zero k : forall count : list Z, List.length k = List.length count -> iadd (map (fun _ => 0) count) k = k.
Proof. induction k as [|a k IH]; intros [|c cs] H; try discriminate; [reflexivity|]. cbn [map iadd]. rewrite IH by (cbn in H; lia). reflexivity. Qed.
Lemma slab_length count k : In k (slab count) -> List.length k = List.length count.
Proof. intros H. apply in_slab in H. induction H; cbn [List.length]; congruence. Qed.

(** ** Concatenated data *)
Lemma aget_concat {A} (h : Z -> list A) size r i : 0 <= r < size -> 0 <= i < alen (h r) ->
  aget (flat_map h (zrange 0 size)) (zsum (map (fun r => alen (h r)) (zrange 0 r)) + i) = aget (h r) i.
Proof.
  intros Hr Hi. rewrite (zrange_app 0 r size) by lia. rewrite (zrange_cons r size) by lia.
  rewrite flat_map_app. cbn [flat_map].
  assert (forall l, alen (flat_map h l) = zsum (map (fun r => alen (h r)) l)) as EL.
  { induction l as [|a l IH]; [reflexivity|]. cbn [flat_map map]. rewrite alen_app, IH. reflexivity. }
  rewrite aget_app, EL. destruct (Z.ltb_spec (zsum (map (fun r0 => alen (h r0)) (zrange 0 r)) + i) (zsum (map (fun r0 => alen (h r0)) (zrange 0 r)))); [lia|].
  replace (_ + i - _) with i by lia. rewrite aget_app. destruct (Z.ltb_spec i (alen (h r))); [reflexivity|lia].
Qed.

Lemma zsum_app a b : zsum (a ++ b) = zsum a + zsum b.
Proof. induction a as [|x a IH]; cbn [app]; unfold zsum in *; cbn [fold_right] in *; lia. Qed.
Lemma zsum_scale {A} (f : A -> Z) c l : zsum (map (fun a => f a * c) l) = zsum (map f l) * c.
Proof. induction l as [|a l IH]; [reflexivity|]. unfold zsum in *. cbn [map fold_right]. rewrite IH. ring. Qed.

Section Slots.
  Context {T : Type}.
  Notation val := (@val T). Notation write := (@write T).
  Variable size : Z.

  (** a variable to which each process adds its rows *)
  Record slot := Slot { sl_name : string; sl_rest : list Z; sl_data : Z -> list val; sl_n : Z -> Z }.
  Definition slot_ok (s : slot) : Prop :=
    Forall (fun c => 0 <= c) (sl_rest s) /\ forall r, 0 <= r < size -> 0 <= sl_n s r /\ alen (sl_data s r) = sl_n s r * prod (sl_rest s).
  Definition sl_shape (s : slot) : list Z := allreduce size (sl_n s) :: sl_rest s.
  Definition sl_start (s : slot) (r : Z) : list Z := exscan (sl_n s) r :: map (fun _ => 0) (sl_rest s).
  Definition sl_count (s : slot) (r : Z) : list Z := sl_n s r :: sl_rest s.
  Definition sl_elem (s : slot) (r : Z) (k : list Z) : val := nth (Z.to_nat (lin (sl_count s r) k)) (sl_data s r) (VInt 0).
  Definition sl_write (s : slot) (r : Z) : write := box_write (sl_name s) (sl_shape s) (sl_start s r) (sl_count s r) (sl_elem s r).
  Definition sl_all (s : slot) : list val := flat_map (sl_data s) (zrange 0 size).

  Lemma aget_nth {A} (l : list A) i d : 0 <= i < alen l -> aget l i = Some (nth (Z.to_nat i) l d).
  Proof.
    intros Hi. unfold aget, alen in *. destruct (Z.ltb_spec i 0); [lia|]. apply nth_error_nth'. lia.
  Qed.

  Variable s : slot.
  Hypothesis OK : slot_ok s.

  Lemma count_nonneg r : 0 <= r < size -> Forall (fun c => 0 <= c) (sl_count s r).
  Proof. intros Hr. destruct OK as [A B]. constructor; [apply B, Hr|exact A]. Qed.

  Lemma sl_elem_get r k : 0 <= r < size -> In k (slab (sl_count s r)) -> aget (sl_data s r) (lin (sl_count s r) k) = Some (sl_elem s r k).
  Proof.
    intros Hr Hk. apply aget_nth. pose proof (lin_range _ _ (count_nonneg r Hr) Hk) as H.
    destruct OK as [_ B]. destruct (B r Hr) as [_ ->]. exact H.
  Qed.

  Lemma slot_put r : 0 <= r < size -> put_plain (sl_name s) (sl_data s r) (sl_shape s) (sl_start s r) (sl_count s r) = Some (sl_write s r).
  Proof.
    intros Hr. unfold put_plain. apply put_variable_ok. intros k Hk. rewrite iadd_zero by (apply slab_length, Hk). apply sl_elem_get; assumption.
  Qed.

  Lemma slot_data r : 0 <= r < size -> map (sl_elem s r) (slab (sl_count s r)) = sl_data s r.
  Proof.
    intros Hr. destruct OK as [_ B]. destruct (B r Hr) as [Bn BL].
    apply alist_ext; [rewrite alen_map, alen_slab by (apply count_nonneg, Hr); symmetry; exact BL|].
    intros i Hi. rewrite alen_map in Hi. destruct (aget_some _ _ Hi) as [k Hk]. rewrite aget_map, Hk. cbn [option_map].
    assert (In k (slab (sl_count s r))) as HI by (apply (aget_In _ _ _ Hk)).
    assert (lin (sl_count s r) k = i) as <-.
    { pose proof (lin_slab _ (count_nonneg r Hr)) as E. apply (f_equal (fun l => aget l i)) in E. rewrite aget_map, Hk, aget_zrange in E.
      cbn [option_map] in E. destruct (_ && _); [|discriminate]. injection E as E. exact E. }
    symmetry. apply sl_elem_get; assumption.
  Qed.

  Lemma exscan_nonneg r : 0 <= r <= size -> 0 <= exscan (sl_n s) r.
  Proof.
    intros Hr. unfold exscan. apply zsum_nonneg. apply Forall_map, Forall_forall. intros x Hx. apply in_zrange in Hx. apply OK. lia.
  Qed.
  Lemma exscan_le r : 0 <= r < size -> exscan (sl_n s) r + sl_n s r <= allreduce size (sl_n s).
  Proof.
    intros Hr. unfold exscan, allreduce. rewrite (zrange_app 0 r size), (zrange_cons r size), map_app, zsum_app by lia. cbn [map].
    assert (0 <= zsum (map (sl_n s) (zrange (r + 1) size))).
    { apply zsum_nonneg. apply Forall_map, Forall_forall. intros x Hx. apply in_zrange in Hx. apply OK. lia. }
    unfold zsum in *. cbn [fold_right]. lia.
  Qed.

  Lemma slot_in_shape r k : 0 <= r < size -> In k (slab (sl_count s r)) -> in_shape (sl_shape s) (iadd (sl_start s r) k) = true.
  Proof.
    intros Hr Hk. apply in_slab in Hk. unfold sl_count in Hk. inversion Hk as [|? i ? k' H1 H2]; subst.
    unfold sl_start, sl_shape. cbn [iadd in_shape]. pose proof (exscan_nonneg r ltac:(lia)). pose proof (exscan_le r Hr).
    apply andb_true_intro. split; [lia|].
    clear -H2. induction H2 as [|c i cs k H HF IH]; [reflexivity|]. cbn [map iadd in_shape]. rewrite IH. lia.
  Qed.

  Lemma slot_value r k : 0 <= r < size -> In k (slab (sl_count s r)) -> aget (sl_all s) (lin (sl_shape s) (iadd (sl_start s r) k)) = Some (sl_elem s r k).
  Proof.
    intros Hr Hk. pose proof (sl_elem_get r k Hr Hk) as E. pose proof (lin_range _ _ (count_nonneg r Hr) Hk) as HL.
    destruct OK as [A B]. rewrite <- E. destruct (B r Hr) as [Bn BL].
    unfold sl_all. rewrite <- (aget_concat (sl_data s) size r (lin (sl_count s r) k)) by (try assumption; rewrite BL; exact HL). f_equal.
    apply in_slab in Hk. unfold sl_count in Hk. inversion Hk as [|? i ? k' H1 H2]; subst.
    unfold sl_start, sl_shape, sl_count. cbn [iadd lin]. fold (prod (sl_rest s)).
    rewrite iadd_zero by (symmetry; clear -H2; induction H2; cbn [List.length]; congruence).
    rewrite (map_ext_in (fun r0 => alen (sl_data s r0)) (fun r0 => sl_n s r0 * prod (sl_rest s))).
    - rewrite zsum_scale. unfold exscan. ring.
    - intros x Hx. apply in_zrange in Hx. apply B. lia.
  Qed.
End Slots.

Lemma find_by_name {A} (name : A -> string) (l : list A) s : NoDup (map name l) -> In s l -> List.find (fun s' => String.eqb (name s') (name s)) l = Some s.
Proof.
  induction l as [|a l IH]; intros ND HI; [destruct HI|]. cbn [map] in ND. inversion ND as [|? ? N1 N2]; subst. cbn [List.find].
  destruct HI as [->|HI]; [rewrite String.eqb_refl; reflexivity|].
  destruct (String.eqb_spec (name a) (name s)) as [E|E]; [|apply IH; assumption].
  destruct N1. rewrite E. apply in_map, HI.
Qed.

(** ** Particles *)
Section Prts.
  Context {T : Type}.
  Notation prt := (@prt T). Notation val := (@val T).

  Lemma set_buf_ok (set : prt -> val -> option prt) (get : prt -> val) (g g' : prt -> prt) :
    (forall q, set (g q) (get q) = Some (g' q)) ->
    forall buf rest, set_buf set (map g buf) (map get buf ++ rest) = Some (map g' buf, rest).
  Proof.
    intros H buf rest. induction buf as [|q buf IH]; [destruct rest; reflexivity|]. cbn [map app set_buf]. rewrite H, IH. reflexivity.
  Qed.
  Lemma set_bufs_ok (set : prt -> val -> option prt) (get : prt -> val) (g g' : prt -> prt) :
    (forall q, set (g q) (get q) = Some (g' q)) ->
    forall bufs, set_bufs set (map (map g) bufs) (flat_map (map get) bufs) = Some (map (map g') bufs).
  Proof.
    intros H bufs. induction bufs as [|b bufs IH]; [reflexivity|]. cbn [map flat_map set_bufs].
    rewrite (set_buf_ok set get g g' H), IH. reflexivity.
  Qed.
  Lemma n_prts_map (g : prt -> prt) bufs : n_prts (map (map g) bufs) = n_prts bufs.
  Proof. unfold n_prts. rewrite map_map. f_equal. apply map_ext. intros b. apply alen_map. Qed.

  (** what has been assigned after the first n components *)
  Definition part (prt0 : prt) (n : nat) (q : prt) : prt :=
    Prt (v3 (c0 (q_x (if Nat.leb 1 n then q else prt0))) (c1 (q_x (if Nat.leb 2 n then q else prt0))) (c2 (q_x (if Nat.leb 3 n then q else prt0))))
        (v3 (c0 (q_u (if Nat.leb 4 n then q else prt0))) (c1 (q_u (if Nat.leb 5 n then q else prt0))) (c2 (q_u (if Nat.leb 6 n then q else prt0))))
        (q_kind (if Nat.leb 7 n then q else prt0)) (q_qni_wni (if Nat.leb 8 n then q else prt0)).
  Lemma part_0 prt0 q : part prt0 0 q = prt0.
  Proof. destruct prt0 as [[] [] ? ?]. reflexivity. Qed.
  Lemma part_8 prt0 q : part prt0 8 q = q.
  Proof. destruct q as [[] [] ? ?]. reflexivity. Qed.

  Lemma fold_prts (prt0 : prt) (gc : string -> (prt -> val -> option prt) -> list (list prt) -> option (list (list prt))) prts :
    (forall name get set g, In (name, get, set) for_components -> gc name set (map (map g) prts) = set_bufs set (map (map g) prts) (flat_map (map get) prts)) ->
    fold_left (fun o '(name, _, set) => match o with Some b => gc name set b | None => None end) for_components
      (Some (map (map (fun _ => prt0)) prts)) = Some prts.
  Proof.
    intros H. unfold for_components in *. cbn [fold_left fst snd] in *.
    replace (map (map (fun _ : prt => prt0)) prts) with (map (map (part prt0 0)) prts)
      by (apply map_ext; intros b; apply map_ext; intros q; apply part_0).
    erewrite H by (repeat first [left; reflexivity|right]). rewrite (set_bufs_ok _ _ (part prt0 0) (part prt0 1)) by reflexivity.
    erewrite H by (repeat first [left; reflexivity|right]). rewrite (set_bufs_ok _ _ (part prt0 1) (part prt0 2)) by reflexivity.
    erewrite H by (repeat first [left; reflexivity|right]). rewrite (set_bufs_ok _ _ (part prt0 2) (part prt0 3)) by reflexivity.
    erewrite H by (repeat first [left; reflexivity|right]). rewrite (set_bufs_ok _ _ (part prt0 3) (part prt0 4)) by reflexivity.
    erewrite H by (repeat first [left; reflexivity|right]). rewrite (set_bufs_ok _ _ (part prt0 4) (part prt0 5)) by reflexivity.
    erewrite H by (repeat first [left; reflexivity|right]). rewrite (set_bufs_ok _ _ (part prt0 5) (part prt0 6)) by reflexivity.
    erewrite H by (repeat first [left; reflexivity|right]). rewrite (set_bufs_ok _ _ (part prt0 6) (part prt0 7)) by reflexivity.
    erewrite H by (repeat first [left; reflexivity|right]). rewrite (set_bufs_ok _ _ (part prt0 7) (part prt0 8)) by reflexivity.
    f_equal. rewrite <- (map_id prts) at 2. apply map_ext. intros b. rewrite <- (map_id b) at 2. apply map_ext. intros q. apply part_8.
  Qed.
End Prts.

(** ** Fields of a patch *)
Lemma fold_aset {A B} (pos : B -> Z) (h : B -> A) (l : list B) : forall s : list A,
  (forall b, In b l -> 0 <= pos b < alen s) -> (forall b b', In b l -> In b' l -> pos b = pos b' -> h b = h b') ->
  exists s', fold_left (fun o b => match o with Some s => aset s (pos b) (h b) | None => None end) l (Some s) = Some s' /\
    alen s' = alen s /\ forall b, In b l -> aget s' (pos b) = Some (h b).
Proof.
  induction l as [|b l IH] using rev_ind; intros s HP HD.
  - exists s. split; [reflexivity|]. split; [reflexivity|]. intros b [].
  - destruct (IH s) as [s1 [E1 [L1 G1]]].
    + intros b' Hb. apply HP. apply in_or_app. left. exact Hb.
    + intros x y Hx Hy. apply HD; apply in_or_app; left; assumption.
    + rewrite fold_left_app, E1. cbn [fold_left].
      destruct (aset_some s1 (pos b) (h b)) as [s2 [E2 _]]; [rewrite L1; apply HP, in_or_app; right; left; reflexivity|].
      exists s2. destruct (aset_get _ _ _ _ E2) as [L2 G2].
      split; [exact E2|]. split; [lia|]. intros b' Hb'. rewrite G2.
      destruct (Z.eqb_spec (pos b') (pos b)) as [E|E].
      * f_equal. apply HD; [apply in_or_app; right; left; reflexivity|exact Hb'|symmetry; exact E].
      * apply in_app_or in Hb'. destruct Hb' as [Hb'|[<-|[]]]; [apply G1, Hb'|contradiction].
Qed.

Lemma combine_in {A B} (a : list A) : forall (b : list B) p x y, aget a p = Some x -> aget b p = Some y -> In (x, y) (combine a b).
Proof.
  induction a as [|a0 a IH]; intros b p x y Hx Hy; [apply aget_In in Hx; destruct Hx|].
  destruct b as [|b0 b]; [apply aget_In in Hy; destruct Hy|].
  rewrite aget_cons in Hx. rewrite aget_cons in Hy. cbn [combine]. destruct (Z.eqb_spec p 0); [left; congruence|right; exact (IH b (p - 1) x y Hx Hy)].
Qed.

Lemma combine_map_self {A B} (F : A -> B) l : combine l (map F l) = map (fun a => (a, F a)) l.
Proof. induction l as [|x l IH]; [reflexivity|]. cbn [map combine]. rewrite IH. reflexivity. Qed.

(** ** The whole checkpoint *)
Section Main.
  Context {T : Type}.
  Notation proc := (@proc T). Notation patch := (@patch T). Notation prt := (@prt T). Notation val := (@val T). Notation write := (@write T).
  Variables (c : curve) (np gdims : V3 Z) (per : V3 bool) (pr : option (list Z)) (size : Z) (dm : domain).
  Variables (ibn : V3 Z) (nc : Z) (prt0 : prt) (zero : T) (st : Z -> proc).
  Hypothesis Hpos : all_pos np.
  Hypothesis Hg : all_pos gdims.
  Hypothesis Hset : domain_setup c np gdims per pr size = Some dm.
  Hypothesis Hcnt : counts_valid pr (volume np) size.
  Hypothesis Hproc : processes pr size.
  Hypothesis Hibn : forall d, 0 <= get3 ibn d.
  Hypothesis Hnc : 0 <= nc.

  Let ld := ldims np gdims.
  Hypothesis Hst : forall r, 0 <= r < size -> proc_ok dm ld ibn nc r (st r).

  Definition vi (o : V3 Z) : V3 val := v3 (VInt (c0 o)) (VInt (c1 o)) (VInt (c2 o)).
  Definition vr (o : V3 T) : V3 val := v3 (VReal (c0 o)) (VReal (c1 o)) (VReal (c2 o)).
  Definition npat (r : Z) : Z := alen (s_patches (st r)).
  Definition nprt (r : Z) : Z := n_prts (s_prts (st r)).

  Definition slots : list (@slot T) :=
    [ Slot "grid::n_local" [] (fun r => [VInt (npat r)]) (fun _ => 1);
      Slot "grid::off" [3] (fun r => flat_map data3 (map (fun p => vi (p_off p)) (s_patches (st r)))) npat;
      Slot "grid::xb" [3] (fun r => flat_map data3 (map (fun p => vr (p_xb p)) (s_patches (st r)))) npat;
      Slot "grid::xe" [3] (fun r => flat_map data3 (map (fun p => vr (p_xe p)) (s_patches (st r)))) npat;
      Slot "mprts::size_by_patch" [] (fun r => map VInt (map alen (s_prts (st r)))) npat ] ++
    map (fun '(name, get, _) => Slot name [] (fun r => flat_map (map get) (s_prts (st r))) nprt) for_components.

  Lemma slots_names : NoDup (map sl_name slots) /\ ~ In "mflds::mflds"%string (map sl_name slots).
  Proof.
    cbn [map slots app for_components sl_name]. split.
    - repeat (constructor; [cbn [In]; intuition discriminate|]). constructor.
    - cbn [In]. intuition discriminate.
  Qed.

  Lemma data3_len {A} (l : list (V3 A)) : alen (flat_map data3 l) = alen l * 3.
  Proof. induction l as [|a l IH]; [reflexivity|]. cbn [flat_map]. rewrite alen_app, IH, alen_cons. unfold data3. rewrite !alen_cons, alen_nil. lia. Qed.
  Lemma comps_len (get : prt -> val) bufs : alen (flat_map (map get) bufs) = n_prts bufs.
  Proof. unfold n_prts. induction bufs as [|b l IH]; [reflexivity|]. cbn [flat_map map]. rewrite alen_app, IH, alen_map. reflexivity. Qed.
  Lemma nprt_nonneg r : 0 <= nprt r.
  Proof. unfold nprt, n_prts. apply zsum_nonneg, Forall_map, Forall_forall. intros b _. apply alen_nonneg. Qed.

  Lemma slots_ok s : In s slots -> slot_ok size s.
  Proof.
    unfold slots. intros H. apply in_app_or in H. destruct H as [H|H].
    - repeat destruct H as [<-|H]; try destruct H; (split; [repeat (constructor; try lia)|intros r Hr]; cbn [sl_n sl_data sl_rest prod fold_right]).
      + split; [lia|reflexivity].
      + split; [apply alen_nonneg|]. rewrite data3_len, alen_map. unfold npat. lia.
      + split; [apply alen_nonneg|]. rewrite data3_len, alen_map. unfold npat. lia.
      + split; [apply alen_nonneg|]. rewrite data3_len, alen_map. unfold npat. lia.
      + split; [apply alen_nonneg|]. rewrite !alen_map. destruct (Hst r Hr) as [n [_ [_ [A [B _]]]]]. unfold npat. lia.
    - apply in_map_iff in H. destruct H as [[[name get] set] [<- _]]. split; [constructor|intros r Hr]. cbn [sl_n sl_data sl_rest prod fold_right].
      split; [apply nprt_nonneg|]. rewrite comps_len. unfold nprt. lia.
  Qed.

  (** *** the domain *)
  Let counts := counts_of pr (volume np) size.
  Lemma counts_len : alen counts = size.
  Proof.
    unfold counts, counts_of. destruct pr as [l|]; [exact Hproc|]. cbn in Hcnt.
    pose proof (volume_pos np Hpos). destruct (default_counts_spec (volume np) size ltac:(lia) Hcnt) as [_ [A _]]. exact A.
  Qed.
  Lemma counts_get r : 0 <= r < size -> aget counts r = Some (npat r).
  Proof.
    intros Hr. destruct (aget_some counts r) as [k Hk]; [rewrite counts_len; exact Hr|]. rewrite Hk. f_equal.
    destruct (Hst r Hr) as [n [E [_ [A _]]]]. unfold npat. rewrite A.
    assert (nr_patches dm r = Some k) as E'; [|congruence]. apply (nr_patches_ok c np gdims per pr size dm Hset r k); [lia|].
    unfold aget in Hk. destruct (Z.ltb_spec r 0); [lia|exact Hk].
  Qed.
  Lemma counts_map : counts = map npat (zrange 0 size).
  Proof.
    pose proof counts_len as L. pose proof (alen_nonneg counts). apply alist_ext; [rewrite alen_map, alen_zrange; lia|]. intros i Hi. rewrite counts_get by lia.
    rewrite aget_map, aget_zrange. replace ((0 <=? i) && (i <? size - 0)) with true by lia. reflexivity.
  Qed.
  Lemma firstn_zrange n m : 0 <= n <= m -> firstn (Z.to_nat n) (zrange 0 m) = zrange 0 n.
  Proof.
    intros H. rewrite (zrange_app 0 n m) by lia. rewrite firstn_app, zrange_length.
    replace (Z.to_nat n - Z.to_nat (n - 0))%nat with 0%nat by lia. cbn [firstn]. rewrite app_nil_r.
    apply firstn_all2. rewrite zrange_length. lia.
  Qed.
  Lemma my_owns r p : 0 <= r < size -> 0 <= p < npat r -> owns counts r p (exscan npat r + p).
  Proof.
    intros Hr Hp. split; [lia|]. exists (npat r). split.
    - pose proof (counts_get r Hr) as E. unfold aget in E. destruct (Z.ltb_spec r 0); [lia|exact E].
    - split; [exact Hp|]. unfold exscan. f_equal. f_equal. rewrite counts_map, firstn_map, firstn_zrange by lia. reflexivity.
  Qed.
  Lemma info_ok r p : 0 <= r < size -> 0 <= p < npat r -> exists info, get_local_patch_info dm r p = Some info /\
    get_global_patch_info dm (exscan npat r + p) = Some info /\ 0 <= exscan npat r + p < volume np /\
    pi_global_patch info = exscan npat r + p /\ pi_ldims info = ld.
  Proof.
    intros Hr Hp. destruct (owns_local c np gdims per pr size dm Hpos Hset Hcnt r p _ (my_owns r p Hr Hp)) as [Hgp EL].
    destruct (global_info c np gdims per pr size dm Hpos Hset Hcnt _ Hgp) as [info [E [EG [_ [_ [_ HI]]]]]].
    exists info. rewrite EL. repeat split; try assumption; try lia. apply v3_ext. intros d. apply HI.
  Qed.
  Lemma nglobal : nGlobalPatches dm = allreduce size npat.
  Proof.
    unfold nGlobalPatches, allreduce. rewrite <- counts_map. destruct (np_dm c np gdims per pr size dm Hset) as [_ [_ [-> _]]].
    pose proof (volume_pos np Hpos). symmetry. apply (counts_of_ok pr (volume np) size ltac:(lia) Hcnt).
  Qed.
  Lemma npat_pos r : 0 <= r < size -> 0 < npat r.
  Proof. intros Hr. destruct (Hst r Hr) as [n [_ [A [B _]]]]. unfold npat. lia. Qed.

  Lemma ones_scan r : 0 <= r -> exscan (fun _ => 1) r = r.
  Proof.
    intros Hr. pattern r. apply natlike_ind; [reflexivity| |exact Hr]. intros x Hx IH. unfold exscan, Z.succ in *.
    rewrite zrange_snoc, map_app, zsum_app, IH by lia. reflexivity.
  Qed.

  (** *** fields *)
  Let mc := makeDims nc (im (fbox np gdims nc ibn)).
  Let ms := makeDims 0 (gen3 (fun d => - get3 (ib (fbox np gdims nc ibn)) d)).
  Let fc := makeDims nc ld.
  Definition fget (s : list T) (k : list Z) : val := VReal (nth (Z.to_nat (lin mc (iadd ms k))) s zero).
  Definition fwrite (q : patch) (s : list T) : write :=
    box_write "mflds::mflds" (makeDims nc gdims) (makeDims 0 (p_off q)) fc (fget s).

  Lemma fc_case k : In k (slab fc) <-> exists m z y x, k = [m; z; y; x] /\ 0 <= m < nc /\ inner ld x y z.
  Proof.
    rewrite in_slab. unfold fc, makeDims, inner. split.
    - intros H. inversion H as [|? m ? k1 Hm H1]; subst. inversion H1 as [|? z ? k2 Hz H2]; subst. inversion H2 as [|? y ? k3 Hy H3]; subst.
      inversion H3 as [|? x ? k4 Hx H4]; subst. inversion H4; subst. exists m, z, y, x. auto.
    - intros [m [z [y [x [-> [Hm [Hx [Hy Hz]]]]]]]]. repeat (constructor; [assumption|]). constructor.
  Qed.
  Lemma fpos m z y x : lin mc (iadd ms [m; z; y; x]) = field_pos ld ibn m x y z.
  Proof.
    unfold mc, ms, fbox, makeDims, make_mfields, field_pos. cbn [ib im iadd lin gen3 c0 c1 c2 fold_right get3]. fold ld. ring.
  Qed.
  Lemma ld_nonneg d : 0 <= get3 ld d.
  Proof. unfold ld, ldims. rewrite get3_gen3. apply Z.div_pos; [pose proof (Hg d); lia|apply Hpos]. Qed.
  Lemma fpos_range m z y x : 0 <= m < nc -> inner ld x y z -> 0 <= field_pos ld ibn m x y z < field_size ld ibn nc.
  Proof.
    intros Hm [Hx [Hy Hz]]. unfold field_pos, field_size.
    pose proof (Hibn D0). pose proof (Hibn D1). pose proof (Hibn D2). cbn [get3] in *.
    rewrite <- !Z.mul_assoc. repeat apply digit_range; lia.
  Qed.
  Lemma fpos_inj m z y x m' z' y' x' : 0 <= m < nc -> inner ld x y z -> 0 <= m' < nc -> inner ld x' y' z' ->
    field_pos ld ibn m x y z = field_pos ld ibn m' x' y' z' -> m = m' /\ x = x' /\ y = y' /\ z = z'.
  Proof.
    intros Hm [Hx [Hy Hz]] Hm' [Hx' [Hy' Hz']] E. unfold field_pos in E.
    pose proof (Hibn D0). pose proof (Hibn D1). pose proof (Hibn D2). cbn [get3] in *.
    apply digit_inj in E; [|lia|lia]. destruct E as [E0 E]. apply digit_inj in E; [|lia|lia]. destruct E as [E1 E].
    apply digit_inj in E; [|lia|lia]. destruct E as [E2 E]. lia.
  Qed.
  Lemma fget_ok s k : alen s = field_size ld ibn nc -> In k (slab fc) -> aget (map VReal s) (lin mc (iadd ms k)) = Some (fget s k).
  Proof.
    intros HL Hk. apply fc_case in Hk. destruct Hk as [m [z [y [x [-> [Hm Hi]]]]]]. unfold fget. rewrite aget_map, fpos.
    rewrite (aget_nth s _ zero) by (rewrite HL; apply fpos_range; assumption). reflexivity.
  Qed.

  Lemma patch_off r p q : 0 <= r < size -> aget (s_patches (st r)) p = Some q -> exists info,
    get_global_patch_info dm (exscan npat r + p) = Some info /\ 0 <= exscan npat r + p < volume np /\ pi_ldims info = ld /\ p_off q = pi_off info.
  Proof.
    intros Hr Hq. pose proof (aget_bounds _ _ _ Hq) as Hp. destruct (info_ok r p Hr Hp) as [info [E1 [E2 [E3 [E4 E5]]]]].
    exists info. repeat split; try assumption; try lia. destruct (Hst r Hr) as [n [_ [_ [_ [_ [_ [A _]]]]]]]. exact (A p q info Hq E1).
  Qed.
  Lemma scan_mono r r' : 0 <= r -> r < r' <= size -> exscan npat r + npat r <= exscan npat r'.
  Proof.
    intros Hr Hr'. unfold exscan. rewrite (zrange_app 0 r r'), (zrange_cons r r'), map_app, zsum_app by lia. cbn [map].
    assert (0 <= zsum (map npat (zrange (r + 1) r'))) by (apply zsum_nonneg, Forall_map, Forall_forall; intros; apply alen_nonneg).
    unfold zsum in *. cbn [fold_right]. lia.
  Qed.
  Lemma scan_inj r p r' p' : 0 <= r < size -> 0 <= r' < size -> 0 <= p < npat r -> 0 <= p' < npat r' ->
    exscan npat r + p = exscan npat r' + p' -> r = r' /\ p = p'.
  Proof.
    intros Hr Hr' Hp Hp' E. assert (r = r') as ->; [|lia].
    destruct (Z.lt_trichotomy r r') as [H|[H|H]]; [|exact H|].
    - pose proof (scan_mono r r' ltac:(lia) ltac:(lia)). lia.
    - pose proof (scan_mono r' r ltac:(lia) ltac:(lia)). lia.
  Qed.

  (** what the element of the fields is *)
  Definition fieldR (idx : list Z) (v : val) : Prop := exists r p q s k, 0 <= r < size /\
    aget (s_patches (st r)) p = Some q /\ aget (s_flds (st r)) p = Some s /\ In k (slab fc) /\ idx = iadd (makeDims 0 (p_off q)) k /\ v = fget s k.
  Lemma in_patch_of (q : patch) info m z y x : p_off q = pi_off info -> pi_ldims info = ld -> inner ld x y z ->
    in_patch (pi_off info) (pi_ldims info) (v3 (c0 (p_off q) + x) (c1 (p_off q) + y) (c2 (p_off q) + z)) /\
    iadd (makeDims 0 (p_off q)) [m; z; y; x] = [m; c2 (p_off q) + z; c1 (p_off q) + y; c0 (p_off q) + x].
  Proof.
    intros E1 E2 [Hx [Hy Hz]]. split; [|reflexivity]. rewrite E2, <- E1. intros []; cbn [get3 c0 c1 c2]; lia.
  Qed.
  Lemma fieldR_fun idx v v' : fieldR idx v -> fieldR idx v' -> v = v'.
  Proof.
    intros [r [p [q [s [k [Hr [Hq [Hs [Hk [E ->]]]]]]]]]] [r' [p' [q' [s' [k' [Hr' [Hq' [Hs' [Hk' [E' ->]]]]]]]]]].
    apply fc_case in Hk. destruct Hk as [m [z [y [x [-> [Hm Hi]]]]]]. apply fc_case in Hk'. destruct Hk' as [m' [z' [y' [x' [-> [Hm' Hi']]]]]].
    destruct (patch_off r p q Hr Hq) as [info [G [HG [HL HO]]]]. destruct (patch_off r' p' q' Hr' Hq') as [info' [G' [HG' [HL' HO']]]].
    destruct (in_patch_of q info m z y x HO HL Hi) as [I J]. destruct (in_patch_of q' info' m' z' y' x' HO' HL' Hi') as [I' J'].
    rewrite J in E. rewrite J', E in E'. injection E' as A B C D.
    destruct (tiling_full c np gdims per pr size dm Hpos Hset Hcnt) as [_ [TU _]].
    rewrite <- B, <- C, <- D in I'. pose proof (TU _ _ _ _ _ HG G HG' G' I I') as EQ.
    destruct (scan_inj r p r' p' Hr Hr' (aget_bounds _ _ _ Hq) (aget_bounds _ _ _ Hq') EQ) as [-> ->].
    rewrite Hq in Hq'. injection Hq' as <-. rewrite Hs in Hs'. injection Hs' as <-.
    f_equal. f_equal; [exact A|]. f_equal; [lia|]. f_equal; [lia|]. f_equal. lia.
  Qed.
  Lemma field_in_shape r p q k : 0 <= r < size -> aget (s_patches (st r)) p = Some q -> In k (slab fc) ->
    in_shape (makeDims nc gdims) (iadd (makeDims 0 (p_off q)) k) = true.
  Proof.
    intros Hr Hq Hk. apply fc_case in Hk. destruct Hk as [m [z [y [x [-> [Hm Hi]]]]]].
    destruct (patch_off r p q Hr Hq) as [info [G [HG [HL HO]]]]. destruct (in_patch_of q info m z y x HO HL Hi) as [I ->].
    pose proof (patch_in_domain c np gdims per pr size dm Hpos Hset Hcnt _ info _ HG G I) as B.
    pose proof (B D0). pose proof (B D1). pose proof (B D2). cbn [get3 c0 c1 c2] in *. unfold makeDims. cbn [in_shape]. lia.
  Qed.

  (** *** the writes *)
  Definition writes_of (r : Z) : list write := map (fun s => sl_write size s r) slots ++ map (fun '(q, s) => fwrite q s) (combine (s_patches (st r)) (s_flds (st r))).
  Definition all_writes : list write := flat_map writes_of (zrange 0 size).

  Lemma in_combine_aget {A B} (a : list A) (b : list B) x y : In (x, y) (combine a b) -> exists p, aget a p = Some x /\ aget b p = Some y.
  Proof.
    revert b. induction a as [|a0 a IH]; intros [|b0 b] H; try destruct H.
    - injection H as -> ->. exists 0. split; reflexivity.
    - destruct (IH b H) as [p [E1 E2]]. pose proof (aget_bounds _ _ _ E1). exists (p + 1). rewrite !aget_cons.
      destruct (Z.eqb_spec (p + 1) 0); [lia|]. replace (p + 1 - 1) with p by lia. auto.
  Qed.
  Lemma flds_size r s : 0 <= r < size -> In s (s_flds (st r)) -> alen s = field_size ld ibn nc.
  Proof. intros Hr Hs. destruct (Hst r Hr) as [n [_ [_ [_ [_ [_ [_ F]]]]]]]. rewrite Forall_forall in F. apply F, Hs. Qed.

  Lemma sequence_app_some {A} (l m : list (option A)) a b : sequence l = Some a -> sequence m = Some b -> sequence (l ++ m) = Some (a ++ b).
  Proof.
    revert a. induction l as [|x l IH]; intros a; cbn [sequence app]; [intros E; injection E as <-; auto|].
    destruct x; [|discriminate]. destruct (sequence l) as [a'|]; [|discriminate]. intros E EM. injection E as <-.
    rewrite (IH a' eq_refl EM). reflexivity.
  Qed.

  Lemma put3_ok r name (vec : list (V3 val)) (s : slot) : 0 <= r < size -> In s slots -> sl_name s = name -> sl_rest s = [3] -> sl_n s = npat ->
    sl_data s r = flat_map data3 vec -> alen vec = npat r -> put3_by_patch dm r name vec = Some (sl_write size s r).
  Proof.
    intros Hr Hs <- E1 E2 E3 EL. unfold put3_by_patch. pose proof (npat_pos r Hr).
    destruct (info_ok r 0 Hr ltac:(lia)) as [info [-> [_ [_ [EG _]]]]]. rewrite EG, Z.add_0_r, nglobal.
    destruct vec as [|v vec]; [rewrite alen_nil in EL; lia|]. rewrite <- (slot_put size s (slots_ok s Hs) r Hr), <- E3, EL.
    unfold sl_shape, sl_start, sl_count. rewrite E1, E2. reflexivity.
  Qed.

  Lemma rank_writes_ok r : 0 <= r < size -> rank_writes np gdims size ibn nc dm st r = Some (writes_of r).
  Proof.
    intros Hr. unfold rank_writes, writes_of. rewrite app_assoc. apply sequence_app_some.
    - assert (forall l, (forall s, In s l -> In s slots) -> sequence (map (fun s => put_plain (sl_name s) (sl_data s r) (sl_shape size s) (sl_start s r) (sl_count s r)) l) =
        Some (map (fun s => sl_write size s r) l)) as A.
      { intros l Hl. apply sequence_map_some. intros s Hs. apply slot_put; [apply slots_ok, Hl, Hs|exact Hr]. }
      rewrite <- (A slots) by auto. apply f_equal. unfold put_grid, put_prts. cbv zeta.
      rewrite (put3_ok r "grid::off" _ (nth 1 slots (Slot "" [] (fun _ => []) (fun _ => 0))) Hr)
        by (first [reflexivity|apply nth_In; cbn; lia|rewrite alen_map; reflexivity]).
      rewrite (put3_ok r "grid::xb" _ (nth 2 slots (Slot "" [] (fun _ => []) (fun _ => 0))) Hr)
        by (first [reflexivity|apply nth_In; cbn; lia|rewrite alen_map; reflexivity]).
      rewrite (put3_ok r "grid::xe" _ (nth 3 slots (Slot "" [] (fun _ => []) (fun _ => 0))) Hr)
        by (first [reflexivity|apply nth_In; cbn; lia|rewrite alen_map; reflexivity]).
      unfold slots at 4. rewrite map_app. cbn [map app]. 
      rewrite <- !slot_put by (try exact Hr; apply slots_ok, nth_In; cbn; lia).
      apply (f_equal2 cons); [|apply (f_equal2 cons); [reflexivity|apply (f_equal2 cons); [reflexivity|apply (f_equal2 cons); [reflexivity|apply (f_equal2 cons)]]]].
      + unfold sl_shape, sl_start, sl_count. cbn [sl_name sl_data sl_rest sl_n map]. rewrite ones_scan by lia.
        change (allreduce size (fun _ => 1)) with (exscan (fun _ : Z => 1) size). rewrite ones_scan by lia. reflexivity.
      + unfold put_by_patch. pose proof (npat_pos r Hr). destruct (info_ok r 0 Hr ltac:(lia)) as [info [-> [_ [_ [EG _]]]]].
        rewrite EG, Z.add_0_r, nglobal. unfold sl_shape, sl_start, sl_count. cbn [sl_name sl_data sl_rest sl_n map].
        rewrite !alen_map. destruct (Hst r Hr) as [n [_ [_ [B [D _]]]]]. replace (alen (s_prts (st r))) with (npat r) by (unfold npat; lia). reflexivity.
      + rewrite map_map. apply map_ext. intros [[name get] set]. unfold put_component. rewrite comps_len.
        unfold sl_shape, sl_start, sl_count. cbn [sl_name sl_data sl_rest sl_n map]. reflexivity.
    - unfold put_flds. apply sequence_map_some. intros [q s] Hqs. apply put_variable_ok. intros k Hk.
      apply fget_ok; [|exact Hk]. apply (flds_size r s Hr). apply in_combine_r in Hqs. exact Hqs.
  Qed.

  Lemma writes_ok : checkpoint_writes np gdims size ibn nc dm st = Some all_writes.
  Proof.
    unfold checkpoint_writes, all_writes. apply concat_option_some. intros r Hr. apply in_zrange in Hr. apply rank_writes_ok, Hr.
  Qed.

  (** *** the file *)
  Definition sh (n : string) : list Z :=
    match List.find (fun s => String.eqb (sl_name s) n) slots with Some s => sl_shape size s | None => makeDims nc gdims end.
  Definition R (n : string) (idx : list Z) (v : val) : Prop :=
    (exists s, In s slots /\ sl_name s = n /\ aget (sl_all size s) (lin (sl_shape size s) idx) = Some v) \/
    (n = "mflds::mflds"%string /\ fieldR idx v).

  Lemma sh_slot s : In s slots -> sh (sl_name s) = sl_shape size s.
  Proof. intros Hs. unfold sh. rewrite (find_by_name sl_name slots s (proj1 slots_names) Hs). reflexivity. Qed.
  Lemma sh_flds : sh "mflds::mflds" = makeDims nc gdims.
  Proof.
    unfold sh. destruct (List.find _ slots) as [s|] eqn:E; [|reflexivity]. apply List.find_some in E. destruct E as [HI E].
    apply String.eqb_eq in E. destruct (proj2 slots_names). rewrite <- E. apply in_map, HI.
  Qed.
  Lemma R_fun : functional R.
  Proof.
    intros n idx v v' [[s [Hs [En E]]]|[En F]] [[s' [Hs' [En' E']]]|[En' F']].
    - pose proof (find_by_name sl_name slots s (proj1 slots_names) Hs) as A. pose proof (find_by_name sl_name slots s' (proj1 slots_names) Hs') as B.
      rewrite En in A. rewrite En', A in B. injection B as <-. congruence.
    - destruct (proj2 slots_names). rewrite <- En', <- En. apply in_map, Hs.
    - destruct (proj2 slots_names). rewrite <- En, <- En'. apply in_map, Hs'.
    - exact (fieldR_fun idx v v' F F').
  Qed.
  Lemma all_fit : fits sh R all_writes.
  Proof.
    intros w Hw. unfold all_writes in Hw. apply in_flat_map in Hw. destruct Hw as [r [Hr Hw]]. apply in_zrange in Hr.
    unfold writes_of in Hw. apply in_app_or in Hw. destruct Hw as [Hw|Hw]; apply in_map_iff in Hw.
    - destruct Hw as [s [<- Hs]]. unfold sl_write, box_write. cbn [w_shape w_name w_elems]. split; [symmetry; apply sh_slot, Hs|].
      intros e He. apply in_map_iff in He. destruct He as [k [<- Hk]]. cbn [fst snd]. split.
      + apply slot_in_shape; [apply slots_ok, Hs|exact Hr|exact Hk].
      + left. exists s. split; [exact Hs|]. split; [reflexivity|]. apply slot_value; [apply slots_ok, Hs|exact Hr|exact Hk].
    - destruct Hw as [[q s] [<- Hqs]]. destruct (in_combine_aget _ _ _ _ Hqs) as [p [Hq Hs]]. unfold fwrite, box_write. cbn [w_shape w_name w_elems].
      split; [symmetry; apply sh_flds|]. intros e He. apply in_map_iff in He. destruct He as [k [<- Hk]]. cbn [fst snd]. split.
      + apply (field_in_shape r p q k Hr Hq Hk).
      + right. split; [reflexivity|]. exists r, p, q, s, k. auto 10.
  Qed.

  Section Read.
    Variable f : @file T.
    Hypothesis Gf : good sh R f.
    Hypothesis Wf : forall w, In w all_writes -> has_write f w.

    Lemma slot_written s r : In s slots -> 0 <= r < size -> has_write f (sl_write size s r).
    Proof.
      intros Hs Hr. apply Wf. unfold all_writes. apply in_flat_map. exists r. split; [apply in_zrange; exact Hr|].
      unfold writes_of. apply in_or_app. left. apply in_map_iff. exists s. auto.
    Qed.
    Lemma slot_read s r : In s slots -> 0 <= r < size ->
      get_variable f (sl_name s) (sl_start s r) (sl_count s r) = Some (sl_data s r) /\ shape_is f (sl_name s) (sl_shape size s) = true.
    Proof.
      intros Hs Hr. rewrite <- (slot_data size s (slots_ok s Hs) r Hr).
      apply (read_box sh R f _ (sl_shape size s) _ _ (sl_elem s r) Gf); [symmetry; apply sh_slot, Hs| |exact (slot_written s r Hs Hr)].
      intros k Hk. apply slot_in_shape; [apply slots_ok, Hs|exact Hr|exact Hk].
    Qed.

    Lemma read_n_local r : 0 <= r < size -> get_n_local size f r = Some (npat r).
    Proof.
      intros Hr. set (s := @Slot T "grid::n_local" [] (fun r => [VInt (npat r)]) (fun _ => 1)).
      assert (In s slots) as Hs by (left; reflexivity).
      assert (allreduce size (fun _ => 1) = size) as EA by (change (exscan (fun _ : Z => 1) size = size); apply ones_scan; lia).
      destruct (slot_read s r Hs Hr) as [_ HS]. unfold sl_shape in HS. cbn [sl_name sl_n sl_rest s] in HS. rewrite EA in HS.
      unfold get_n_local. rewrite HS.
      assert (get_variable f "grid::n_local" [0] [size] = Some (map (fun r => VInt (npat r)) (zrange 0 size))) as ->.
      { unfold get_variable. destruct (slot_written s r Hs Hr) as [v [E _]]. cbn [sl_write w_name s sl_name box_write] in E. rewrite E.
        cbn [slab]. rewrite flat_map_concat_map.
        assert (concat (map (fun i => map (cons i) [[]]) (zrange 0 size)) = map (fun i => [i]) (zrange 0 size)) as ->
          by (induction (zrange 0 size) as [|x l IH]; [reflexivity|]; cbn [map concat app] in *; rewrite IH; reflexivity).
        rewrite map_map. apply sequence_map_some. intros i Hi. apply in_zrange in Hi.
        destruct (slot_written s i Hs Hi) as [v' [E' W]]. cbn [sl_write w_name s sl_name box_write] in E'. rewrite E in E'. injection E' as <-.
        destruct (Gf _ _ E) as [SH _]. rewrite SH. change "grid::n_local"%string with (sl_name s). rewrite (sh_slot s Hs). unfold sl_shape. cbn [sl_n sl_rest s]. rewrite EA.
        cbn [iadd in_shape]. replace ((0 <=? 0 + i) && (0 + i <? size) && true) with true by lia.
        specialize (W ([i], VInt (npat i))). cbn [fst snd] in W. replace (0 + i) with i by lia. apply W.
        unfold sl_write, box_write, sl_start, sl_count. cbn [w_elems sl_n sl_rest s slab flat_map map iadd app]. left.
        rewrite ones_scan by lia. f_equal. f_equal. lia. }
      rewrite aget_map, aget_zrange. replace ((0 <=? r) && (r <? size - 0)) with true by lia. reflexivity.
    Qed.

    Lemma rows_ok {A} (l : list (V3 A)) : rows (flat_map data3 l) = Some l.
    Proof. induction l as [|[x y z] l IH]; [reflexivity|]. cbn [flat_map data3 app c0 c1 c2 rows]. rewrite IH. reflexivity. Qed.
    Lemma as_ok {A B} (as_A : val -> option A) (F : V3 A -> V3 val) (g : B -> V3 A) (l : list B) :
      (forall v, map as_A (data3 (F v)) = map Some (data3 v)) ->
      sequence (map as_A (flat_map data3 (map (fun b => F (g b)) l))) = Some (flat_map data3 (map g l)).
    Proof.
      intros H. rewrite <- (sequence_some (flat_map data3 (map g l))). f_equal.
      induction l as [|b l IH]; [reflexivity|]. cbn [map flat_map]. rewrite !map_app, IH, H. reflexivity.
    Qed.
    Lemma read3 {A} (as_A : val -> option A) (F : V3 A -> V3 val) (g : patch -> V3 A) r s : 0 <= r < size -> In s slots ->
      sl_rest s = [3] -> sl_n s = npat -> sl_data s r = flat_map data3 (map (fun b => F (g b)) (s_patches (st r))) ->
      (forall v, map as_A (data3 (F v)) = map Some (data3 v)) ->
      get3_by_patch as_A f dm r (npat r) (sl_name s) = Some (map g (s_patches (st r))).
    Proof.
      intros Hr Hs E1 E2 E3 HF. unfold get3_by_patch. pose proof (npat_pos r Hr).
      destruct (info_ok r 0 Hr ltac:(lia)) as [info [-> [_ [_ [EG _]]]]]. rewrite EG, Z.add_0_r, nglobal.
      destruct (slot_read s r Hs Hr) as [A1 A2]. unfold sl_shape, sl_start, sl_count in *. rewrite E1, E2 in *. rewrite E3 in A1.
      cbn [map] in A1. rewrite A1, A2. replace (0 <? npat r) with true by lia. cbn [andb].
      rewrite (as_ok as_A F g) by exact HF. apply rows_ok.
    Qed.

    Lemma set_patches_ok (old l : list patch) : set_patches old (map p_off l) (map p_xb l) (map p_xe l) =
      map (fun '(i, q) => Patch (p_off q) (p_xb q) (p_xe q) (match aget old i with Some p => p_dx p | None => None end)) (combine (zrange 0 (alen l)) l).
    Proof.
      unfold set_patches. rewrite alen_map. generalize (zrange 0 (alen l)) as is. induction l as [|q l IH]; intros is; [destruct is; reflexivity|].
      destruct is as [|i is]; [reflexivity|]. cbn [map combine]. rewrite IH. reflexivity.
    Qed.

    Lemma read_patches old r : 0 <= r < size -> get_patches f dm old r (npat r) =
      Some (map (fun '(i, q) => Patch (p_off q) (p_xb q) (p_xe q) (match aget old i with Some p => p_dx p | None => None end)) (combine (zrange 0 (npat r)) (s_patches (st r)))).
    Proof.
      intros Hr. unfold get_patches.
      pose proof (read3 as_int vi p_off r (nth 1 slots (Slot "" [] (fun _ => []) (fun _ => 0))) Hr) as A1. cbn [nth slots app sl_name sl_rest sl_n sl_data] in A1.
      rewrite A1 by (first [reflexivity|right; left; reflexivity]).
      pose proof (read3 as_real vr p_xb r (nth 2 slots (Slot "" [] (fun _ => []) (fun _ => 0))) Hr) as A2. cbn [nth slots app sl_name sl_rest sl_n sl_data] in A2.
      rewrite A2 by (first [reflexivity|right; right; left; reflexivity]).
      pose proof (read3 as_real vr p_xe r (nth 3 slots (Slot "" [] (fun _ => []) (fun _ => 0))) Hr) as A3. cbn [nth slots app sl_name sl_rest sl_n sl_data] in A3.
      rewrite A3 by (first [reflexivity|right; right; right; left; reflexivity]).
      rewrite set_patches_ok. reflexivity.
    Qed.

    Lemma read_sizes r : 0 <= r < size -> get_by_patch f dm r (npat r) "mprts::size_by_patch" = Some (map alen (s_prts (st r))).
    Proof.
      intros Hr. unfold get_by_patch. pose proof (npat_pos r Hr).
      destruct (info_ok r 0 Hr ltac:(lia)) as [info [-> [_ [_ [EG _]]]]]. rewrite EG, Z.add_0_r, nglobal.
      destruct (slot_read (nth 4 slots (Slot "" [] (fun _ => []) (fun _ => 0))) r ltac:(right; right; right; right; left; reflexivity) Hr) as [A1 A2].
      unfold sl_shape, sl_start, sl_count in *. cbn [nth slots app sl_name sl_rest sl_n sl_data map] in *. rewrite A1, A2.
      rewrite map_map. apply (sequence_some (map alen (s_prts (st r)))) || (rewrite <- (sequence_some (map alen (s_prts (st r)))); rewrite !map_map; reflexivity).
    Qed.

    Lemma read_comp r (name : string) (get : prt -> val) (set : prt -> val -> option prt) : 0 <= r < size -> In (name, get, set) for_components ->
      get_variable f name [exscan nprt r] [nprt r] = Some (flat_map (map get) (s_prts (st r))).
    Proof.
      intros Hr HI. set (s := Slot name [] (fun r => flat_map (map get) (s_prts (st r))) nprt).
      assert (In s slots) as Hs.
      { unfold slots. apply in_or_app. right. apply in_map_iff. exists (name, get, set). split; [reflexivity|exact HI]. }
      destruct (slot_read s r Hs Hr) as [A _]. exact A.
    Qed.

    Lemma read_prts sizes r : 0 <= r < size -> (forall r', 0 <= r' < size -> sizes r' = map alen (s_prts (st r'))) ->
      get_prts prt0 f sizes r = Some (s_prts (st r)).
    Proof.
      intros Hr HS. unfold get_prts. rewrite (HS r Hr). rewrite map_map.
      replace (map (fun x : list prt => repeat prt0 (Z.to_nat (alen x))) (s_prts (st r))) with (map (map (fun _ : prt => prt0)) (s_prts (st r))).
      2:{ apply map_ext. intros b. unfold alen. rewrite Nat2Z.id. induction b as [|q b IH]; [reflexivity|]. cbn [map List.length repeat]. rewrite IH. reflexivity. }
      rewrite (fold_prts prt0 (fun name set b => get_component f (fun r => zsum (sizes r)) r name set b)); [reflexivity|].
      intros name get set g HI. unfold get_component. rewrite n_prts_map.
      assert (exscan (fun r => zsum (sizes r)) r = exscan nprt r) as ->.
      { unfold exscan. f_equal. apply map_ext_in. intros x Hx. apply in_zrange in Hx. rewrite HS by lia. reflexivity. }
      pose proof (read_comp r name get set Hr HI) as A. unfold nprt at 2 in A. rewrite A. reflexivity.
    Qed.

    Lemma fold_left_ext_in {A B} (F G : A -> B -> A) l : (forall a b, In b l -> F a b = G a b) -> forall a, fold_left F l a = fold_left G l a.
    Proof. induction l as [|b l IH]; intros H a; [reflexivity|]. cbn [fold_left]. rewrite H by (left; reflexivity). apply IH. intros x y Hy. apply H. right. exact Hy. Qed.

    Lemma copy_ok (s s0 : list T) : alen s = field_size ld ibn nc -> alen s0 = field_size ld ibn nc ->
      exists s', copy_inner np gdims ibn nc (map (fun k => nth (Z.to_nat (lin mc (iadd ms k))) s zero) (slab fc)) s0 = Some s' /\ alen s' = alen s /\
        forall m i j k, 0 <= m < nc -> inner ld i j k -> aget s' (field_pos ld ibn m i j k) = aget s (field_pos ld ibn m i j k).
    Proof.
      intros L L0. unfold copy_inner.
      set (l := flat_map _ (zrange 0 nc)).
      assert (forall m i j k, In (m, (i, (j, k))) l <-> 0 <= m < nc /\ inner ld i j k) as HL.
      { intros m i j k. unfold l. rewrite in_flat_map. unfold inner. split.
        - intros [m' [Hm H]]. apply in_flat_map in H. destruct H as [k' [Hk H]]. apply in_flat_map in H. destruct H as [j' [Hj H]].
          apply in_map_iff in H. destruct H as [i' [E Hi]]. injection E as -> -> -> ->. apply in_zrange in Hm, Hk, Hj, Hi. fold ld in Hk, Hj, Hi. lia.
        - intros [Hm [Hi [Hj Hk]]]. exists m. split; [apply in_zrange; exact Hm|]. apply in_flat_map. exists k. split; [apply in_zrange; exact Hk|].
          apply in_flat_map. exists j. split; [apply in_zrange; exact Hj|]. apply in_map_iff. exists i. split; [reflexivity|apply in_zrange; exact Hi]. }
      set (pos := fun b : Z * (Z * (Z * Z)) => let '(m, (i, (j, k))) := b in field_pos ld ibn m i j k).
      set (h := fun b : Z * (Z * (Z * Z)) => nth (Z.to_nat (pos b)) s zero).
      destruct (fold_aset pos h l s0) as [s' [E [EL G]]].
      - intros [m [i [j k]]] Hb. apply HL in Hb. rewrite L0. apply fpos_range; apply Hb.
      - intros b b' _ _ E. unfold h. rewrite E. reflexivity.
      - exists s'. split; [|split; [lia|]].
        + rewrite <- E. apply fold_left_ext_in. intros o [m [i [j k]]] Hb. apply HL in Hb. destruct Hb as [Hm Hi].
          assert (In [m; k; j; i] (slab fc)) as Hk by (apply fc_case; exists m, k, j, i; auto).
          assert (Forall (fun c => 0 <= c) fc) as HN.
          { unfold fc, makeDims. pose proof (ld_nonneg D0). pose proof (ld_nonneg D1). pose proof (ld_nonneg D2). cbn [get3] in *. repeat (constructor; [lia|]). constructor. }
          replace (span_pos (strides (im (fbox np gdims nc (v3 0 0 0)))) i j k m) with (lin fc [m; k; j; i]).
          2:{ unfold fbox, make_mfields, strides, span_pos, fc, makeDims. cbn [im gen3 get3 c0 c1 c2 lin fold_right]. fold ld. ring. }
          rewrite aget_map, (aget_slab fc _ HN Hk). cbn [option_map]. rewrite fpos.
          replace (span_pos (strides (im (fbox np gdims nc ibn))) (i - c0 (ib (fbox np gdims nc ibn))) (j - c1 (ib (fbox np gdims nc ibn))) (k - c2 (ib (fbox np gdims nc ibn))) m) with (field_pos ld ibn m i j k).
          2:{ unfold fbox, make_mfields, strides, span_pos, field_pos. cbn [ib im gen3 get3 c0 c1 c2]. fold ld. ring. }
          destruct o; reflexivity.
        + intros m i j k Hm Hi. specialize (G (m, (i, (j, k)))). cbn [pos] in G. rewrite G by (apply HL; auto). unfold h. cbn [pos].
          symmetry. apply aget_nth. rewrite L. apply fpos_range; assumption.
    Qed.

    Lemma read_flds r p q (q' : patch) s : 0 <= r < size -> aget (s_patches (st r)) p = Some q -> aget (s_flds (st r)) p = Some s -> p_off q' = p_off q ->
      exists s', get_flds np gdims ibn nc zero f q' = Some s' /\ alen s' = alen s /\
        forall m i j k, 0 <= m < nc -> inner ld i j k -> aget s' (field_pos ld ibn m i j k) = aget s (field_pos ld ibn m i j k).
    Proof.
      intros Hr Hq Hs EO. unfold get_flds. rewrite EO.
      assert (has_write f (fwrite q s)) as HW.
      { apply Wf. unfold all_writes. apply in_flat_map. exists r. split; [apply in_zrange; exact Hr|]. unfold writes_of. apply in_or_app. right.
        apply in_map_iff. exists (q, s). split; [reflexivity|].
        exact (combine_in _ _ _ _ _ Hq Hs). }
      destruct (read_box sh R f "mflds::mflds" (makeDims nc gdims) (makeDims 0 (p_off q)) fc (fget s) Gf) as [A1 A2].
      - symmetry. apply sh_flds.
      - intros k Hk. apply (field_in_shape r p q k Hr Hq Hk).
      - exact HW.
      - rewrite A2. change (makeDims nc (ldims np gdims)) with fc. rewrite A1, map_map.
        rewrite (sequence_map_some _ (fun k => nth (Z.to_nat (lin mc (iadd ms k))) s zero)) by reflexivity.
        pose proof (flds_size r s Hr (aget_In _ _ _ Hs)) as L. apply copy_ok; [exact L|].
        rewrite alen_repeat. unfold storage_size, fbox, make_mfields. cbn [ib im gen3 get3 c0 c1 c2 n_comps n_patches]. unfold field_size. fold ld.
        rewrite Z2Nat.id; [ring|]. pose proof (ld_nonneg D0). pose proof (ld_nonneg D1). pose proof (ld_nonneg D2). pose proof (Hibn D0). pose proof (Hibn D1). pose proof (Hibn D2).
        cbn [get3] in *. repeat apply Z.mul_nonneg_nonneg; lia.
    Qed.
  End Read.

  Lemma aget_combine {A B} (a : list A) (b : list B) i : alen a = alen b ->
    aget (combine a b) i = match aget a i, aget b i with Some x, Some y => Some (x, y) | _, _ => None end.
  Proof.
    revert b i. induction a as [|x a IH]; intros [|y b] i H; rewrite ?alen_cons, ?alen_nil in H; try (pose proof (alen_nonneg a)); try (pose proof (alen_nonneg b)); try lia.
    - cbn [combine]. unfold aget. destruct (i <? 0); [reflexivity|]. destruct (Z.to_nat i); reflexivity.
    - cbn [combine]. rewrite !aget_cons. destruct (i =? 0); [reflexivity|]. apply IH. lia.
  Qed.
  Lemma alen_combine {A B} (a : list A) (b : list B) : alen a = alen b -> alen (combine a b) = alen a.
  Proof. unfold alen. rewrite combine_length. lia. Qed.

  Lemma sequence_exists {A B} (F : A -> option B) (P : A -> B -> Prop) l : (forall a, In a l -> exists b, F a = Some b /\ P a b) ->
    exists l', sequence (map F l) = Some l' /\ Forall2 P l l'.
  Proof.
    induction l as [|a l IH]; intros H; [exists []; split; [reflexivity|constructor]|]. destruct (H a (or_introl eq_refl)) as [b [E HP]].
    destruct IH as [l' [E' HF]]; [intros x Hx; apply H; right; exact Hx|]. exists (b :: l'). cbn [map sequence]. rewrite E, E'. split; [reflexivity|constructor; assumption].
  Qed.
  Lemma Forall2_aget {A B} (P : A -> B -> Prop) l l' : Forall2 P l l' -> alen l = alen l' /\ forall i a b, aget l i = Some a -> aget l' i = Some b -> P a b.
  Proof.
    induction 1 as [|a b l l' H HF [IL IH]]; [split; [reflexivity|]; intros i a b E; apply aget_In in E; destruct E|].
    rewrite !alen_cons. split; [lia|]. intros i x y. rewrite !aget_cons. destruct (i =? 0); [congruence|apply IH].
  Qed.
  Lemma Forall2_intro {A B} (P : A -> B -> Prop) l : forall l', alen l = alen l' -> (forall i a b, aget l i = Some a -> aget l' i = Some b -> P a b) -> Forall2 P l l'.
  Proof.
    induction l as [|a l IH]; intros [|b l'] HL H; rewrite ?alen_cons, ?alen_nil in HL; try (pose proof (alen_nonneg l)); try (pose proof (alen_nonneg l')); try lia.
    - constructor.
    - constructor; [apply (H 0); reflexivity|]. apply IH; [lia|]. intros i x y Hx Hy. pose proof (aget_bounds _ _ _ Hx). apply (H (i + 1)); rewrite aget_cons;
      (destruct (Z.eqb_spec (i + 1) 0); [lia|]); replace (i + 1 - 1) with i by lia; assumption.
  Qed.

  Lemma domain_same : domain_setup c np gdims per (Some counts) size = Some dm.
  Proof.
    clear - Hset. unfold domain_setup in *. destruct (dim_ldims (c0 gdims) (c0 np)), (dim_ldims (c1 gdims) (c1 np)), (dim_ldims (c2 gdims) (c2 np)), (sfc_setup c np); try discriminate.
    injection Hset as <-. unfold counts, counts_of. destruct pr; reflexivity.
  Qed.

  (** the dx_ of the patches of process r after reading *)
  Definition spacing (old : list patch) (s' : proc) : Prop :=
    forall p q, aget (s_patches s') p = Some q -> p_dx q = match aget old p with Some o => p_dx o | None => None end.

  Theorem restart ws' old : Permutation all_writes ws' ->
    exists f procs, apply_writes empty_file ws' = Some f /\ read_checkpoint c np gdims per size ibn nc prt0 zero f old = Some (dm, procs) /\ alen procs = Z.max 0 size /\
      forall r s', aget procs r = Some s' -> restored ld ibn nc (st r) s' /\ spacing (old r) s'.
  Proof.
    intros HP. destruct (written sh R R_fun all_writes ws' all_fit HP) as [f [E [G W]]]. exists f.
    set (np_of := fun r => map (fun '(i, q) => Patch (p_off q) (p_xb q) (p_xe q) (match aget (old r) i with Some p => p_dx p | None => None end)) (combine (zrange 0 (npat r)) (s_patches (st r)))).
    unfold read_checkpoint.
    rewrite (sequence_map_some _ npat) by (intros r Hr; apply in_zrange in Hr; exact (read_n_local f G W r Hr)).
    rewrite <- counts_map, domain_same.
    rewrite (sequence_map_some _ (fun r => (np_of r, map alen (s_prts (st r))))).
    2:{ intros r Hr. apply in_zrange in Hr. rewrite (counts_get r Hr), (read_patches f G W (old r) r Hr), (read_sizes f G W r Hr). reflexivity. }
    set (sizes := fun r => match aget (map (fun r => (np_of r, map alen (s_prts (st r)))) (zrange 0 size)) r with Some (_, szs) => szs | None => [] end).
    assert (forall r', 0 <= r' < size -> sizes r' = map alen (s_prts (st r'))) as HS.
    { intros r' Hr'. unfold sizes. rewrite aget_map, aget_zrange. replace ((0 <=? r') && (r' <? size - 0)) with true by lia. reflexivity. }
    assert (combine (zrange 0 size) (map (fun r => (np_of r, map alen (s_prts (st r)))) (zrange 0 size)) = map (fun r => (r, (np_of r, map alen (s_prts (st r))))) (zrange 0 size)) as ->.
    { apply combine_map_self. }
    rewrite map_map.
    assert (forall r p q, 0 <= r < size -> aget (np_of r) p = Some q -> exists q0, aget (s_patches (st r)) p = Some q0 /\ q = Patch (p_off q0) (p_xb q0) (p_xe q0) (match aget (old r) p with Some p => p_dx p | None => None end)) as HNP.
    { intros r p q Hr Hq. unfold np_of in Hq. rewrite aget_map, aget_combine in Hq by (unfold npat; rewrite alen_zrange by apply alen_nonneg; lia).
      rewrite aget_zrange in Hq. destruct ((0 <=? p) && (p <? npat r - 0)) eqn:EB; [|discriminate]. destruct (aget (s_patches (st r)) p) as [q0|]; [|discriminate].
      cbn [option_map] in Hq. injection Hq as <-. exists q0. split; [reflexivity|]. replace (0 + p) with p by lia. reflexivity. }
    assert (forall r, alen (np_of r) = npat r) as LNP.
    { intros r. unfold np_of. rewrite alen_map, alen_combine; unfold npat; rewrite alen_zrange by apply alen_nonneg; lia. }
    destruct (sequence_exists (fun r => match get_prts prt0 f sizes r, sequence (map (get_flds np gdims ibn nc zero f) (np_of r)) with
        | Some bufs, Some fl => Some (Proc (np_of r) bufs fl) | _, _ => None end)
        (fun r s' => restored ld ibn nc (st r) s' /\ spacing (old r) s') (zrange 0 size)) as [procs [EP FP]].
    { intros r Hr. apply in_zrange in Hr. rewrite (read_prts f G W sizes r Hr HS).
      destruct (Hst r Hr) as [n [_ [_ [L1 [_ [L3 _]]]]]].
      destruct (sequence_exists (get_flds np gdims ibn nc zero f) (fun q' s' => exists p q s, aget (s_patches (st r)) p = Some q /\ aget (s_flds (st r)) p = Some s /\ aget (np_of r) p = Some q' /\
         get_flds np gdims ibn nc zero f q' = Some s') (np_of r)) as [fl [EF FF]].
      { intros q' Hq'. destruct (In_aget _ _ Hq') as [p Hp]. destruct (HNP r p q' Hr Hp) as [q [Hq EQ]].
        pose proof (aget_bounds _ _ _ Hq) as BP. destruct (aget_some (s_flds (st r)) p ltac:(lia)) as [s Hs].
        destruct (read_flds f G W r p q q' s Hr Hq Hs) as [s' [A _]]; [rewrite EQ; reflexivity|]. exists s'. split; [exact A|]. exists p, q, s. auto. }
      rewrite EF. eexists. split; [reflexivity|]. split.
      - split; [|split; [reflexivity|]]; cbn [s_patches s_prts s_flds].
        + apply alist_ext; [rewrite !alen_map, LNP; reflexivity|]. intros i Hi. rewrite alen_map in Hi. rewrite !aget_map.
          destruct (aget_some _ _ Hi) as [q Hq]. destruct (HNP r i q Hr Hq) as [q0 [Hq0 ->]]. rewrite Hq, Hq0. reflexivity.
        + destruct (Forall2_aget _ _ _ FF) as [LF _]. rewrite LNP in LF. apply Forall2_intro; [unfold npat in LF; lia|].
          intros p s s' Hs Hs'. pose proof (aget_bounds _ _ _ Hs) as BS. destruct (aget_some (np_of r) p ltac:(rewrite LNP; unfold npat; lia)) as [q' Hq'].
          destruct (HNP r p q' Hr Hq') as [q [Hq EQ]].
          pose proof (map_all _ _ _ EF) as EM. apply (f_equal (fun l => aget l p)) in EM. rewrite !aget_map, Hq', Hs' in EM. cbn [option_map] in EM. injection EM as EM.
          destruct (read_flds f G W r p q q' s Hr Hq Hs) as [s2 [A B]]; [rewrite EQ; reflexivity|]. rewrite A in EM. injection EM as <-. exact B.
      - intros p q Hq. cbn [s_patches] in Hq. destruct (HNP r p q Hr Hq) as [q0 [_ ->]]. reflexivity. }
    exists procs. split; [exact E|]. rewrite EP. split; [reflexivity|]. destruct (Forall2_aget _ _ _ FP) as [LP HPr].
    assert (alen (zrange 0 size) = Z.max 0 size) as LZ by (unfold alen; rewrite zrange_length; lia).
    split; [lia|]. intros r s' Hr. pose proof (aget_bounds _ _ _ Hr) as BR. apply (HPr r); [|exact Hr].
    rewrite aget_zrange. replace ((0 <=? r) && (r <? size - 0)) with true by lia. f_equal.
  Qed.
End Main.
