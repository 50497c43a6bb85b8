From Verif Require Import Base Arr RangeModel CollisionProofs SortProofs.
Local Open Scope Z_scope.

Lemma Forall2_length {A B} (R : A -> B -> Prop) l l' : Forall2 R l l' -> length l = length l'.
Proof. induction 1; cbn; lia. Qed.

(** ** Specification: nested loops, as in the comment VecRange.hxx:14-24 *)
Fixpoint nested_loops (starts stops : list Z) : list (list Z) :=
  match starts, stops with
  | s :: starts, e :: stops => flat_map (fun i => map (cons i) (nested_loops starts stops)) (zrange s e)
  | _, _ => [[]]
  end.

(** lexicographic order *)
Fixpoint lex (a b : list Z) : Prop :=
  match a, b with
  | x :: a, y :: b => x < y \/ x = y /\ lex a b
  | _, _ => False
  end.

Lemma nested_loops_in starts stops v : length starts = length stops ->
  (In v (nested_loops starts stops) <-> Forall2 (fun x se => fst se <= x < snd se) v (combine starts stops)).
Proof.
  revert stops v. induction starts as [|s starts IH]; intros [|e stops] v HL; try discriminate.
  - cbn. split; [intros [<-|[]]; constructor|]. intros H. inversion H. now left.
  - cbn [nested_loops combine]. rewrite in_flat_map. split.
    + intros [i [Hi Hv]]. apply in_map_iff in Hv. destruct Hv as [w [<- Hw]]. apply in_zrange in Hi.
      constructor; [exact Hi|]. apply IH; [injection HL; auto|exact Hw].
    + intros H. inversion H as [|x ? v' ? Hx Hv]; subst. exists x. split; [apply in_zrange; exact Hx|].
      apply in_map. apply IH; [injection HL; auto|exact Hv].
Qed.

Lemma nested_loops_lex starts stops : StronglySorted lex (nested_loops starts stops).
Proof.
  revert stops. induction starts as [|s starts IH]; intros [|e stops]; cbn [nested_loops]; try (repeat constructor; fail).
  assert (G : forall n s0, StronglySorted lex (flat_map (fun i => map (cons i) (nested_loops starts stops)) (zrange s0 (s0 + Z.of_nat n)))).
  { induction n as [|n IHn]; intros s0.
    - rewrite zrange_empty by lia. constructor.
    - rewrite zrange_cons by lia. cbn [flat_map]. replace (s0 + Z.of_nat (S n)) with ((s0 + 1) + Z.of_nat n) by lia.
      specialize (IHn (s0 + 1)). specialize (IH stops).
      assert (HT : forall w, In w (flat_map (fun i => map (cons i) (nested_loops starts stops)) (zrange (s0 + 1) (s0 + 1 + Z.of_nat n))) ->
        exists i w', s0 < i /\ w = i :: w').
      { intros w Hw. apply in_flat_map in Hw. destruct Hw as [i [Hi Hw]]. apply in_zrange in Hi.
        apply in_map_iff in Hw. destruct Hw as [w' [<- _]]. exists i, w'. split; [lia|reflexivity]. }
      revert IHn HT. generalize (flat_map (fun i => map (cons i) (nested_loops starts stops)) (zrange (s0 + 1) (s0 + 1 + Z.of_nat n))).
      intros T HS HT. induction IH as [|v l Hs IHl Hf]; cbn [map app]; [exact HS|].
      constructor; [exact IHl|]. apply Forall_app. split.
      + apply Forall_forall. intros w Hw. apply in_map_iff in Hw. destruct Hw as [w' [<- Hw]]. right. split; [reflexivity|].
        rewrite Forall_forall in Hf. apply Hf, Hw.
      + apply Forall_forall. intros w Hw. destruct (HT w Hw) as [i [w' [Hi ->]]]. left. exact Hi. }
  destruct (Z_le_dec s e) as [H|H].
  - specialize (G (Z.to_nat (e - s)) s). replace (s + Z.of_nat (Z.to_nat (e - s))) with e in G by lia. exact G.
  - rewrite zrange_empty by lia. constructor.
Qed.

(** ** The iterator *)

(** increment, innermost (last) component first; the flag is the carry *)
Fixpoint adv (starts stops current : list Z) : list Z * bool :=
  match starts, stops, current with
  | s :: ss, e :: es, c :: cs =>
      match adv ss es cs with
      | (cs', true) => if c + 1 <? e then (c + 1 :: cs', false) else (s :: cs', true)
      | (cs', false) => (c :: cs', false)
      end
  | _, _, _ => ([], true)
  end.

Lemma aget_cons_S {A} (x : A) l d : aget (x :: l) (Z.of_nat (S d)) = aget l (Z.of_nat d).
Proof. rewrite aget_cons. destruct (Z.eqb_spec (Z.of_nat (S d)) 0); [lia|]. f_equal. lia. Qed.

Lemma aset_cons_S {A} (x : A) l d a :
  aset (x :: l) (Z.of_nat (S d)) a = match aset l (Z.of_nat d) a with Some l' => Some (x :: l') | None => None end.
Proof.
  unfold aset. destruct (Z.ltb_spec (Z.of_nat (S d)) 0), (Z.ltb_spec (Z.of_nat d) 0); try lia.
  rewrite !Nat2Z.id. reflexivity.
Qed.

(** the loop, returning whether it ran through *)
Fixpoint loopc (starts stops : list Z) (k : nat) (current : list Z) : option (list Z * bool) :=
  match k with
  | O => Some (current, true)
  | S d =>
      match aget current (Z.of_nat d), aget starts (Z.of_nat d), aget stops (Z.of_nat d) with
      | Some c, Some start, Some stop =>
          match aset current (Z.of_nat d) (c + 1) with
          | Some current =>
              if c + 1 <? stop then Some (current, false)
              else match aset current (Z.of_nat d) start with
                   | Some current => loopc starts stops d current
                   | None => None
                   end
          | None => None
          end
      | _, _, _ => None
      end
  end.

Lemma incr_loop_loopc starts stops : forall k current f, (0 < k)%nat ->
  incr_loop starts stops k current f =
  match loopc starts stops k current with
  | Some (cur, true) => Some (cur, true)
  | Some (cur, false) => Some (cur, f)
  | None => None
  end.
Proof.
  induction k as [|d IH]; intros current f Hk; [lia|]. cbn [incr_loop loopc].
  destruct (aget current _) as [c|]; [|reflexivity]. destruct (aget starts _) as [s|]; [|reflexivity].
  destruct (aget stops _) as [e|]; [|reflexivity]. destruct (aset current _ (c + 1)) as [cur|]; [|reflexivity].
  destruct (c + 1 <? e); [reflexivity|]. destruct (aset cur _ s) as [cur2|]; [|reflexivity].
  destruct d as [|d]; [reflexivity|]. cbn [Nat.eqb]. apply IH. lia.
Qed.

Lemma loopc_cons s ss e es : forall k c cs,
  loopc (s :: ss) (e :: es) (S k) (c :: cs) =
  match loopc ss es k cs with
  | Some (cs', true) => if c + 1 <? e then Some (c + 1 :: cs', false) else Some (s :: cs', true)
  | Some (cs', false) => Some (c :: cs', false)
  | None => None
  end.
Proof.
  induction k as [|d IH]; intros c cs.
  - cbn. destruct (c + 1 <? e); reflexivity.
  - change (loopc (s :: ss) (e :: es) (S (S d)) (c :: cs)) with
      (match aget (c :: cs) (Z.of_nat (S d)), aget (s :: ss) (Z.of_nat (S d)), aget (e :: es) (Z.of_nat (S d)) with
       | Some x, Some start, Some stop =>
          match aset (c :: cs) (Z.of_nat (S d)) (x + 1) with
          | Some current =>
              if x + 1 <? stop then Some (current, false)
              else match aset current (Z.of_nat (S d)) start with
                   | Some current => loopc (s :: ss) (e :: es) (S d) current
                   | None => None
                   end
          | None => None
          end
       | _, _, _ => None
       end).
    rewrite !aget_cons_S. cbn [loopc].
    destruct (aget cs _) as [x|]; [|reflexivity]. destruct (aget ss _) as [y|]; [|reflexivity].
    destruct (aget es _) as [z|]; [|reflexivity]. rewrite aset_cons_S.
    destruct (aset cs _ (x + 1)) as [cs1|]; [|reflexivity].
    destruct (x + 1 <? z); [reflexivity|]. rewrite aset_cons_S.
    destruct (aset cs1 _ y) as [cs2|]; [|reflexivity]. apply IH.
Qed.

Lemma loopc_adv : forall starts stops current, length stops = length starts -> length current = length starts ->
  loopc starts stops (length starts) current = Some (adv starts stops current).
Proof.
  induction starts as [|s ss IH]; intros [|e es] [|c cs] H1 H2; try discriminate; [reflexivity|].
  cbn [length]. rewrite loopc_cons. rewrite IH by (cbn in *; lia). cbn [adv].
  destruct (adv ss es cs) as [cs' []]; [|reflexivity]. destruct (c + 1 <? e); reflexivity.
Qed.

Lemma vr_next_adv starts stops current : (0 < length starts)%nat -> length stops = length starts -> length current = length starts ->
  vr_next starts stops (current, false) = Some (adv starts stops current).
Proof.
  intros H0 H1 H2. unfold vr_next. cbn [fst snd]. rewrite incr_loop_loopc by exact H0.
  rewrite loopc_adv by assumption. destruct (adv starts stops current) as [c []]; reflexivity.
Qed.

(** [l] is run through by [adv], which then wraps around to [back] *)
Fixpoint chain (starts stops : list Z) (l : list (list Z)) (back : list Z) : Prop :=
  match l with
  | [] => False
  | [x] => adv starts stops x = (back, true)
  | x :: ((y :: _) as l') => adv starts stops x = (y, false) /\ chain starts stops l' back
  end.

(** run through [l], continue with [y] *)
Fixpoint chain_to (starts stops : list Z) (l : list (list Z)) (y : list Z) : Prop :=
  match l with
  | [] => False
  | [x] => adv starts stops x = (y, false)
  | x :: ((z :: _) as l') => adv starts stops x = (z, false) /\ chain_to starts stops l' y
  end.

Lemma chain_app starts stops l1 y l2 back : chain_to starts stops l1 y -> chain starts stops (y :: l2) back ->
  chain starts stops (l1 ++ y :: l2) back.
Proof.
  induction l1 as [|x [|z l1] IH]; intros H1 H2; [destruct H1|cbn [app]; cbn in H1; split; assumption|].
  cbn [app]. destruct H1 as [H1 H1']. split; [exact H1|]. apply IH; assumption.
Qed.

Lemma chain_to_cons s ss e es i l back : i + 1 < e -> chain ss es l back ->
  chain_to (s :: ss) (e :: es) (map (cons i) l) (i + 1 :: back).
Proof.
  intros Hi. induction l as [|x [|z l] IH]; intros H; [destruct H| |].
  - cbn in *. rewrite H. destruct (Z.ltb_spec (i + 1) e); [reflexivity|lia].
  - destruct H as [H H']. cbn [map] in *. split; [|apply IH; exact H']. cbn [adv]. rewrite H. reflexivity.
Qed.

Lemma chain_last s ss e es i l back : e <= i + 1 -> chain ss es l back ->
  chain (s :: ss) (e :: es) (map (cons i) l) (s :: back).
Proof.
  intros Hi. induction l as [|x [|z l] IH]; intros H; [destruct H| |].
  - cbn in *. rewrite H. destruct (Z.ltb_spec (i + 1) e); [lia|reflexivity].
  - destruct H as [H H']. cbn [map] in *. split; [|apply IH; exact H']. cbn [adv]. rewrite H. reflexivity.
Qed.

Lemma nested_chain : forall starts stops, Forall2 Z.lt starts stops ->
  (exists l, nested_loops starts stops = starts :: l) /\ chain starts stops (nested_loops starts stops) starts.
Proof.
  induction starts as [|s ss IH]; intros stops H; inversion H as [|? e ? es Hse Hr]; subst.
  - split; [exists []; reflexivity|reflexivity].
  - destruct (IH es Hr) as [[l0 El0] HC]. cbn [nested_loops].
    assert (Hhead : forall i n, exists l, flat_map (fun i => map (cons i) (nested_loops ss es)) (zrange i (i + Z.of_nat (S n))) = (i :: ss) :: l).
    { intros i n. rewrite zrange_cons by lia. cbn [flat_map]. rewrite El0. cbn [map app]. eauto. }
    assert (G : forall n i, i + Z.of_nat (S n) = e ->
      chain (s :: ss) (e :: es) (flat_map (fun i => map (cons i) (nested_loops ss es)) (zrange i (i + Z.of_nat (S n)))) (s :: ss)).
    { induction n as [|n IHn]; intros i Hi.
      - rewrite zrange_cons, zrange_empty by lia. cbn [flat_map]. rewrite app_nil_r. apply chain_last; [lia|exact HC].
      - rewrite zrange_cons by lia. cbn [flat_map].
        replace (i + Z.of_nat (S (S n))) with ((i + 1) + Z.of_nat (S n)) in * by lia.
        specialize (IHn (i + 1) Hi). destruct (Hhead (i + 1) n) as [l El]. rewrite El in *.
        apply chain_app; [|exact IHn]. apply chain_to_cons; [lia|exact HC]. }
    replace e with (s + Z.of_nat (S (Z.to_nat (e - s - 1)))) by lia. split; [apply Hhead|].
    replace e with (s + Z.of_nat (S (Z.to_nat (e - s - 1)))) in G at 2 by lia.
    specialize (G (Z.to_nat (e - s - 1)) s ltac:(lia)).
    replace (s + Z.of_nat (S (Z.to_nat (e - s - 1)))) with e in * by lia. exact G.
Qed.

Lemma nested_length starts stops v : length starts = length stops -> In v (nested_loops starts stops) -> length v = length starts.
Proof.
  intros HL Hv. apply nested_loops_in in Hv; [|exact HL]. apply Forall2_length in Hv.
  rewrite combine_length in Hv. lia.
Qed.

Lemma vr_loop_chain starts stops back : (0 < length starts)%nat -> length stops = length starts ->
  forall l x fuel, chain starts stops (x :: l) back -> (forall v, In v (x :: l) -> length v = length starts) ->
  (length (x :: l) <= fuel)%nat -> vr_loop fuel starts stops (x, false) = Some (x :: l).
Proof.
  intros H0 H1. induction l as [|y l IH]; intros x fuel HC HL Hf; (destruct fuel as [|fuel]; [cbn in Hf; lia|]);
    cbn [vr_loop snd fst Bool.eqb negb]; rewrite vr_next_adv by (try assumption; apply HL; now left).
  - cbn in HC. rewrite HC. destruct fuel; reflexivity.
  - destruct HC as [HC HC']. rewrite HC. rewrite (IH y fuel HC'); [reflexivity| |cbn in *; lia].
    intros v Hv. apply HL. now right.
Qed.

Lemma vr_visits_nested starts stops : starts <> [] -> Forall2 Z.lt starts stops ->
  forall fuel, (length (nested_loops starts stops) <= fuel)%nat ->
  vr_visits fuel starts stops = Some (nested_loops starts stops).
Proof.
  intros Hne H fuel Hf. pose proof (Forall2_length _ _ _ H) as HL.
  destruct (nested_chain starts stops H) as [[l El] HC]. unfold vr_visits, vr_begin.
  rewrite El in *. apply (vr_loop_chain starts stops starts); auto.
  - destruct starts; [congruence|cbn; lia].
  - intros v Hv. apply (nested_length starts stops); [exact HL|]. rewrite El. exact Hv.
Qed.

(** with an empty direction, the loop body still runs *)
Lemma vr_visits_empty starts stops : starts <> [] -> length stops = length starts -> nested_loops starts stops = [] ->
  forall fuel, vr_visits fuel starts stops <> Some [].
Proof.
  intros Hne HL He fuel. unfold vr_visits, vr_begin. destruct fuel; cbn [vr_loop snd negb Bool.eqb]; [discriminate|].
  destruct (vr_next _ _ _) as [it|]; [|discriminate]. destruct (vr_loop _ _ _ _); discriminate.
Qed.

(** ** flatten_index numbers the points of VecRange(0, dims) in order *)

Fixpoint prod (l : list Z) : Z := match l with [] => 1 | x :: r => x * prod r end.

Lemma flatten_rest_lin : forall idx dims f, length idx = length dims ->
  flatten_rest f idx dims = f * prod dims + flatten_rest 0 idx dims.
Proof.
  induction idx as [|i idx IH]; intros [|n dims] f H; try discriminate; cbn [flatten_rest prod]; [lia|].
  injection H as H. rewrite (IH dims (f * n + i) H), (IH dims (0 * n + i) H). ring.
Qed.

Lemma flatten_rest_zero i idx n dims : flatten_rest 0 (i :: idx) (n :: dims) = flatten_rest i idx dims.
Proof. reflexivity. Qed.

Lemma nested_zero_len dims v : In v (nested_loops (map (fun _ => 0) dims) dims) -> length v = length dims.
Proof. intros H. apply nested_length in H; rewrite map_length in *; auto. Qed.

Lemma nested_flatten : forall dims, Forall (fun n => 0 <= n) dims ->
  map (fun v => flatten_rest 0 v dims) (nested_loops (map (fun _ => 0) dims) dims) = zrange 0 (prod dims).
Proof.
  induction dims as [|n dims IH]; intros H; [reflexivity|]. inversion H as [|? ? Hn Hd]; subst.
  cbn [map nested_loops prod]. rewrite map_flat_map.
  assert (HP : 0 <= prod dims).
  { clear - Hd. induction Hd as [|x l Hx Hl IHl]; cbn; [lia|]. apply Z.mul_nonneg_nonneg; assumption. }
  rewrite <- zrange_mul by assumption. apply flat_map_ext. intros i. rewrite map_map, <- (IH Hd), map_map.
  apply map_ext_in. intros v Hv. rewrite flatten_rest_zero. apply flatten_rest_lin. apply nested_zero_len, Hv.
Qed.

Lemma flatten_range dims : dims <> [] -> Forall (fun n => 0 <= n) dims ->
  map (fun v => flatten_index v dims) (nested_loops (map (fun _ => 0) dims) dims) = map Some (zrange 0 (prod dims)).
Proof.
  intros Hne H. rewrite <- (nested_flatten dims H), map_map. apply map_ext_in. intros v Hv.
  apply nested_zero_len in Hv. destruct dims as [|n dims]; [congruence|]. destruct v as [|i v]; [discriminate|]. reflexivity.
Qed.
