From Coq Require Import Reals Lra Psatz.
From Verif Require Import Base OutputModel OutputProofs LoopModel LoopSpec CollisionProofs.
Local Open Scope Z_scope.

(** ** Which operations when *)

Definition is_op (o o' : op) : bool := if op_eq_dec o' o then true else false.
Definition occ (o : op) (l : list op) : nat := length (filter (is_op o) l).

Lemma occ_app o l l' : occ o (l ++ l') = (occ o l + occ o l')%nat.
Proof. unfold occ. rewrite filter_app, app_length. reflexivity. Qed.

Lemma occ_repeat o o' n : occ o (repeat o' n) = if op_eq_dec o' o then n else 0%nat.
Proof.
  induction n as [|n IH]; cbn [repeat]; [destruct (op_eq_dec o' o); reflexivity|]. unfold occ, is_op in *. cbn [filter].
  destruct (op_eq_dec o' o); cbn [length]; rewrite IH; reflexivity.
Qed.

Lemma occ_when o b o' : occ o (when b o') = if b then if op_eq_dec o' o then 1%nat else 0%nat else 0%nat.
Proof. destruct b; cbn [when]; [|reflexivity]. unfold occ, is_op. cbn [filter]. destruct (op_eq_dec o' o); reflexivity. Qed.

Lemma occ_final o k : o <> Checkpoint -> occ o (checkpoint_final k) = 0%nat.
Proof. intros H. unfold checkpoint_final. destruct (k <=? 0); [reflexivity|]. destruct o; try reflexivity. congruence. Qed.

Lemma times_app o l l' : times o (l ++ l') = times o l ++ times o l'.
Proof. unfold times. rewrite filter_app, map_app. reflexivity. Qed.

Lemma times_at o t l : times o (at_step t l) = repeat t (occ o l).
Proof.
  induction l as [|o' l IH]; [reflexivity|]. unfold times, at_step, occ, is_op in *. cbn [map filter snd].
  destruct (op_eq_dec o' o); cbn [map repeat length]; [f_equal|]; exact IH.
Qed.

Lemma due_multiple i t : due i t = multiple i t.
Proof.
  unfold due, multiple. destruct (Z.ltb_spec 0 i); [|reflexivity]. cbn [andb].
  destruct (Z.eqb_spec (Z.rem t i) 0) as [E|N], (Z.eqb_spec (t mod i) 0) as [E'|N']; try reflexivity; exfalso.
  - apply N'. apply Z.rem_divide in E; [|lia]. apply Z.mod_divide; [lia|exact E].
  - apply N. apply Z.mod_divide in E'; [|lia]. apply Z.rem_divide; [lia|exact E'].
Qed.

(** operations of one pass of the loop, but for the checkpoint *)
Definition pass_ops (cfg : config) (t : Z) : list op :=
  step_ops cfg t ++ [Diagnostics] ++ when (Z.rem t (stats_every cfg) =? 0) PrintStatus.

Lemma ends_next cfg t tend : t < nmax cfg -> time_exceeded cfg (t + 1) = false -> ends_at cfg (t + 1) tend -> ends_at cfg t tend.
Proof.
  intros Ht Hx [[H1 H2]|[H1 [H2 H3]]].
  - subst. right. split; [lia|]. split; [intros; lia|]. left. lia.
  - right. split; [lia|]. split; [|exact H3]. intros u Hu. destruct (Z.eq_dec u (t + 1)); [subst; exact Hx|apply H2; lia].
Qed.

Lemma loop_times cfg : stats_every cfg <> 0 -> forall n t first, nmax cfg - t <= Z.of_nat n ->
  exists tend trace, ends_at cfg t tend /\ time_loop n cfg first t = Some trace /\
  (forall o, o <> Checkpoint -> times o trace = flat_map (fun u => repeat u (occ o (pass_ops cfg u))) (zrange (t + 1) (tend + 1))) /\
  times Checkpoint trace =
    (if write_checkpoint_every_step cfg <=? 0 then []
     else filter (fun u => multiple (write_checkpoint_every_step cfg) u) (zrange (if first then t + 1 else t) tend) ++ [tend]).
Proof.
  intros Hst. induction n as [|n IH]; intros t first Hn; cbn [time_loop].
  - destruct (Z.ltb_spec t (nmax cfg)); [lia|]. exists t, (at_step t (checkpoint_final (write_checkpoint_every_step cfg))).
    split; [left; lia|]. split; [reflexivity|]. split.
    + intros o Ho. rewrite zrange_empty by lia. cbn [flat_map]. rewrite times_at, occ_final by exact Ho. reflexivity.
    + rewrite times_at. unfold checkpoint_final. destruct (_ <=? _); [reflexivity|]. rewrite zrange_empty by (destruct first; lia). reflexivity.
  - destruct (Z.ltb_spec t (nmax cfg)) as [Hlt|Hge].
    2:{ exists t, (at_step t (checkpoint_final (write_checkpoint_every_step cfg))).
        split; [left; lia|]. split; [reflexivity|]. split.
        - intros o Ho. rewrite zrange_empty by lia. cbn [flat_map]. rewrite times_at, occ_final by exact Ho. reflexivity.
        - rewrite times_at. unfold checkpoint_final. destruct (_ <=? _); [reflexivity|].
          rewrite zrange_empty by (destruct first; lia). reflexivity. }
    set (k := write_checkpoint_every_step cfg) in *.
    destruct (checkpointing k first t) as [first' cps] eqn:Ec.
    unfold stats_out, c_mod. destruct (Z.eqb_spec (stats_every cfg) 0); [congruence|].
    set (this := at_step t cps ++ at_step (t + 1) _).
    assert (Hcps : forall o, o <> Checkpoint -> occ o cps = 0%nat).
    { intros o Ho. unfold checkpointing in Ec. destruct (k <=? 0); [injection Ec as <- <-; reflexivity|].
      destruct first; injection Ec as <- <-; [reflexivity|]. rewrite occ_when. destruct (op_eq_dec Checkpoint o); [congruence|].
      destruct (_ =? _); reflexivity. }
    assert (Hthis : forall o, o <> Checkpoint -> times o this = repeat (t + 1) (occ o (pass_ops cfg (t + 1)))).
    { intros o Ho. unfold this. rewrite times_app, !times_at, Hcps by exact Ho. reflexivity. }
    assert (Hpass0 : occ Checkpoint (pass_ops cfg (t + 1)) = 0%nat).
    { unfold pass_ops, step_ops. rewrite !occ_app, !occ_when, !occ_repeat. cbn.
      destruct (due (marder_interval cfg) (t + 1)); rewrite ?occ_repeat; cbn;
        repeat match goal with |- context [if ?b then 0%nat else 0%nat] => destruct b end; reflexivity. }
    assert (Hcp : times Checkpoint this =
        if k <=? 0 then [] else if first then [] else filter (fun u => multiple k u) [t]).
    { unfold this. rewrite times_app, !times_at. fold (pass_ops cfg (t + 1)). rewrite Hpass0. cbn [repeat]. rewrite app_nil_r.
      unfold checkpointing in Ec. destruct (Z.leb_spec k 0); [injection Ec as <- <-; reflexivity|].
      destruct first; injection Ec as <- <-; [reflexivity|]. rewrite occ_when. cbn [filter].
      rewrite <- due_multiple. unfold due. destruct (Z.ltb_spec 0 k); [|lia]. cbn [andb].
      destruct (Z.rem t k =? 0); reflexivity. }
    destruct (time_exceeded cfg (t + 1)) eqn:Ex.
    + exists (t + 1), (this ++ at_step (t + 1) (checkpoint_final k)). split; [right; split; [lia|]; split; [intros; lia|right; exact Ex]|].
      split; [reflexivity|]. split.
      * intros o Ho. rewrite times_app, Hthis by exact Ho. rewrite zrange_cons, zrange_empty by lia. cbn [flat_map]. f_equal.
        rewrite times_at, occ_final by exact Ho. reflexivity.
      * rewrite times_app, Hcp, times_at. unfold checkpoint_final. destruct (k <=? 0); [reflexivity|].
        destruct first; [rewrite zrange_empty by lia; reflexivity|]. rewrite zrange_cons, zrange_empty by lia. reflexivity.
    + destruct (IH (t + 1) first' ltac:(lia)) as [tend [tr [He [El [Ho Hc]]]]]. rewrite El.
      exists tend, (this ++ tr). split; [apply ends_next; assumption|]. split; [reflexivity|].
      assert (t + 1 <= tend) by (destruct He as [[_ ->]|[He _]]; lia). split.
      * intros o Hoc. rewrite times_app, Hthis, Ho by exact Hoc. rewrite (zrange_cons (t + 1)) by lia. reflexivity.
      * rewrite times_app, Hcp, Hc. destruct (Z.leb_spec k 0); [reflexivity|].
        unfold checkpointing in Ec. destruct (Z.leb_spec k 0); [lia|].
        destruct first; injection Ec as <- _; [reflexivity|].
        rewrite (zrange_cons t) by lia. cbn [filter]. destruct (multiple k t); reflexivity.
Qed.

Lemma flat_map_once (f : Z -> nat) l : (forall u, In u l -> f u = 1%nat) -> flat_map (fun u => repeat u (f u)) l = l.
Proof.
  induction l as [|u l IH]; intros H; [reflexivity|]. cbn [flat_map]. rewrite (H u) by now left. cbn. f_equal.
  apply IH. intros v Hv. apply H. now right.
Qed.

Lemma flat_map_filter (f : Z -> nat) (g : Z -> bool) l : (forall u, f u = if g u then 1%nat else 0%nat) ->
  flat_map (fun u => repeat u (f u)) l = filter g l.
Proof. intros H. induction l as [|u l IH]; [reflexivity|]. cbn [flat_map filter]. rewrite H, IH. destruct (g u); reflexivity. Qed.

Lemma occ_pass cfg t o : occ o (pass_ops cfg t) =
  match o with
  | Balance => if balance_due cfg t then 1 else 0
  | Sort => if multiple (sort_interval cfg) t then 1 else 0
  | Collide => if multiple (collision_interval cfg) t then 1 else 0
  | ContinuityBefore | ContinuityAfter => if multiple (continuity_interval cfg) t then 1 else 0
  | Gauss => if multiple (gauss_interval cfg) t then 1 else 0
  | Marder => if multiple (marder_interval cfg) t then n_correctors cfg else 0
  | Inject => n_injectors cfg
  | ExternalCurrent => n_currents cfg
  | PushH | WallH | FillGhostsH => 2
  | PrintStatus => if (Z.rem t (stats_every cfg) =? 0)%Z then 1 else 0
  | Checkpoint => 0
  | _ => 1
  end%nat.
Proof.
  unfold pass_ops, step_ops. rewrite !occ_app, !occ_when, !occ_repeat, !due_multiple.
  replace (occ o (if multiple (marder_interval cfg) t then repeat Marder (n_correctors cfg) else []))
    with (if multiple (marder_interval cfg) t then if op_eq_dec Marder o then n_correctors cfg else 0%nat else 0%nat)
    by (destruct (multiple (marder_interval cfg) t); [rewrite occ_repeat|]; reflexivity).
  destruct o; cbn;
    repeat match goal with |- context [if ?b then _ else _] => destruct b end; cbn; lia.
Qed.

Definition balance_wanted (cfg : config) (t : Z) : bool :=
  (0 <? balance_interval cfg) && (multiple (balance_interval cfg) t || mem_exceeded cfg t).

Lemma balance_due_wanted cfg t : balance_due cfg t = balance_wanted cfg t.
Proof.
  unfold balance_due, balance_wanted. rewrite <- due_multiple. unfold due. destruct (0 <? balance_interval cfg); reflexivity.
Qed.

Lemma integrate_times cfg t0 : stats_every cfg <> 0 -> exists tend trace,
  ends_at cfg t0 tend /\ integrate (Z.to_nat (nmax cfg - t0)) cfg t0 = Some trace /\
  times PushParticles trace = zrange (t0 + 1) (tend + 1) /\
  times PushE trace = zrange (t0 + 1) (tend + 1) /\
  times PushH trace = flat_map (fun t => [t; t]) (zrange (t0 + 1) (tend + 1)) /\
  times BndParticles trace = zrange (t0 + 1) (tend + 1) /\
  times Diagnostics trace = zrange t0 (tend + 1) /\
  times Balance trace = filter (balance_wanted cfg) (zrange (t0 + 1) (tend + 1)) /\
  times Sort trace = filter (multiple (sort_interval cfg)) (zrange (t0 + 1) (tend + 1)) /\
  times Collide trace = filter (multiple (collision_interval cfg)) (zrange (t0 + 1) (tend + 1)) /\
  times ContinuityBefore trace = filter (multiple (continuity_interval cfg)) (zrange (t0 + 1) (tend + 1)) /\
  times ContinuityAfter trace = filter (multiple (continuity_interval cfg)) (zrange (t0 + 1) (tend + 1)) /\
  times Inject trace = flat_map (fun t => repeat t (n_injectors cfg)) (zrange (t0 + 1) (tend + 1)) /\
  times ExternalCurrent trace = flat_map (fun t => repeat t (n_currents cfg)) (zrange (t0 + 1) (tend + 1)) /\
  times Marder trace =
    flat_map (fun t => repeat t (n_correctors cfg)) (filter (multiple (marder_interval cfg)) (zrange (t0 + 1) (tend + 1))) /\
  times Gauss trace = filter (multiple (gauss_interval cfg)) (zrange t0 (tend + 1)) /\
  times Checkpoint trace =
    (if write_checkpoint_every_step cfg <=? 0 then []
     else filter (multiple (write_checkpoint_every_step cfg)) (zrange (t0 + 1) tend) ++ [tend]).
Proof.
  intros Hst. destruct (loop_times cfg Hst (Z.to_nat (nmax cfg - t0)) t0 true ltac:(lia)) as [tend [tr [He [El [Ho Hc]]]]].
  unfold integrate. rewrite El. eexists tend, _. split; [exact He|]. split; [reflexivity|].
  assert (Hle : t0 <= tend) by (destruct He as [[_ ->]|[He _]]; lia).
  assert (Hpre : forall o, times o (at_step t0 (pre_first_step cfg t0 ++ [Diagnostics; PrintStatus])) =
    repeat t0 (occ o (pre_first_step cfg t0 ++ [Diagnostics; PrintStatus]))) by (intros; apply times_at).
  assert (Hocc : forall o, occ o (pre_first_step cfg t0 ++ [Diagnostics; PrintStatus]) =
    match o with
    | WallH | FillGhostsH | FillGhostsJ | WallE | FillGhostsE | Diagnostics | PrintStatus => 1
    | Gauss => if multiple (gauss_interval cfg) t0 then 1 else 0
    | _ => 0
    end%nat).
  { intros o. unfold pre_first_step. rewrite !occ_app, occ_when, !due_multiple.
    replace (multiple (gauss_interval cfg) 0 && multiple (gauss_interval cfg) t0) with (multiple (gauss_interval cfg) t0).
    2:{ unfold multiple. rewrite Zmod_0_l. cbn. destruct (0 <? gauss_interval cfg); reflexivity. }
    destruct o; cbn; try (destruct (multiple (gauss_interval cfg) t0)); reflexivity. }
  repeat match goal with |- _ /\ _ => split end; rewrite times_app, Hpre, Hocc; cbn [repeat app];
    try (rewrite Ho by discriminate); try (rewrite Hc; reflexivity).
  - apply flat_map_once. intros u _. apply (occ_pass cfg u PushParticles).
  - apply flat_map_once. intros u _. apply (occ_pass cfg u PushE).
  - apply flat_map_ext; intros u; rewrite (occ_pass cfg u PushH); reflexivity.
  - apply flat_map_once. intros u _. apply (occ_pass cfg u BndParticles).
  - rewrite (zrange_cons t0) by lia. f_equal. apply flat_map_once. intros u _. apply (occ_pass cfg u Diagnostics).
  - apply flat_map_filter. intros u. rewrite (occ_pass cfg u Balance), balance_due_wanted. reflexivity.
  - apply flat_map_filter. intros u. apply (occ_pass cfg u Sort).
  - apply flat_map_filter. intros u. apply (occ_pass cfg u Collide).
  - apply flat_map_filter. intros u. apply (occ_pass cfg u ContinuityBefore).
  - apply flat_map_filter. intros u. apply (occ_pass cfg u ContinuityAfter).
  - apply flat_map_ext. intros u. rewrite (occ_pass cfg u Inject); reflexivity.
  - apply flat_map_ext. intros u. rewrite (occ_pass cfg u ExternalCurrent); reflexivity.
  - clear - cfg. induction (zrange (t0 + 1) (tend + 1)) as [|u l IH]; [reflexivity|]. cbn [flat_map filter].
    rewrite (occ_pass cfg u Marder), IH. destruct (multiple (marder_interval cfg) u); reflexivity.
  - rewrite (zrange_cons t0) by lia. cbn [filter].
    rewrite (flat_map_filter _ (multiple (gauss_interval cfg))) by (intros u; apply (occ_pass cfg u Gauss)).
    destruct (multiple (gauss_interval cfg) t0); reflexivity.
Qed.

(** ** Restart and crash *)


(** checkpoints of a run from t0 to its end *)
Definition checkpoints (k t0 tend : Z) : list Z := filter (multiple k) (zrange (t0 + 1) tend) ++ [tend].

Lemma filter_none {A} (f : A -> bool) l : (forall x, In x l -> f x = false) -> filter f l = [].
Proof. induction l as [|x l IH]; intros H; [reflexivity|]. cbn. rewrite (H x) by now left. apply IH. intros y Hy. apply H. now right. Qed.

Lemma filter_all {A} (f : A -> bool) l : (forall x, In x l -> f x = true) -> filter f l = l.
Proof. induction l as [|x l IH]; intros H; [reflexivity|]. cbn. rewrite (H x) by now left. f_equal. apply IH. intros y Hy. apply H. now right. Qed.

(** a run restarted from a checkpoint at c writes the remaining checkpoints of the
    original run *)
Lemma restart_same k t0 c tend : t0 <= c < tend ->
  checkpoints k c tend = filter (fun t => c <? t) (checkpoints k t0 tend).
Proof.
  intros Hc. unfold checkpoints. rewrite filter_app. f_equal.
  2:{ cbn. destruct (Z.ltb_spec c tend); [reflexivity|lia]. }
  rewrite (zrange_split (t0 + 1) (c + 1) tend) by lia. rewrite filter_app, filter_app.
  rewrite (filter_none _ (filter _ (zrange (t0 + 1) (c + 1)))).
  2:{ intros x Hx. apply filter_In in Hx. destruct Hx as [Hx _]. apply in_zrange in Hx. lia. }
  cbn [app]. symmetry. apply filter_all. intros x Hx. apply filter_In in Hx. destruct Hx as [Hx _]. apply in_zrange in Hx. lia.
Qed.

(** before step s > t0 no more than k steps back there is a checkpoint, unless the
    start is as near *)
Lemma crash_loses k t0 tend s : 0 < k -> t0 < s <= tend ->
  s - t0 <= k \/ exists c, In c (checkpoints k t0 tend) /\ s - k <= c < s.
Proof.
  intros Hk Hs. destruct (Z_le_gt_dec (s - t0) k) as [H|H]; [left; exact H|right].
  exists (k * ((s - 1) / k)). split; [|lia]. unfold checkpoints. apply in_or_app. left. apply filter_In.
  split; [apply in_zrange; lia|]. unfold multiple. rewrite Z.mul_comm, Z_mod_mult. cbn. lia.
Qed.


Lemma ends_unique cfg t0 a b : ends_at cfg t0 a -> ends_at cfg t0 b -> a = b.
Proof.
  intros [[H1 ->]|[H1 [H2 H3]]] [[K1 ->]|[K1 [K2 K3]]]; try lia.
  destruct (Z.lt_trichotomy a b) as [L|[L|L]]; [|exact L|].
  - destruct H3 as [H3|H3]; [lia|]. rewrite K2 in H3 by lia. discriminate.
  - destruct K3 as [K3|K3]; [lia|]. rewrite H2 in K3 by lia. discriminate.
Qed.

Lemma ends_later cfg t0 c tend : ends_at cfg t0 tend -> t0 <= c < tend -> ends_at cfg c tend.
Proof.
  intros [[H1 ->]|[H1 [H2 H3]]] Hc; [lia|]. right. split; [lia|]. split; [intros t Ht; apply H2; lia|exact H3].
Qed.

Lemma restart_trace cfg t0 tend c : stats_every cfg <> 0 -> ends_at cfg t0 tend -> t0 <= c < tend ->
  exists trace trace', integrate (Z.to_nat (nmax cfg - t0)) cfg t0 = Some trace /\
    integrate (Z.to_nat (nmax cfg - c)) cfg c = Some trace' /\ ends_at cfg c tend /\
    times Checkpoint trace' = filter (fun t => c <? t) (times Checkpoint trace).
Proof.
  intros Hs He Hc. pose proof (ends_later _ _ _ _ He Hc) as He'.
  destruct (integrate_times cfg t0 Hs) as [e [tr [E1 [I1 T1]]]]. destruct (integrate_times cfg c Hs) as [e' [tr' [E2 [I2 T2]]]].
  pose proof (ends_unique _ _ _ _ He E1). pose proof (ends_unique _ _ _ _ He' E2). subst e e'.
  exists tr, tr'. split; [exact I1|]. split; [exact I2|]. split; [exact He'|].
  destruct T1 as (_&_&_&_&_&_&_&_&_&_&_&_&_&_&T1). destruct T2 as (_&_&_&_&_&_&_&_&_&_&_&_&_&_&T2). rewrite T1, T2.
  destruct (_ <=? _); [reflexivity|]. apply (restart_same _ t0 c tend Hc).
Qed.

Lemma crash_trace cfg t0 tend s : stats_every cfg <> 0 -> 0 < write_checkpoint_every_step cfg ->
  ends_at cfg t0 tend -> t0 < s <= tend ->
  exists trace, integrate (Z.to_nat (nmax cfg - t0)) cfg t0 = Some trace /\
  (s - t0 <= write_checkpoint_every_step cfg \/
   exists c, In c (times Checkpoint trace) /\ s - write_checkpoint_every_step cfg <= c < s).
Proof.
  intros Hs Hk He Hc. destruct (integrate_times cfg t0 Hs) as [e [tr [E1 [I1 T1]]]].
  pose proof (ends_unique _ _ _ _ He E1). subst e. exists tr. split; [exact I1|].
  destruct T1 as (_&_&_&_&_&_&_&_&_&_&_&_&_&_&T1). rewrite T1. destruct (Z.leb_spec (write_checkpoint_every_step cfg) 0); [lia|].
  apply crash_loses; assumption.
Qed.

(** ** the order within a step *)

Lemma ops_at_app t a b : ops_at t (a ++ b) = ops_at t a ++ ops_at t b.
Proof. unfold ops_at. rewrite filter_app, map_app. reflexivity. Qed.

Lemma ops_at_step t u l : ops_at t (at_step u l) = if u =? t then l else [].
Proof.
  unfold ops_at, at_step. induction l as [|o l IH]; cbn [map filter fst]; [destruct (u =? t); reflexivity|].
  destruct (u =? t); cbn [map snd]; rewrite IH; reflexivity.
Qed.

Lemma when_repeat b o : when b o = repeat o (if b then 1 else 0).
Proof. destruct b; reflexivity. Qed.

Lemma follows_step cfg t st n : follows documented ((step_ops cfg t ++ [Diagnostics] ++ when st PrintStatus) ++ repeat Checkpoint n).
Proof.
  unfold step_ops. rewrite !when_repeat, <- !app_assoc.
  replace (if due (marder_interval cfg) t then repeat Marder (n_correctors cfg) else [])
    with (repeat Marder (if due (marder_interval cfg) t then n_correctors cfg else O)) by (destruct (due _ _); reflexivity).
  cbn [documented follows]. do 4 (eexists _, _; split; [reflexivity|]).
  exists 1%nat. eexists. split; [reflexivity|]. do 2 (eexists _, _; split; [reflexivity|]).
  do 10 (exists 1%nat; eexists; split; [reflexivity|]). eexists _, _; split; [reflexivity|].
  do 3 (exists 1%nat; eexists; split; [reflexivity|]). do 2 (eexists _, _; split; [reflexivity|]).
  exists 1%nat; eexists; split; [reflexivity|]. eexists _, _; split; [reflexivity|]. exists n, []. split; [rewrite app_nil_r; reflexivity|reflexivity].
Qed.

Lemma follows_nil : follows documented [].
Proof. cbn [documented follows]. repeat (exists O, []; split; [reflexivity|]). reflexivity. Qed.

Lemma loop_follows cfg : forall fuel ft t r, time_loop fuel cfg ft t = Some r ->
  (exists n, ops_at t r = repeat Checkpoint n) /\ (forall u, u < t -> ops_at u r = []) /\ (forall u, t < u -> follows documented (ops_at u r)).
Proof.
  assert (F : forall t, (exists n, ops_at t (at_step t (checkpoint_final (write_checkpoint_every_step cfg))) = repeat Checkpoint n) /\
     (forall u, u <> t -> ops_at u (at_step t (checkpoint_final (write_checkpoint_every_step cfg))) = [])).
  { intros t. split.
    - rewrite ops_at_step, Z.eqb_refl. unfold checkpoint_final. destruct (_ <=? _); [exists O|exists 1%nat]; reflexivity.
    - intros u H. rewrite ops_at_step. destruct (Z.eqb_spec t u); [lia|reflexivity]. }
  induction fuel as [|fuel IH]; intros ft t r H; cbn [time_loop] in H; (destruct (t <? nmax cfg); [|injection H as <-]).
  1: discriminate.
  1, 3: destruct (F t) as [F1 F2]; split; [exact F1|]; split; [intros u Hu; apply F2; lia|]; intros u Hu; rewrite F2 by lia; apply follows_nil.
  destruct (checkpointing _ ft t) as [ft' cps] eqn:EC. destruct (stats_out _ _) as [st|]; [|discriminate].
  assert (CP : exists n, cps = repeat Checkpoint n).
  { unfold checkpointing in EC. destruct (_ <=? _); [injection EC as <- <-; exists O; reflexivity|].
    destruct ft; [injection EC as <- <-; exists O; reflexivity|]. injection EC as <- <-.
    destruct (_ =? _); [exists 1%nat|exists O]; reflexivity. }
  destruct CP as [n ->].
  set (ops := step_ops cfg (t + 1) ++ [Diagnostics] ++ when st PrintStatus) in *.
  assert (G : forall rest, r = (at_step t (repeat Checkpoint n) ++ at_step (t + 1) ops) ++ rest ->
    (exists n, ops_at (t + 1) rest = repeat Checkpoint n) -> (forall u, u < t + 1 -> ops_at u rest = []) -> (forall u, t + 1 < u -> follows documented (ops_at u rest)) ->
    (exists n, ops_at t r = repeat Checkpoint n) /\ (forall u, u < t -> ops_at u r = []) /\ (forall u, t < u -> follows documented (ops_at u r))).
  { intros rest -> [m R1] R2 R3. split; [|split].
    - exists n. rewrite !ops_at_app, !ops_at_step, Z.eqb_refl, R2 by lia. destruct (Z.eqb_spec (t + 1) t); [lia|]. rewrite !app_nil_r. reflexivity.
    - intros u Hu. rewrite !ops_at_app, !ops_at_step, R2 by lia. destruct (Z.eqb_spec t u), (Z.eqb_spec (t + 1) u); try lia. reflexivity.
    - intros u Hu. rewrite !ops_at_app, !ops_at_step. destruct (Z.eqb_spec t u); [lia|]. cbn [app]. destruct (Z.eqb_spec (t + 1) u) as [<-|].
      + rewrite R1. apply follows_step.
      + cbn [app]. apply R3. lia. }
  destruct (time_exceeded cfg (t + 1)).
  - injection H as <-. eapply G; [reflexivity|apply F| |]; [intros u Hu; apply F; lia|]. intros u Hu. rewrite (proj2 (F (t + 1))) by lia. apply follows_nil.
  - destruct (time_loop fuel cfg ft' (t + 1)) as [r'|] eqn:E; [|discriminate]. injection H as <-. destruct (IH _ _ _ E) as [A [B C]].
    eapply G; [reflexivity|exact A|exact B|exact C].
Qed.

Lemma run_follows cfg n t0 trace : integrate n cfg t0 = Some trace -> forall t, t0 < t -> follows documented (ops_at t trace).
Proof.
  intros H t Ht. unfold integrate in H. destruct (time_loop n cfg true t0) as [r|] eqn:E; [|discriminate].
  apply (f_equal (fun x => match x with Some y => y | None => [] end)) in H. cbv beta iota in H. subst trace.
  rewrite ops_at_app, ops_at_step. destruct (Z.eqb_spec t0 t); [lia|]. cbn [app]. apply (loop_follows _ _ _ _ _ E). exact Ht.
Qed.
