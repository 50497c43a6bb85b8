From Coq Require Import Reals Lra.
From Verif Require Import Base OutputModel CollisionProofs.
Local Open Scope Z_scope.

(** ** Vocabulary *)

Definition Rsum (l : list R) : R := fold_right Rplus 0%R l.

(** the sampling steps of the window that ends at step t, in a run from step t0:
    at most [length] steps back, not reaching the previous output, every [sample]-th *)
Definition window (t0 interval length sample t : Z) : list Z :=
  filter (fun t' => (t - t' <? length) && (t - t' <? interval) && ((t - t') mod sample =? 0)) (zrange t0 (t + 1)).

Definition mean {X} (item : Z -> X -> R) (ts : list Z) (x : X) : R :=
  (Rsum (map (fun t => item t x) ts) / INR (length ts))%R.

(** equality of what is written *)
Definition same_output {X} (a b : output X) : Prop :=
  match a, b with
  | Pfd t f, Pfd t' f' | Tfd t f, Tfd t' f' => t = t' /\ forall x, f x = f' x
  | _, _ => False
  end.

(** at step 0 the averaged field is written (after a sample) or not at all *)
Definition accum_at_0 (k L s : Z) : bool := (k =? 1) || ((k <? L) && (k mod s =? 0)).

(** what a run over the steps [ts] starting at t0 should write *)
Definition expected {X} (p : Z) (tf : tfield_prm) (item : Z -> X -> R) (t0 : Z) (ts : list Z) : list (output X) :=
  let k := out_interval tf in
  flat_map (fun t =>
    (if (0 <? p) && (t mod p =? 0) then [Pfd t (item t)] else []) ++
    (if (t mod k =? 0) && ((0 <? t) || accum_at_0 k (average_length tf) (sample_interval tf))
     then [Tfd t (mean item (window t0 k (average_length tf) (sample_interval tf) t))] else [])) ts.

(** ** Proofs *)

Lemma Rsum_snoc l a : Rsum (l ++ [a]) = (Rsum l + a)%R.
Proof. induction l as [|x l IH]; cbn; [ring|]. unfold Rsum in *. rewrite IH. ring. Qed.

Lemma do_out_mod k t : 0 <= t -> do_out k t = Some ((0 <? k) && (t mod k =? 0)).
Proof.
  intros Ht. unfold do_out, enabled, c_mod. destruct (Z.ltb_spec 0 k) as [H|H]; [|reflexivity].
  destruct (Z.eqb_spec k 0); [lia|]. rewrite Z.rem_mod_nonneg by lia. reflexivity.
Qed.

Definition next_out (k t : Z) : Z := k * ((t - 1) / k + 1).
Definition acc (k L s t : Z) : bool := (next_out k t - t <? L) && ((next_out k t - t) mod s =? 0).

Lemma next_out_spec k t : 0 < k -> t <= next_out k t < t + k /\ next_out k t mod k = 0.
Proof.
  intros Hk. unfold next_out. split.
  - pose proof (Z.div_mod (t - 1) k ltac:(lia)). pose proof (Z.mod_pos_bound (t - 1) k Hk).
    rewrite Z.mul_add_distr_l. lia.
  - rewrite Z.mul_comm. apply Z.mod_mul. lia.
Qed.

Lemma next_out_unique k t u : 0 < k -> u mod k = 0 -> t <= u < t + k -> next_out k t = u.
Proof.
  intros Hk Hu Ht. destruct (next_out_spec k t Hk) as [H1 H2].
  apply Z.mod_divide in Hu, H2; try lia. destruct Hu as [a ->], H2 as [b E]. rewrite E in *.
  assert (a = b); [|subst; reflexivity].
  destruct (Z.lt_trichotomy a b) as [H|[H|H]]; [exfalso|exact H|exfalso].
  - assert ((a + 1) * k <= b * k) by (apply Z.mul_le_mono_nonneg_r; lia). lia.
  - assert ((b + 1) * k <= a * k) by (apply Z.mul_le_mono_nonneg_r; lia). lia.
Qed.

Lemma do_accum_pos k L s t : 0 < k -> 0 < s -> 1 <= t -> do_accum (Tfield k L s) t = Some (acc k L s t).
Proof.
  intros Hk Hs Ht. unfold do_accum, c_div, c_mod, enabled, acc. cbn [out_interval average_length sample_interval].
  destruct (Z.eqb_spec k 0); [lia|]. rewrite Z.quot_div_nonneg by lia. fold (next_out k t).
  destruct (Z.eqb_spec s 0); [lia|]. pose proof (next_out_spec k t Hk) as [H _]. rewrite Z.rem_mod_nonneg by lia.
  destruct (Z.ltb_spec 0 k); [|lia]. reflexivity.
Qed.

Lemma do_accum_0 k L s : 0 < k -> 0 < s -> 1 <= L -> do_accum (Tfield k L s) 0 = Some (accum_at_0 k L s).
Proof.
  intros Hk Hs HL. unfold do_accum, c_div, c_mod, enabled, accum_at_0. cbn [out_interval average_length sample_interval].
  destruct (Z.eqb_spec k 0); [lia|]. destruct (Z.ltb_spec 0 k); [|lia]. destruct (Z.eqb_spec s 0); [lia|].
  destruct (Z.eqb_spec k 1) as [->|Hk1].
  - change (Z.quot (0 - 1) 1) with (-1). change (1 * (-1 + 1) - 0) with 0. rewrite Z.rem_0_l by lia.
    destruct (Z.ltb_spec 0 L); [reflexivity|lia].
  - assert (E : Z.quot (0 - 1) k = 0).
    { change (0 - 1) with (- (1)). rewrite Z.quot_opp_l by lia. rewrite Z.quot_small by lia. reflexivity. }
    rewrite E. replace (k * (0 + 1) - 0) with k by lia. rewrite Z.rem_mod_nonneg by lia. reflexivity.
Qed.

Section Run.
  Context {X : Type}.
  Variables (p k L s t0 : Z) (item : Z -> X -> R).
  Hypothesis Hk : 0 < k.
  Hypothesis HL : 1 <= L.
  Hypothesis Hs : 1 <= s.
  Hypothesis Ht0 : 0 <= t0.
  Hypothesis Hfirst : t0 = 0 -> p <= 0 \/ accum_at_0 k L s = true.
  Let tf := Tfield k L s.

  (** samples since the last output, after step t *)
  Definition pending (t : Z) : list Z := filter (acc k L s) (zrange (Z.max t0 (k * (t / k) + 1)) (t + 1)).

  Definition inv (st : item_state X) (t : Z) : Prop :=
    naccum_ st = Z.of_nat (length (pending t)) /\
    match tfd_ st with
    | None => pending t = []
    | Some f => forall x, f x = Rsum (map (fun t' => item t' x) (pending t))
    end.

  Lemma acc_inv st t pend pend' : naccum_ st = Z.of_nat (length pend) ->
    match tfd_ st with None => pend = [] | Some f => forall x, f x = Rsum (map (fun t' => item t' x) pend) end ->
    pend' = pend ++ [t] ->
    naccum_ (accumulate st (item t)) = Z.of_nat (length pend') /\
    exists f, tfd_ (accumulate st (item t)) = Some f /\ forall x, f x = Rsum (map (fun t' => item t' x) pend').
  Proof.
    intros Hn Hf ->. unfold accumulate. cbn [naccum_ tfd_]. split; [rewrite app_length; cbn; lia|].
    eexists. split; [reflexivity|]. intros x. rewrite map_app. cbn [map]. rewrite Rsum_snoc.
    destruct (tfd_ st) as [f|]; [rewrite Hf; reflexivity|]. rewrite Hf. cbn. ring.
  Qed.

  (** the step before the one considered *)
  Lemma pending_next t : 0 <= t -> t0 <= t + 1 -> (t + 1) mod k <> 0 ->
    pending (t + 1) = pending t ++ (if acc k L s (t + 1) then [t + 1] else []).
  Proof.
    intros Ht Htt Hm. unfold pending.
    assert (E : (t + 1) / k = t / k).
    { symmetry. apply Z.div_unique_pos with (r := t mod k + 1).
      - pose proof (Z.mod_pos_bound t k Hk). split; [lia|]. assert (t mod k + 1 <> k); [|lia]. intros E. apply Hm.
        apply Z.mod_divide; [lia|]. exists (t / k + 1). pose proof (Z.div_mod t k ltac:(lia)). lia.
      - pose proof (Z.div_mod t k ltac:(lia)). lia. }
    rewrite E. rewrite (zrange_split (Z.max t0 (k * (t / k) + 1)) (t + 1) (t + 1 + 1)).
    - rewrite filter_app. f_equal. rewrite zrange_cons, zrange_empty by lia. cbn [filter]. reflexivity.
    - split; [|lia]. apply Z.max_lub; [lia|]. pose proof (Z.mul_div_le t k Hk). lia.
  Qed.

  Lemma window_pending u : 1 <= u -> t0 <= u -> u mod k = 0 ->
    window t0 k L s u = filter (acc k L s) (zrange (Z.max t0 (k * ((u - 1) / k) + 1)) (u + 1)).
  Proof.
    intros Hu Hut Hm. unfold window.
    assert (E : k * ((u - 1) / k) + 1 = u - k + 1).
    { pose proof (next_out_unique k u u Hk Hm ltac:(lia)) as H. unfold next_out in H. lia. }
    rewrite E. rewrite (zrange_split t0 (Z.max t0 (u - k + 1)) (u + 1)) by lia.
    rewrite filter_app.
    match goal with |- ?a ++ ?b = _ => assert (Ea : a = []) end.
    { match goal with |- filter ?g ?l = [] => destruct (filter g l) as [|x r] eqn:F; [reflexivity|exfalso];
        assert (Hin : In x (filter g l)) by (rewrite F; now left) end.
      apply filter_In in Hin. destruct Hin as [Hin Hg]. apply in_zrange in Hin.
      destruct (Z.ltb_spec (u - x) k); [lia|]. rewrite andb_false_r in Hg. discriminate. }
    rewrite Ea. cbn [app]. apply filter_ext_in. intros x Hx. apply in_zrange in Hx. unfold acc.
    rewrite (next_out_unique k x u) by (try assumption; lia). destruct (Z.ltb_spec (u - x) k); [|lia].
    rewrite andb_true_r. reflexivity.
  Qed.

  Lemma write_ok st t pend : pend <> [] -> naccum_ st = Z.of_nat (length pend) ->
    (exists f, tfd_ st = Some f /\ forall x, f x = Rsum (map (fun t' => item t' x) pend)) ->
    exists g, write_mean st t = Some (ItemState (Some (fun _ => 0%R)) 0, Tfd t g) /\ forall x, g x = mean item pend x.
  Proof.
    intros Hp Hn [f [Ef Hf]]. unfold write_mean. rewrite Ef.
    assert (0 < naccum_ st) by (rewrite Hn; destruct pend; [congruence|cbn; lia]).
    destruct (Z.eqb_spec (naccum_ st) 0); [lia|]. eexists. split; [reflexivity|]. intros x. unfold mean.
    rewrite Hf, Hn, <- INR_IZR_INZ. unfold Rdiv. ring.
  Qed.

  (** one call *)
  Lemma diag_ok st t : 1 <= t -> t0 <= t -> inv st (t - 1) -> exists st' os,
    perform_diagnostic p tf st t (item t) = Some (st', os) /\ inv st' t /\
    Forall2 same_output os (expected p tf item t0 [t]).
  Proof.
    intros Ht Ht0' [Hn Hf]. unfold perform_diagnostic. rewrite !do_out_mod by lia.
    unfold tf. rewrite do_accum_pos by lia. unfold expected. cbn [out_interval average_length sample_interval flat_map].
    rewrite app_nil_r. destruct (Z.ltb_spec 0 k); [|lia]. destruct (Z.ltb_spec 0 t); [|lia]. cbn [andb orb].
    destruct (Z.eqb_spec (t mod k) 0) as [Hm|Hm].
    - (* output step *)
      assert (Ea : acc k L s t = true).
      { unfold acc. rewrite (next_out_unique k t t Hk Hm) by lia. rewrite Z.sub_diag, Z.mod_0_l by lia.
        destruct (Z.ltb_spec 0 L); [reflexivity|lia]. }
      rewrite Ea, orb_true_r. cbn [andb].
      assert (Ew : window t0 k L s t = pending (t - 1) ++ [t]).
      { rewrite window_pending by assumption. unfold pending.
        rewrite (zrange_split (Z.max t0 (k * ((t - 1) / k) + 1)) t (t + 1)).
        - rewrite filter_app. replace (t - 1 + 1) with t by lia. f_equal. rewrite zrange_cons, zrange_empty by lia.
          cbn [filter]. rewrite Ea. reflexivity.
        - split; [|lia]. apply Z.max_lub; [lia|]. pose proof (Z.mul_div_le (t - 1) k Hk). lia. }
      destruct (acc_inv st t (pending (t - 1)) (window t0 k L s t) Hn Hf Ew) as [Hn' Hf'].
      destruct (write_ok (accumulate st (item t)) t (window t0 k L s t)) as [g [Eg Hg]]; [|exact Hn'|exact Hf'|].
      { rewrite Ew. destruct (pending (t - 1)); discriminate. }
      rewrite Eg. eexists _, _. split; [reflexivity|]. split.
      + unfold inv. cbn [naccum_ tfd_].
        assert (E : pending t = []).
        { unfold pending. rewrite zrange_empty; [reflexivity|]. apply Z.mod_divide in Hm; [|lia]. destruct Hm as [q ->].
          rewrite Z.div_mul by lia. lia. }
        rewrite E. cbn. split; reflexivity.
      + apply Forall2_app; [|constructor; [cbn; auto|constructor]].
        destruct ((0 <? p) && (t mod p =? 0)); constructor; [cbn; auto|constructor].
    - (* between *)
      cbn [andb]. rewrite app_nil_r.
      pose proof (pending_next (t - 1) ltac:(lia)) as Hpn. replace (t - 1 + 1) with t in Hpn by lia.
      specialize (Hpn Ht0' Hm).
      destruct (acc k L s t) eqn:Ea.
      + rewrite orb_true_r. destruct (acc_inv st t (pending (t - 1)) (pending t) Hn Hf Hpn) as [Hn' [f [Ef Hf']]].
        eexists _, _. split; [reflexivity|]. split; [split; [exact Hn'|rewrite Ef; exact Hf']|].
        destruct ((0 <? p) && (t mod p =? 0)); constructor; [cbn; auto|constructor].
      + rewrite orb_false_r. rewrite app_nil_r in Hpn.
        assert (Hi : inv st t) by (split; rewrite Hpn; assumption).
        destruct ((0 <? p) && (t mod p =? 0)); eexists _, _; (split; [reflexivity|]); (split; [exact Hi|]); repeat constructor.
  Qed.

  Lemma expected_cons t ts : expected p tf item t0 (t :: ts) = expected p tf item t0 [t] ++ expected p tf item t0 ts.
  Proof. unfold expected. cbn [flat_map]. rewrite app_nil_r. reflexivity. Qed.

  Lemma run_from n : forall t st, 1 <= t -> t0 <= t -> inv st (t - 1) -> exists os,
    run_item p tf item st (zrange t (t + Z.of_nat n)) = Some os /\
    Forall2 same_output os (expected p tf item t0 (zrange t (t + Z.of_nat n))).
  Proof.
    induction n as [|n IH]; intros t st Ht Htt Hi.
    - rewrite zrange_empty by lia. exists []. split; [reflexivity|constructor].
    - rewrite zrange_cons by lia. destruct (diag_ok st t Ht Htt Hi) as [st' [os [E [Hi' Ho]]]].
      cbn [run_item]. rewrite E.
      destruct (IH (t + 1) st' ltac:(lia) ltac:(lia)) as [os' [E' Ho']]; [replace (t + 1 - 1) with t by lia; exact Hi'|].
      replace (t + 1 + Z.of_nat n) with (t + Z.of_nat (S n)) in E', Ho' by lia. rewrite E'. eexists. split; [reflexivity|].
      rewrite expected_cons. apply Forall2_app; assumption.
  Qed.

  Lemma pending_0 : pending 0 = [].
  Proof. unfold pending. rewrite Z.div_0_l, zrange_empty by lia. reflexivity. Qed.

  Lemma run_all n : exists os, run_item p tf item item_init (zrange t0 (t0 + Z.of_nat n)) = Some os /\
    Forall2 same_output os (expected p tf item t0 (zrange t0 (t0 + Z.of_nat n))).
  Proof.
    destruct (Z.eq_dec t0 0) as [E0|N0].
    - destruct n as [|n]; [rewrite zrange_empty by lia; exists []; split; [reflexivity|constructor]|].
      rewrite zrange_cons by lia. rewrite expected_cons. cbn [run_item].
      assert (Step : exists st' os, perform_diagnostic p tf item_init t0 (item t0) = Some (st', os) /\ inv st' t0 /\
        Forall2 same_output os (expected p tf item t0 [t0])).
      { rewrite E0. unfold perform_diagnostic. rewrite !do_out_mod by lia. unfold tf. rewrite do_accum_0 by lia.
        unfold expected. cbn [out_interval average_length sample_interval flat_map]. rewrite app_nil_r.
        rewrite !Zmod_0_l. destruct (Z.ltb_spec 0 k); [|lia]. change (0 <? 0) with false. change (0 =? 0) with true. cbn [andb orb].
        rewrite andb_true_r.
        assert (Ew : window 0 k L s 0 = [0]).
        { unfold window. change (0 + 1) with 1. change (zrange 0 1) with [0]. cbn [filter]. change (0 - 0) with 0.
          rewrite Zmod_0_l. destruct (Z.ltb_spec 0 L), (Z.ltb_spec 0 k); try lia. reflexivity. }
        destruct (accum_at_0 k L s) eqn:Ea.
        - rewrite orb_true_r.
          destruct (acc_inv item_init 0 [] [0] eq_refl eq_refl eq_refl) as [Hn Hf].
          destruct (write_ok (accumulate item_init (item 0)) 0 [0]) as [g [Eg Hg]]; [discriminate|exact Hn|exact Hf|].
          rewrite Eg. eexists _, _. split; [reflexivity|]. split.
          + unfold inv. rewrite pending_0. cbn. auto.
          + apply Forall2_app; [destruct (0 <? p); repeat constructor|]. constructor; [cbn [same_output]; rewrite Ew; auto|constructor].
        - destruct (Hfirst E0) as [Hp|Hc]; [|congruence]. destruct (Z.ltb_spec 0 p); [lia|]. cbn [orb].
          eexists _, _. split; [reflexivity|]. split; [|constructor].
          unfold inv, item_init. cbn [naccum_ tfd_]. rewrite pending_0. auto. }
      destruct Step as [st' [os [E [Hi Ho]]]]. rewrite E.
      destruct (run_from n (t0 + 1) st' ltac:(lia) ltac:(lia)) as [os' [E' Ho']]; [replace (t0 + 1 - 1) with t0 by lia; exact Hi|].
      replace (t0 + 1 + Z.of_nat n) with (t0 + Z.of_nat (S n)) in E', Ho' by lia. rewrite E'. eexists. split; [reflexivity|].
      apply Forall2_app; assumption.
    - apply run_from; [lia|lia|]. unfold inv, item_init. cbn [naccum_ tfd_].
      assert (E : pending (t0 - 1) = []).
      { unfold pending. rewrite zrange_empty; [reflexivity|]. lia. }
      rewrite E. auto.
  Qed.
End Run.

(** every window contains its last step: none is empty *)
Lemma window_last t0 k L s t : 0 < k -> 1 <= L -> 1 <= s -> t0 <= t -> In t (window t0 k L s t).
Proof.
  intros. unfold window. apply filter_In. split; [apply in_zrange; lia|]. rewrite Z.sub_diag, Z.mod_0_l by lia.
  destruct (Z.ltb_spec 0 L), (Z.ltb_spec 0 k); try lia; try reflexivity.
Qed.

Lemma window_in t0 k L s t t' : 0 < s ->
  (In t' (window t0 k L s t) <-> t0 <= t' <= t /\ t - t' < L /\ t - t' < k /\ (s | t - t')).
Proof.
  intros Hs. unfold window. rewrite filter_In, in_zrange, !andb_true_iff, !Z.ltb_lt, Z.eqb_eq.
  rewrite Z.mod_divide by lia. intuition lia.
Qed.

Lemma window_nodup t0 k L s t : NoDup (window t0 k L s t).
Proof. apply NoDup_filter, NoDup_zrange. Qed.

(** two windows of a run do not overlap *)
Lemma windows_disjoint t0 k L s t u t' : 0 < k -> 0 < s -> t mod k = 0 -> u mod k = 0 -> t <> u ->
  In t' (window t0 k L s t) -> In t' (window t0 k L s u) -> False.
Proof.
  intros Hk Hs Ht Hu Hne H1 H2. apply window_in in H1, H2; try lia.
  apply Hne. rewrite <- (next_out_unique k t' t), <- (next_out_unique k t' u); try assumption; lia.
Qed.

(** crash at step 0 *)
Lemma step0_fails {X} p k L s (item : Z -> X -> R) : 0 < p -> 0 < k -> 1 <= L -> 1 <= s -> accum_at_0 k L s = false ->
  forall ts, run_item p (Tfield k L s) item item_init (0 :: ts) = None.
Proof.
  intros Hp Hk HL Hs Ha ts. cbn [run_item]. unfold perform_diagnostic. rewrite !do_out_mod by lia.
  rewrite do_accum_0 by lia. rewrite Ha, !Zmod_0_l. cbn [out_interval]. destruct (Z.ltb_spec 0 p), (Z.ltb_spec 0 k); try lia.
  reflexivity.
Qed.

(** ** Disabled outputs *)
Lemma do_out_disabled k t : k <= 0 -> do_out k t = Some false.
Proof. intros H. unfold do_out, enabled. destruct (Z.ltb_spec 0 k); [lia|reflexivity]. Qed.

Lemma interval_out_disabled k t : k <= 0 -> interval_out k t = Some false.
Proof. intros H. unfold interval_out. destruct (Z.leb_spec k 0); [reflexivity|lia]. Qed.

Lemma do_accum_zero L s t : do_accum (Tfield 0 L s) t = None.
Proof. reflexivity. Qed.

Lemma tfield_zero_faults {X} p L s (item : Z -> X -> R) st t ts : run_item p (Tfield 0 L s) item st (t :: ts) = None.
Proof. cbn [run_item]. unfold perform_diagnostic. rewrite do_accum_zero. destruct (do_out p t), (do_out (out_interval (Tfield 0 L s)) t); reflexivity. Qed.

Lemma do_accum_negative k L s t : k < 0 -> s <> 0 -> do_accum (Tfield k L s) t = Some false.
Proof.
  intros Hk Hs. unfold do_accum, c_div, c_mod, enabled. cbn [out_interval sample_interval].
  destruct (Z.eqb_spec k 0); [lia|]. destruct (Z.eqb_spec s 0); [lia|]. destruct (Z.ltb_spec 0 k); [lia|]. reflexivity.
Qed.

(** with a negative interval: nothing but the plain outputs *)
Lemma tfield_negative_inert {X} p k L s (item : Z -> X -> R) st : k < 0 -> s <> 0 -> forall ts, Forall (fun t => 0 <= t) ts ->
  run_item p (Tfield k L s) item st ts =
  Some (flat_map (fun t => if (0 <? p) && (t mod p =? 0) then [Pfd t (item t)] else []) ts).
Proof.
  intros Hk Hs. induction ts as [|t ts IH]; intros Hts; [reflexivity|]. inversion Hts as [|? ? Ht Hts']; subst.
  cbn [run_item flat_map]. unfold perform_diagnostic. rewrite (do_out_mod p t Ht).
  cbn [out_interval]. rewrite (do_out_disabled k t) by lia. rewrite do_accum_negative by assumption. rewrite orb_false_r.
  destruct ((0 <? p) && (t mod p =? 0)); rewrite (IH Hts'); reflexivity.
Qed.
