(** Proofs about reading parameter files. *)
From Coq Require Import Ascii String.
From Verif Require Import Base InputModel InputSpec.
Local Open Scope Z_scope.
Local Open Scope list_scope.

Lemma nat_N c : nat_of_ascii c = N.to_nat (N_of_ascii c).
Proof. reflexivity. Qed.

Lemma isspace_iff c : isspace c = true <-> space c.
Proof.
  unfold isspace, space. rewrite nat_N. cbv zeta. generalize (N_of_ascii c). intros n. cbn [In].
  rewrite orb_true_iff, andb_true_iff, N.eqb_eq, !N.leb_le. lia.
Qed.
Lemma isspace_false c : isspace c = false <-> ~ space c.
Proof. rewrite <- isspace_iff. destruct (isspace c); split; intros; congruence. Qed.

Lemma ceqb_iff a b : ceqb a b = true <-> a = b.
Proof.
  unfold ceqb. rewrite N.eqb_eq. split; [|congruence]. intros H.
  rewrite <- (ascii_N_embedding a), <- (ascii_N_embedding b). congruence.
Qed.
Lemma ceqb_false a b : ceqb a b = false <-> a <> b.
Proof. rewrite <- ceqb_iff. destruct (ceqb a b); split; intros; congruence. Qed.

Lemma teqb_iff a b : teqb a b = true <-> a = b.
Proof.
  revert b. induction a as [|x a IH]; intros [|y b]; cbn [teqb]; split; intros H; try congruence.
  - apply andb_true_iff in H. destruct H as [H1 H2]. apply ceqb_iff in H1. apply IH in H2. congruence.
  - injection H as -> ->. apply andb_true_iff. split; [apply ceqb_iff|apply IH]; reflexivity.
Qed.
Lemma teqb_false a b : teqb a b = false <-> a <> b.
Proof. rewrite <- teqb_iff. destruct (teqb a b); split; intros; congruence. Qed.
Lemma teqb_refl a : teqb a a = true.
Proof. apply teqb_iff. reflexivity. Qed.

Lemma newline_nl : newline = nl.
Proof. reflexivity. Qed.

(** ** Lines *)
Lemma getlines_ok s : forall line, ~ In nl line -> is_lines (line ++ s) (getlines line s).
Proof.
  induction s as [|c s IH]; intros line H; cbn [getlines].
  - rewrite app_nil_r. destruct line; [constructor|]. apply L_last; [discriminate|exact H].
  - rewrite newline_nl. destruct (ceqb c nl) eqn:E.
    + apply ceqb_iff in E. subst c. apply L_cons; [exact H|]. apply (IH []). intros [].
    + apply ceqb_false in E. replace (line ++ c :: s) with ((line ++ [c]) ++ s) by (rewrite <- app_assoc; reflexivity).
      apply IH. rewrite in_app_iff. cbn [In]. intuition.
Qed.

Lemma getlines_line l : forall line s, ~ In nl l -> getlines line (l ++ s) = getlines (line ++ l) s.
Proof.
  induction l as [|c l IH]; intros line s H; cbn [app]; [rewrite app_nil_r; reflexivity|].
  cbn [getlines]. rewrite newline_nl. destruct (ceqb c nl) eqn:E.
  - apply ceqb_iff in E. exfalso. apply H. left. exact E.
  - rewrite IH by (intros G; apply H; right; exact G). rewrite <- app_assoc. reflexivity.
Qed.

Lemma is_lines_getlines s ls : is_lines s ls -> ls = getlines [] s.
Proof.
  induction 1 as [|l H1 H2|l s ls H HL IH]; [reflexivity| |].
  - replace (getlines [] l) with (getlines [] (l ++ [])) by (rewrite app_nil_r; reflexivity).
    rewrite getlines_line by exact H2. cbn [app getlines]. destruct l; [congruence|reflexivity].
  - rewrite getlines_line by exact H. cbn [app getlines]. rewrite newline_nl.
    rewrite (proj2 (ceqb_iff nl nl) eq_refl). f_equal. exact IH.
Qed.

(** ** Words *)
Lemma skip_ok s : exists b, s = b ++ skip s /\ blank b /\ (skip s = [] \/ exists c r, skip s = c :: r /\ ~ space c).
Proof.
  induction s as [|c s [b [E [B H]]]]; [exists []; cbn; intuition; intros ? []|]. cbn [skip].
  destruct (isspace c) eqn:S.
  - exists (c :: b). cbn [app]. rewrite <- E. split; [reflexivity|]. split; [|exact H].
    intros x [<-|Hx]; [apply isspace_iff, S|apply B, Hx].
  - exists []. split; [reflexivity|]. split; [intros x []|]. right. exists c, s. split; [reflexivity|]. apply isspace_false, S.
Qed.
Lemma skip_blank b : forall s, blank b -> skip (b ++ s) = skip s.
Proof.
  induction b as [|c b IH]; intros s H; [reflexivity|]. cbn [app skip].
  rewrite (proj2 (isspace_iff c)) by (apply H; left; reflexivity). apply IH. intros x Hx. apply H. right. exact Hx.
Qed.
Lemma word_ok s : forall w t, word s = (w, t) -> s = w ++ t /\ (forall c, In c w -> ~ space c) /\ (t = [] \/ exists c r, t = c :: r /\ space c).
Proof.
  induction s as [|c s IH]; intros w t; cbn [word].
  - intros E. injection E as <- <-. repeat split; [intros c []|left; reflexivity].
  - destruct (isspace c) eqn:S.
    + intros E. injection E as <- <-. repeat split; [intros x []|]. right. exists c, s. split; [reflexivity|]. apply isspace_iff, S.
    + destruct (word s) as [w' t'] eqn:W. intros E. injection E as <- <-. destruct (IH w' t' eq_refl) as [E1 [E2 E3]].
      subst s. repeat split; [|exact E3]. intros x [<-|Hx]; [apply isspace_false, S|apply E2, Hx].
Qed.
Lemma word_app w : forall t, (forall c, In c w -> ~ space c) -> (t = [] \/ exists c r, t = c :: r /\ space c) -> word (w ++ t) = (w, t).
Proof.
  induction w as [|c w IH]; intros t Hw Ht; cbn [app].
  - destruct Ht as [->|[c [r [-> S]]]]; [reflexivity|]. cbn [word]. rewrite (proj2 (isspace_iff c) S). reflexivity.
  - cbn [word]. rewrite (proj2 (isspace_false c)) by (apply Hw; left; reflexivity).
    rewrite IH; [reflexivity| |exact Ht]. intros x Hx. apply Hw. right. exact Hx.
Qed.

Lemma extract_iff s w t : extract s = Some (w, t) <->
  exists b, s = b ++ w ++ t /\ blank b /\ is_word w /\ (t = [] \/ exists c r, t = c :: r /\ space c).
Proof.
  unfold extract. split.
  - destruct (skip_ok s) as [b [E [B _]]]. destruct (word (skip s)) as [w' t'] eqn:W. destruct (word_ok _ _ _ W) as [E1 [E2 E3]].
    destruct w' as [|c w']; [discriminate|]. intros H. injection H as <- <-. exists b. rewrite <- E1.
    split; [exact E|]. split; [exact B|]. split; [|exact E3]. split; [discriminate|exact E2].
  - intros [b [-> [B [[N W] T]]]]. rewrite skip_blank by exact B.
    assert (skip (w ++ t) = w ++ t) as ->.
    { destruct w as [|c w]; [congruence|]. cbn [app skip]. rewrite (proj2 (isspace_false c)) by (apply W; left; reflexivity). reflexivity. }
    rewrite word_app by assumption. destruct w; [congruence|reflexivity].
Qed.

Lemma parse_line_iff l k v : parse_line l = Some (k, v) <-> defines l k v.
Proof.
  unfold parse_line. split.
  - destruct (extract l) as [[k' r]|] eqn:E1; [|discriminate]. destruct (extract r) as [[v' r']|] eqn:E2; [|discriminate].
    intros H. injection H as -> ->. apply extract_iff in E1, E2. destruct E1 as [b1 [-> [B1 [W1 T1]]]]. destruct E2 as [b2 [-> [B2 [W2 T2]]]].
    exists b1, b2, r'. split; [reflexivity|]. split; [exact B1|]. split; [exact W1|]. split; [|split; [exact B2|split; [exact W2|exact T2]]].
    intros ->. destruct T1 as [T1|[c [q [T1 S]]]]; destruct W2 as [N2 W2].
    + cbn [app] in T1. destruct v; [congruence|discriminate].
    + cbn [app] in T1. destruct v as [|a v]; [congruence|]. injection T1 as -> _. apply (W2 c); [left; reflexivity|exact S].
  - intros [b1 [b2 [r [-> [B1 [W1 [N2 [B2 [W2 T2]]]]]]]]].
    assert (extract (b1 ++ k ++ b2 ++ v ++ r) = Some (k, b2 ++ v ++ r)) as ->.
    { apply extract_iff. exists b1. split; [reflexivity|]. split; [exact B1|]. split; [exact W1|]. right.
      destruct b2 as [|c b2]; [congruence|]. exists c, (b2 ++ v ++ r). split; [reflexivity|]. apply B2. left. reflexivity. }
    assert (extract (b2 ++ v ++ r) = Some (v, r)) as ->; [|reflexivity].
    apply extract_iff. exists b2. repeat split; try assumption; apply W2.
Qed.

Lemma defines_fun l k v k' v' : defines l k v -> defines l k' v' -> k = k' /\ v = v'.
Proof. rewrite <- !parse_line_iff. intros H1 H2. rewrite H1 in H2. injection H2 as -> ->. split; reflexivity. Qed.

(** ** The map *)
Lemma at_put m k v k' : at_ (put m k v) k' = if teqb k k' then Some v else at_ m k'.
Proof.
  induction m as [|[a b] m IH]; cbn [put at_]; [reflexivity|].
  destruct (teqb a k) eqn:E; cbn [at_].
  - apply teqb_iff in E. subst a. destruct (teqb k k'); reflexivity.
  - rewrite IH. destruct (teqb a k') eqn:E'; [|reflexivity]. apply teqb_iff in E'. subst a.
    destruct (teqb k k') eqn:E''; [|reflexivity]. apply teqb_iff in E''. apply teqb_false in E. congruence.
Qed.

Lemma put_keys m k v : forall x, In x (map fst (put m k v)) -> x = k \/ In x (map fst m).
Proof.
  induction m as [|[a b] m IH]; intros x; cbn [put map fst In]; [intuition|].
  destruct (teqb a k) eqn:E; cbn [map fst In]; [intuition|]. intros [H|H]; [intuition|]. apply IH in H. intuition.
Qed.
Lemma put_nodup m k v : NoDup (map fst m) -> NoDup (map fst (put m k v)).
Proof.
  induction m as [|[a b] m IH]; cbn [put map fst]; intros H; [constructor; [intros []|constructor]|].
  inversion H as [|? ? H1 H2]; subst. destruct (teqb a k) eqn:E; cbn [map fst]; [exact H|].
  constructor; [|apply IH, H2]. intros G. apply put_keys in G. destruct G as [->|G]; [|exact (H1 G)].
  apply teqb_false in E. congruence.
Qed.

Lemma count_at m k : NoDup (map fst m) -> count m k = match at_ m k with Some _ => 1 | None => 0 end.
Proof.
  unfold count. induction m as [|[a b] m IH]; cbn [map fst filter at_]; intros H; [reflexivity|].
  inversion H as [|? ? H1 H2]; subst. specialize (IH H2). destruct (teqb a k) eqn:E; [|exact IH].
  apply teqb_iff in E. subst a. cbn [List.length]. assert (filter (fun kv => teqb (fst kv) k) m = []) as ->; [|reflexivity].
  clear - H1. induction m as [|[a b] m IH]; [reflexivity|]. cbn [filter fst map In] in *. destruct (teqb a k) eqn:E.
  - apply teqb_iff in E. exfalso. apply H1. left. exact E.
  - apply IH. intros G. apply H1. right. exact G.
Qed.

Definition step (m : params) (line : text) : params := match parse_line line with Some (k, v) => put m k v | None => m end.

Lemma fold_nodup ls : forall m, NoDup (map fst m) -> NoDup (map fst (fold_left step ls m)).
Proof.
  induction ls as [|l ls IH]; intros m H; [exact H|]. cbn [fold_left]. apply IH. unfold step.
  destruct (parse_line l) as [[k v]|]; [apply put_nodup, H|exact H].
Qed.

Lemma fold_at ls name v : at_ (fold_left step ls []) name = Some v <-> last_definition ls name v.
Proof.
  induction ls as [|l ls IH] using rev_ind.
  - cbn. split; [discriminate|]. intros [pre [l [post [E _]]]]. destruct pre; discriminate.
  - rewrite fold_left_app. cbn [fold_left]. unfold step at 1. destruct (parse_line l) as [[k w]|] eqn:P.
    + rewrite at_put. destruct (teqb k name) eqn:E.
      * apply teqb_iff in E. subst k. apply parse_line_iff in P. split.
        -- intros H. injection H as ->. exists ls, l, []. split; [reflexivity|]. split; [exact P|]. intros ? ? [].
        -- intros [pre [l' [post [E [D N]]]]]. destruct post as [|p post] using rev_ind.
           ++ apply app_inj_tail in E. destruct E as [_ ->]. destruct (defines_fun _ _ _ _ _ P D) as [_ ->]. reflexivity.
           ++ exfalso. clear IHpost. rewrite app_comm_cons, app_assoc in E. apply app_inj_tail in E. destruct E as [_ <-].
              apply (N l w); [apply in_or_app; right; left; reflexivity|exact P].
      * apply teqb_false in E. apply parse_line_iff in P. rewrite IH. split.
        -- intros [pre [l' [post [-> [D N]]]]]. exists pre, l', (post ++ [l]). rewrite <- app_assoc. split; [reflexivity|]. split; [exact D|].
           intros x y H. apply in_app_iff in H. destruct H as [H|[<-|[]]]; [apply N, H|]. intros G.
           destruct (defines_fun _ _ _ _ _ P G). congruence.
        -- intros [pre [l' [post [E' [D N]]]]]. destruct post as [|p post] using rev_ind.
           ++ apply app_inj_tail in E'. destruct E' as [_ <-]. destruct (defines_fun _ _ _ _ _ P D). congruence.
           ++ clear IHpost. rewrite app_comm_cons, app_assoc in E'. apply app_inj_tail in E'. destruct E' as [-> ->].
              exists pre, l', post. split; [reflexivity|]. split; [exact D|]. intros x y H. apply N, in_or_app. left. exact H.
    + assert (forall k w, ~ defines l k w) as ND by (intros k w G; apply parse_line_iff in G; congruence).
      rewrite IH. split.
      * intros [pre [l' [post [-> [D N]]]]]. exists pre, l', (post ++ [l]). rewrite <- app_assoc. split; [reflexivity|]. split; [exact D|].
        intros x y H. apply in_app_iff in H. destruct H as [H|[<-|[]]]; [apply N, H|apply ND].
      * intros [pre [l' [post [E' [D N]]]]]. destruct post as [|p post] using rev_ind.
        -- apply app_inj_tail in E'. destruct E' as [_ <-]. destruct (ND _ _ D).
        -- clear IHpost. rewrite app_comm_cons, app_assoc in E'. apply app_inj_tail in E'. destruct E' as [-> ->].
           exists pre, l', post. split; [reflexivity|]. split; [exact D|]. intros x y H. apply N, in_or_app. left. exact H.
Qed.

Lemma defined_last ls name : defined ls name <-> exists v, last_definition ls name v.
Proof.
  split; [|intros [v [pre [l [post [-> [D _]]]]]]; exists l, v; split; [apply in_or_app; right; left; reflexivity|exact D]].
  induction ls as [|l ls IH] using rev_ind; intros [l' [v [H D]]]; [destruct H|].
  destruct (parse_line l) as [[k w]|] eqn:P.
  - apply parse_line_iff in P. destruct (teqb k name) eqn:E.
    + apply teqb_iff in E. subst k. exists w, ls, l, []. split; [reflexivity|]. split; [exact P|]. intros ? ? [].
    + apply teqb_false in E. apply in_app_iff in H. destruct H as [H|[<-|[]]]; [|destruct (defines_fun _ _ _ _ _ P D); congruence].
      destruct IH as [u [pre [l2 [post [-> [D2 N]]]]]]; [exists l', v; split; assumption|].
      exists u, pre, l2, (post ++ [l]). rewrite <- app_assoc. split; [reflexivity|]. split; [exact D2|].
      intros x y Hx. apply in_app_iff in Hx. destruct Hx as [Hx|[<-|[]]]; [apply N, Hx|]. intros G. destruct (defines_fun _ _ _ _ _ P G). congruence.
  - assert (forall k w, ~ defines l k w) as ND by (intros k w G; apply parse_line_iff in G; congruence).
    apply in_app_iff in H. destruct H as [H|[<-|[]]]; [|destruct (ND _ _ D)].
    destruct IH as [u [pre [l2 [post [-> [D2 N]]]]]]; [exists l', v; split; assumption|].
    exists u, pre, l2, (post ++ [l]). rewrite <- app_assoc. split; [reflexivity|]. split; [exact D2|].
    intros x y Hx. apply in_app_iff in Hx. destruct Hx as [Hx|[<-|[]]]; [apply N, Hx|apply ND].
Qed.

Definition read (s : text) : params := fold_left step (getlines [] s) [].
Lemma InputParams_read s : InputParams (Some s) = Ok (read s).
Proof. reflexivity. Qed.

Lemma has_iff s ls name : is_lines s ls -> has (read s) name = true <-> defined ls name.
Proof.
  intros HL. apply is_lines_getlines in HL. subst ls. unfold has. rewrite count_at by (apply fold_nodup; constructor).
  rewrite defined_last. split.
  - destruct (at_ (read s) name) as [v|] eqn:E; [|discriminate]. intros _. exists v. apply fold_at. exact E.
  - intros [v H]. apply fold_at in H. unfold read. rewrite H. reflexivity.
Qed.

Lemma unparsed_some s ls name v : is_lines s ls -> last_definition ls name v -> getUnparsed (read s) name = Ok v.
Proof.
  intros HL HD. unfold getUnparsed. rewrite (proj2 (has_iff s ls name HL)) by (apply defined_last; eauto).
  apply is_lines_getlines in HL. subst ls. apply fold_at in HD. unfold read. rewrite HD. reflexivity.
Qed.
Lemma has_false s ls name : is_lines s ls -> ~ defined ls name -> has (read s) name = false.
Proof. intros HL HN. destruct (has (read s) name) eqn:E; [|reflexivity]. apply (has_iff s ls name HL) in E. contradiction. Qed.

(** ** Values *)
Lemma tolower_same c a : (97 <= nat_of_ascii a <= 122)%nat -> tolower c = a <-> same_letter c a.
Proof.
  intros Ha. unfold tolower, same_letter. cbv zeta. rewrite !nat_N in *.
  destruct ((65 <=? N_of_ascii c)%N && (N_of_ascii c <=? 90)%N) eqn:E.
  - apply andb_true_iff in E. rewrite !N.leb_le in E. split.
    + intros <-. right. rewrite N_ascii_embedding by lia. split; lia.
    + intros [->|[H1 H2]]; [lia|]. rewrite <- (ascii_N_embedding a). f_equal. lia.
  - apply andb_false_iff in E. rewrite !N.leb_gt in E. split; [intros ->; left; reflexivity|]. intros [->|[H1 H2]]; [reflexivity|lia].
Qed.

Lemma lower_lit w : (forall a, In a w -> 97 <= nat_of_ascii a <= 122)%nat ->
  forall s, teqb (map tolower s) w = true <-> Forall2 same_letter s w.
Proof.
  intros H s. rewrite teqb_iff. revert s. induction w as [|a w IH]; intros [|c s]; cbn [map]; split; intros E; try discriminate;
    try (inversion E; fail); try constructor.
  - injection E as E1 E2. apply tolower_same; [apply H; left; reflexivity|exact E1].
  - injection E as E1 E2. apply IH; [intros x Hx; apply H; right; exact Hx|exact E2].
  - inversion E; subst. f_equal; [apply tolower_same; [apply H; left; reflexivity|assumption]|].
    apply IH; [intros x Hx; apply H; right; exact Hx|assumption].
Qed.

Lemma lit_true_lower : forall a, In a (lit "true") -> (97 <= nat_of_ascii a <= 122)%nat.
Proof. cbn. intros a H. repeat (destruct H as [<-|H]; [cbn; lia|]). destruct H. Qed.
Lemma lit_false_lower : forall a, In a (lit "false") -> (97 <= nat_of_ascii a <= 122)%nat.
Proof. cbn. intros a H. repeat (destruct H as [<-|H]; [cbn; lia|]). destruct H. Qed.

Lemma parse_bool_ok s :
  (Forall2 same_letter s (lit "true") -> parse_bool s = Val true) /\
  (Forall2 same_letter s (lit "false") -> parse_bool s = Val false) /\
  (~ Forall2 same_letter s (lit "true") -> ~ Forall2 same_letter s (lit "false") -> parse_bool s = Invalid).
Proof.
  unfold parse_bool. cbv zeta. pose proof (lower_lit _ lit_true_lower s) as T. pose proof (lower_lit _ lit_false_lower s) as F.
  destruct (teqb (map tolower s) (lit "true")) eqn:ET; destruct (teqb (map tolower s) (lit "false")) eqn:EF.
  - apply teqb_iff in ET, EF. rewrite ET in EF. discriminate.
  - repeat split; intros; try reflexivity; [|exfalso; apply H, T; reflexivity]. apply F in H. congruence.
  - repeat split; intros; try reflexivity; [|exfalso; apply H0, F; reflexivity]. apply T in H. congruence.
  - repeat split; intros H; try (apply T in H; congruence); try (apply F in H; congruence).
Qed.

Lemma digit_some c d : nat_of_ascii c = (48 + d)%nat -> (d < 10)%nat -> digit c = Some (Z.of_nat d).
Proof.
  unfold digit. cbv zeta. rewrite nat_N. intros E H.
  destruct (N.leb_spec 48 (N_of_ascii c)), (N.leb_spec (N_of_ascii c) 57); try lia. cbn [andb]. f_equal. lia.
Qed.
Lemma digit_inv c z : digit c = Some z -> exists d, nat_of_ascii c = (48 + d)%nat /\ (d < 10)%nat /\ z = Z.of_nat d.
Proof.
  unfold digit. cbv zeta. rewrite nat_N. destruct (N.leb_spec 48 (N_of_ascii c)), (N.leb_spec (N_of_ascii c) 57); cbn [andb]; intros E; try discriminate.
  injection E as <-. exists (N.to_nat (N_of_ascii c) - 48)%nat. repeat split; lia.
Qed.

Definition is_digit (c : ascii) : Prop := exists d, digit c = Some d.

Lemma digits_app s : forall acc n t, Forall is_digit s ->
  digits acc n (s ++ t) = digits (fst (digits acc n s)) (n + List.length s) t.
Proof.
  induction s as [|c s IH]; intros acc n t H; cbn [app List.length].
  - rewrite Nat.add_0_r. reflexivity.
  - inversion H as [|? ? [d Hd] H2]; subst. cbn [digits]. rewrite Hd. rewrite IH by exact H2. f_equal. lia.
Qed.

Lemma decimal_digits s v : decimal s v -> Forall is_digit s /\ s <> [] /\ fst (digits 0 0 s) = v /\ 0 <= v.
Proof.
  induction 1 as [c d H1 H2|s v c d HD IH H1 H2].
  - pose proof (digit_some _ _ H1 H2) as E. repeat split; [repeat constructor; eexists; exact E|discriminate| |lia]. cbn [digits]. rewrite E. cbn [fst]. lia.
  - destruct IH as [I1 [I2 [I3 I4]]]. pose proof (digit_some _ _ H1 H2) as E. repeat split.
    + apply Forall_app. split; [exact I1|]. constructor; [eexists; exact E|constructor].
    + destruct s; discriminate.
    + rewrite digits_app by exact I1. rewrite I3. cbn [digits]. rewrite E. reflexivity.
    + lia.
Qed.

Lemma digits_stop s acc n : (forall c r, s = c :: r -> ~ is_digit c) -> digits acc n s = (acc, n).
Proof.
  intros H. destruct s as [|c r]; [reflexivity|]. cbn [digits]. destruct (digit c) eqn:E; [|reflexivity].
  exfalso. apply (H c r eq_refl). exists z. exact E.
Qed.

Lemma digit_not c : is_digit c -> ~ space c /\ c <> minus /\ c <> plus.
Proof.
  intros [z H]. apply digit_inv in H. destruct H as [d [H1 [H2 _]]].
  assert (nat_of_ascii minus = 45%nat) as M by reflexivity. assert (nat_of_ascii plus = 43%nat) as P by reflexivity.
  unfold space. rewrite H1. cbn [In]. repeat split; [lia|intros ->; lia|intros ->; lia].
Qed.

Definition in_int (v : Z) : Prop := - 2 ^ 31 <= v < 2 ^ 31.

(** the value of parse_int for a sign, digits and a rest *)
Lemma skip_nonspace c r : ~ space c -> skip (c :: r) = c :: r.
Proof. intros H. cbn [skip]. rewrite (proj2 (isspace_false c) H). reflexivity. Qed.

Lemma parse_int_ok s v t : integer s v -> (forall c r, t = c :: r -> ~ is_digit c) ->
  parse_int (s ++ t) = if (- 2 ^ 31 <=? v) && (v <? 2 ^ 31) then Val v else OutOfRange.
Proof.
  intros HI HT.
  assert (forall r w, decimal r w -> digits 0 0 (r ++ t) = (w, List.length r) /\ exists n, List.length r = S n) as DD.
  { intros r w D. destruct (decimal_digits _ _ D) as [D1 [D2 [D3 D4]]]. rewrite digits_app by exact D1. rewrite D3, digits_stop by exact HT.
    split; [reflexivity|]. destruct r as [|c r]; [congruence|]. exists (List.length r). reflexivity. }
  change (ceqb) with ceqb. unfold parse_int. destruct HI as [D|[[r [-> D]]|[r [w [-> [D ->]]]]]].
  - destruct (DD _ _ D) as [E [n L]]. destruct (decimal_digits _ _ D) as [D1 [D2 _]].
    destruct s as [|c s]; [congruence|]. inversion D1 as [|? ? D3 D4]; subst. apply digit_not in D3. destruct D3 as [N1 [N2 N3]].
    cbn [app] in *. rewrite skip_nonspace by exact N1. cbv beta iota zeta.
    rewrite (proj2 (ceqb_false c "-")) by exact N2. rewrite (proj2 (ceqb_false c "+")) by exact N3. rewrite E, L.
    rewrite Z.mul_1_l. reflexivity.
  - destruct (DD _ _ D) as [E [n L]]. cbn [app]. rewrite skip_nonspace by (unfold space; cbn; lia). cbv beta iota zeta.
    change (ceqb plus "-") with false. change (ceqb plus "+") with true. cbv beta iota. rewrite E, L. rewrite Z.mul_1_l. reflexivity.
  - destruct (DD _ _ D) as [E [n L]]. cbn [app]. rewrite skip_nonspace by (unfold space; cbn; lia). cbv beta iota zeta.
    change (ceqb minus "-") with true. cbv beta iota. rewrite E, L. replace (-1 * w) with (- w) by lia. reflexivity.
Qed.

(** no prefix of the value is an integer *)
Lemma parse_int_invalid s : ~ space (hd minus s) -> (forall p t v, s = p ++ t -> ~ integer p v) -> parse_int s = Invalid.
Proof.
  intros HS HN.
  assert (forall r, (forall c q, r = c :: q -> ~ is_digit c) -> digits 0 0 r = (0, 0%nat)) as DS by (intros; apply digits_stop; assumption).
  assert (forall c, is_digit c -> exists v, decimal [c] v) as DC.
  { intros c [z H]. apply digit_inv in H. destruct H as [d [H1 [H2 _]]]. exists (Z.of_nat d). apply D_one; assumption. }
  unfold parse_int. destruct s as [|c r]; [reflexivity|]. cbn [hd] in HS. rewrite skip_nonspace by exact HS. cbv beta iota zeta.
  destruct (ceqb c "-") eqn:E1; [|destruct (ceqb c "+") eqn:E2].
  - apply ceqb_iff in E1. subst c. rewrite DS; [reflexivity|]. intros c q -> D. apply DC in D. destruct D as [v D].
    apply (HN [minus; c] q (- v) eq_refl). right. right. exists [c], v. repeat split. exact D.
  - apply ceqb_iff in E2. subst c. rewrite DS; [reflexivity|]. intros c q -> D. apply DC in D. destruct D as [v D].
    apply (HN [plus; c] q v eq_refl). right. left. exists [c]. split; [reflexivity|exact D].
  - rewrite DS; [reflexivity|]. intros c' q E D. injection E as <- <-. apply DC in D. destruct D as [v D].
    apply (HN [c] r v eq_refl). left. exact D.
Qed.
