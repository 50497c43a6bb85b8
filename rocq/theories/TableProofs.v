(** Proofs about tables. *)
From Coq Require Import Reals Lra Psatz Ascii.
From Flocq Require Import Core.
From Verif Require Import Base Arr InputModel InputProofs TableModel TableSpec.
Local Open Scope R_scope.

(** ** rows *)

Lemma at_col d col xs i : column d col xs -> (0 <= i < alen d)%Z -> at_rc d i col = Done (xs i).
Proof. intros H Hi. destruct (H i Hi) as (r & E & E2). unfold at_rc. rewrite E. cbn. rewrite E2. reflexivity. Qed.

Lemma inc_lt xs n : increasing xs n -> forall i j, (0 <= i < j)%Z -> (j < n)%Z -> xs i < xs j.
Proof.
  intros H i j Hi Hj. replace j with (i + 1 + Z.of_nat (Z.to_nat (j - i - 1)))%Z by lia. assert (L : (i + 1 + Z.of_nat (Z.to_nat (j - i - 1)) < n)%Z) by lia. revert L. generalize (Z.to_nat (j - i - 1)). clear Hj.
  induction n0 as [|k IH]; intros L; [rewrite Z.add_0_r in *; apply H; lia|]. apply Rlt_trans with (xs (i + 1 + Z.of_nat k)%Z); [apply IH; lia|].
  replace (i + 1 + Z.of_nat (Datatypes.S k))%Z with (i + 1 + Z.of_nat k + 1)%Z by lia. apply H; lia.
Qed.

Section Rows.
  Variables (d : list (list R)) (col : Z) (xs : Z -> R) (val : R).
  Hypothesis HC : column d col xs.

  Lemma go_up_val : forall fuel row, (0 <= row)%Z -> (row + Z.of_nat fuel = alen d - 1)%Z ->
    exists r, go_up d col val fuel row = Done r /\ (row <= r <= alen d - 1)%Z /\ (r = (alen d - 1)%Z \/ val <= xs r).
  Proof.
    induction fuel as [|f IH]; intros row H0 H1; cbn [go_up]; [exists row; split; [reflexivity|]; split; [lia|left; lia]|].
    rewrite (at_col d col xs row HC) by lia. cbn [bind]. destruct (Rlt_dec (xs row) val) as [L|L].
    - destruct (IH (row + 1)%Z ltac:(lia) ltac:(lia)) as (r & E & B & C). exists r. split; [exact E|]. split; [lia|exact C].
    - exists row. split; [reflexivity|]. split; [lia|]. right. lra.
  Qed.

  Lemma go_down_val : forall fuel row, (row = Z.of_nat fuel)%Z -> (row < alen d)%Z ->
    exists r, go_down d col val fuel row = Done r /\ (0 <= r <= row)%Z /\ (r = 0%Z \/ xs r <= val) /\ (r = row \/ val < xs (r + 1)%Z).
  Proof.
    induction fuel as [|f IH]; intros row H0 H1; cbn [go_down]; [exists row; split; [reflexivity|]; split; [lia|]; split; [left; lia|left; reflexivity]|].
    rewrite (at_col d col xs row HC) by lia. cbn [bind]. destruct (Rlt_dec val (xs row)) as [L|L].
    - destruct (IH (row - 1)%Z ltac:(lia) ltac:(lia)) as (r & E & B & C & D). exists r. split; [exact E|]. split; [lia|]. split; [exact C|]. right. destruct D as [-> | D]; [|exact D]. replace (row - 1 + 1)%Z with row by lia. exact L.
    - exists row. split; [reflexivity|]. split; [lia|]. split; [right; lra|left; reflexivity].
  Qed.

  Lemma get_row_val rnd : (2 <= alen d)%Z -> increasing xs (alen d) -> (- 2 ^ 31 <= Ztrunc (rnd (val / rnd (xs 1%Z - xs 0%Z))%R) < 2 ^ 31)%Z ->
    exists r, get_row rnd d col val = Done r /\
      (val < xs 0%Z /\ r = (-1)%Z \/ xs (alen d - 1)%Z < val /\ r = alen d \/ (0 <= r < alen d)%Z /\ xs r <= val /\ ((r + 1 < alen d)%Z -> val < xs (r + 1)%Z) /\ (r = (alen d - 1)%Z -> val = xs r)).
  Proof.
    intros Hn HI HB. unfold get_row. rewrite !(at_col d col xs _ HC) by lia. cbn [bind]. unfold to_int.
    replace ((- 2 ^ 31 <=? Ztrunc (rnd (val / rnd (xs 1%Z - xs 0%Z))%R)) && (Ztrunc (rnd (val / rnd (xs 1%Z - xs 0%Z))%R) <? 2 ^ 31))%Z with true by (symmetry; apply andb_true_intro; split; [apply Z.leb_le|apply Z.ltb_lt]; lia).
    cbn [bind]. set (g := Ztrunc (rnd (val / rnd (xs 1%Z - xs 0%Z)))). clearbody g. clear HB. set (row := Z.max 0 (Z.min (alen d - 1) g)). assert (Hr : (0 <= row <= alen d - 1)%Z) by (unfold row; lia). clearbody row.
    destruct (go_up_val (Z.to_nat (alen d - 1 - row)) row ltac:(lia) ltac:(lia)) as (r & -> & B & U). cbn [bind].
    assert (K : forall b, (b = false -> val <= xs r) -> (b = true -> xs (alen d - 1)%Z < val) -> exists r0, (if b then Done (alen d - 1 + 1)%Z else
      bind (go_down d col val (Z.to_nat r) r) (fun row => bind (if (row =? 0)%Z then bind (at_rc d row col) (fun x => Done (if Rlt_dec val x then true else false)) else Done false) (fun before => if before then Done (-1)%Z else Done row))) = Done r0 /\
      (val < xs 0%Z /\ r0 = (-1)%Z \/ xs (alen d - 1)%Z < val /\ r0 = alen d \/ (0 <= r0 < alen d)%Z /\ xs r0 <= val /\ ((r0 + 1 < alen d)%Z -> val < xs (r0 + 1)%Z) /\ (r0 = (alen d - 1)%Z -> val = xs r0))).
    { intros [|] Hf Ht; [exists (alen d - 1 + 1)%Z; split; [reflexivity|]; right; left; split; [apply Ht; reflexivity|lia]|]. specialize (Hf eq_refl). clear Ht.
      destruct (go_down_val (Z.to_nat r) r ltac:(lia) ltac:(lia)) as (q & -> & Bq & Cq & Dq). cbn [bind].
      assert (OK : xs q <= val -> val < xs 0%Z /\ q = (-1)%Z \/ xs (alen d - 1)%Z < val /\ q = alen d \/ (0 <= q < alen d)%Z /\ xs q <= val /\ ((q + 1 < alen d)%Z -> val < xs (q + 1)%Z) /\ (q = (alen d - 1)%Z -> val = xs q)).
      { intros L. right. right. split; [lia|]. split; [exact L|]. destruct Dq as [-> | Dq].
        - assert (val = xs r) by lra. split; [intros Hq; rewrite H; apply HI; lia|intros _; exact H].
        - split; [intros _; exact Dq|]. intros ->. assert (E : r = (alen d - 1)%Z) by lia. rewrite E in Hf. lra. }
      destruct (Z.eqb_spec q 0) as [-> | N].
      - rewrite (at_col d col xs 0 HC) by lia. cbn [bind]. destruct (Rlt_dec val (xs 0%Z)) as [L|L]; [exists (-1)%Z; split; [reflexivity|]; left; split; [exact L|reflexivity]|exists 0%Z; split; [reflexivity|apply OK; lra]].
      - exists q. split; [reflexivity|]. apply OK. destruct Cq as [Cq|Cq]; [contradiction|exact Cq]. }
    destruct (Z.eqb_spec r (alen d - 1)) as [-> | N].
    - rewrite (at_col d col xs _ HC) by lia. cbn [bind]. destruct (Rlt_dec (xs (alen d - 1)%Z) val) as [L|L]; [apply (K true); [discriminate|intros _; exact L]|apply (K false); [intros _; lra|discriminate]].
    - cbn [bind]. apply (K false); [intros _|discriminate]. destruct U as [U|U]; [contradiction|exact U].
  Qed.
End Rows.

(** ** the header *)

Lemma hfind_put h k v k' : hfind (hput h k v) k' = if teqb k k' then Some v else hfind h k'.
Proof.
  induction h as [|[a b] h IH]; cbn [hput hfind]; [reflexivity|]. destruct (teqb a k) eqn:E; cbn [hfind].
  - apply teqb_iff in E. subst a. destruct (teqb k k'); reflexivity.
  - rewrite IH. destruct (teqb a k') eqn:E1, (teqb k k') eqn:E2; try reflexivity. apply teqb_iff in E1, E2. subst. rewrite teqb_refl in E. discriminate.
Qed.

Lemma hput_new h k v : hfind h k = None -> hput h k v = h ++ [(k, v)].
Proof. induction h as [|[a b] h IH]; cbn [hput hfind]; [reflexivity|]. destruct (teqb a k); [discriminate|]. intros H. rewrite (IH H). reflexivity. Qed.

Lemma header_fold : forall ws h n, NoDup ws -> (forall w, In w ws -> hfind h w = None) ->
  let h' := fst (fold_left (fun '(h, n) w => (hput h w n, (n + 1)%Z)) ws (h, n)) in
  length h' = (length h + length ws)%nat /\ (forall i w, aget ws i = Some w -> hfind h' w = Some (n + i)%Z) /\ (forall w, ~ In w ws -> hfind h' w = hfind h w).
Proof.
  induction ws as [|w ws IH]; intros h n ND HN; cbn [fold_left fst]; cbv zeta.
  - split; [cbn; lia|]. split; [intros i w H; apply aget_bounds in H; cbn in H; unfold alen in H; cbn in H; lia|reflexivity].
  - inversion ND as [|? ? NI ND']; subst. assert (HW : hfind h w = None) by (apply HN; left; reflexivity).
    destruct (IH (hput h w n) (n + 1)%Z ND') as (A & B & C).
    { intros w' Hw. rewrite hfind_put. destruct (teqb w w') eqn:E; [apply teqb_iff in E; subst; contradiction|apply HN; right; exact Hw]. }
    split; [rewrite A, (hput_new h w n HW), app_length; cbn; lia|]. split.
    + intros i v H. rewrite aget_cons in H. destruct (Z.eqb_spec i 0) as [-> | N].
      * injection H as <-. rewrite (C w NI), hfind_put, teqb_refl. f_equal. lia.
      * rewrite (B (i - 1)%Z v H). f_equal. lia.
    + intros v Hv. rewrite C by (intros K; apply Hv; right; exact K). rewrite hfind_put. destruct (teqb w v) eqn:E; [|reflexivity]. apply teqb_iff in E. subst. exfalso. apply Hv. left. reflexivity.
Qed.

(** ** words and lines *)

Lemma words_app : forall w cur s, (forall c, In c w -> isspace c = false) -> words cur (w ++ s) = words (cur ++ w) s.
Proof.
  induction w as [|c w IH]; intros cur s H; cbn [app words]; [rewrite app_nil_r; reflexivity|]. rewrite (H c (or_introl eq_refl)), IH by (intros x Hx; apply H; right; exact Hx). rewrite <- app_assoc. reflexivity.
Qed.

Lemma words_tabbed ws : Forall a_word ws -> words [] (tabbed ws) = ws.
Proof.
  induction 1 as [|w ws [HN HS] HF IH]; [reflexivity|]. destruct ws as [|v vs].
  - cbn [tabbed]. rewrite <- (app_nil_r w) at 1. rewrite words_app by exact HS. cbn. destruct w; [contradiction|reflexivity].
  - change (tabbed (w :: v :: vs)) with (w ++ ascii_of_N 9 :: tabbed (v :: vs)). rewrite words_app by exact HS. cbn [app words]. replace (isspace (ascii_of_N 9)) with true by reflexivity.
    rewrite IH. destruct w; [contradiction|reflexivity].
Qed.

Lemma tabbed_chars ws : Forall a_word ws -> forall c, In c (tabbed ws) -> ceqb c cr = false /\ ceqb c newline = false.
Proof.
  induction 1 as [|w ws [HN HS] HF IH]; intros c Hc; [destruct Hc|].
  assert (K : forall c, isspace c = false -> ceqb c cr = false /\ ceqb c newline = false).
  { intros x Hx. split; apply ceqb_false; intros ->; discriminate Hx. }
  destruct ws as [|v vs]; [apply K, HS, Hc|]. change (tabbed (w :: v :: vs)) with (w ++ ascii_of_N 9 :: tabbed (v :: vs)) in Hc. apply in_app_or in Hc. destruct Hc as [Hc|[<-|Hc]]; [apply K, HS, Hc|split; reflexivity|apply IH; exact Hc].
Qed.

Lemma tabbed_nonempty ws : ws <> [] -> Forall a_word ws -> tabbed ws <> [].
Proof. intros H HF. destruct HF as [|w ws [HN _] _]; [contradiction|]. destruct ws; [exact HN|]. change (w ++ ascii_of_N 9 :: tabbed (t :: ws) <> []). destruct w; [contradiction|discriminate]. Qed.

Lemma lines_app : forall l aft line s, (forall c, In c l -> ceqb c cr = false /\ ceqb c newline = false) -> safe_lines (match l with [] => aft | _ => false end) (line ++ l) s = safe_lines aft line (l ++ s).
Proof.
  induction l as [|c l IH]; intros aft line s H; [rewrite app_nil_r; reflexivity|]. cbn [app safe_lines]. destruct (H c (or_introl eq_refl)) as [-> ->]. rewrite andb_false_r.
  rewrite <- IH by (intros x Hx; apply H; right; exact Hx). rewrite <- app_assoc. cbn [app]. destruct l; reflexivity.
Qed.

Lemma lines_written : forall ls aft rest, Forall (fun l => fst l <> [] /\ Forall a_word (fst l)) ls ->
  exists aft', safe_lines aft [] (written ls ++ rest) = map (fun l => tabbed (fst l)) ls ++ safe_lines aft' [] rest.
Proof.
  induction ls as [|[ws e] ls IH]; intros aft rest H; [exists aft; reflexivity|]. inversion H as [|? ? [HN HW] HL]; subst. cbn [fst] in *.
  cbn [written flat_map map fst snd]. fold (written ls). rewrite <- !app_assoc. rewrite <- lines_app by (apply tabbed_chars; exact HW). cbn [app].
  assert (T := tabbed_nonempty ws HN HW). destruct (tabbed ws) as [|c l] eqn:E; [contradiction|]. rewrite <- E. clear T E.
  destruct e; cbn [eol_text app safe_lines].
  - destruct (IH false rest HL) as (a & Ha). exists a. change (ceqb (ascii_of_N 10) cr) with false. change (ceqb (ascii_of_N 10) newline) with true. cbn [andb]. rewrite Ha. reflexivity.
  - destruct (IH false rest HL) as (a & Ha). exists a. change (ceqb (ascii_of_N 13) cr) with true. change (ceqb (ascii_of_N 10) newline) with true. cbn [andb]. rewrite Ha. reflexivity.
  - destruct (IH true rest HL) as (a & Ha). exists a. change (ceqb (ascii_of_N 13) cr) with true. cbn [andb]. rewrite Ha. reflexivity.
Qed.

Lemma lines_last l aft : l <> [] -> Forall a_word l -> safe_lines aft [] (tabbed l) = [tabbed l].
Proof.
  intros HN HW. rewrite <- (app_nil_r (tabbed l)) at 1. rewrite <- lines_app by (apply tabbed_chars; exact HW). cbn [app safe_lines]. assert (T := tabbed_nonempty l HN HW). destruct (tabbed l); [contradiction|reflexivity].
Qed.

Section Parse.
  Variable stod : text -> option R.

  Lemma parse_row_val ws row : Forall2 (fun w v => stod w = Some v) ws row -> parse_row stod ws = Done row.
  Proof. induction 1 as [|w v ws row E _ IH]; [reflexivity|]. cbn [parse_row]. rewrite E, IH. reflexivity. Qed.

  Lemma parse_data_app n : forall ls rows rest, (0 < n)%Z -> Forall2 (fun l row => Forall a_word l /\ Forall2 (fun w v => stod w = Some v) l row /\ alen row = n) ls rows ->
    parse_data stod n (map tabbed ls ++ rest) = bind (parse_data stod n rest) (fun d => Done (rows ++ d)).
  Proof.
    intros ls rows rest Hn H. induction H as [|l row ls rows (H1 & H2 & H3) _ IH]; [cbn [map app]; destruct (parse_data stod n rest); reflexivity|]. cbn [map app parse_data]. rewrite (words_tabbed l H1), (parse_row_val l row H2). cbn [bind].
    rewrite H3. destruct (Z.eqb_spec n 0); [lia|]. rewrite Z.eqb_refl, IH. destruct (parse_data stod n rest); reflexivity.
  Qed.

  Lemma parse_row_bad ws w : In w ws -> stod w = None -> parse_row stod ws = Throw.
  Proof.
    induction ws as [|v ws IH]; intros H E; [destruct H|]. cbn [parse_row]. destruct H as [-> | H]; [rewrite E; reflexivity|]. destruct (stod v); [|reflexivity]. rewrite (IH H E). reflexivity.
  Qed.

  Lemma parse_row_len ws row : parse_row stod ws = Done row -> alen row = alen ws.
  Proof.
    revert row. induction ws as [|w ws IH]; intros row H; cbn [parse_row] in H; [injection H as <-; reflexivity|]. destruct (stod w); [|discriminate]. destruct (parse_row stod ws) eqn:E; try discriminate. injection H as <-. rewrite !alen_cons, (IH v eq_refl). reflexivity.
  Qed.

  Lemma parse_row_cases ws : (exists row, parse_row stod ws = Done row /\ alen row = alen ws) \/ parse_row stod ws = Throw.
  Proof.
    induction ws as [|w ws IH]; [left; exists []; split; reflexivity|]. cbn [parse_row]. destruct (stod w); [|right; reflexivity]. destruct IH as [(row & -> & E)| ->]; [left|right; reflexivity]. eexists. split; [reflexivity|]. rewrite !alen_cons, E. reflexivity.
  Qed.
End Parse.
