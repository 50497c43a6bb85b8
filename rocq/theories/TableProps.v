(** C73, C74: tables of initial conditions. *)
From Coq Require Import Reals Lra Psatz Ascii String.
From Flocq Require Import Core.
From Verif Require Import Base Arr InputModel InputProofs TableModel TableSpec TableProofs.
Local Open Scope R_scope.
Local Open Scope list_scope.

(** * C73 *)

(** the first guess fits into an int *)
Definition guess_fits (rnd : R -> R) (xs : Z -> R) (val : R) : Prop := (- 2 ^ 31 <= Ztrunc (rnd (val / rnd (xs 1%Z - xs 0%Z))%R) < 2 ^ 31)%Z.

(** However the guess is rounded, and whatever the spacing: in a column of at least two strictly increasing values the row found is the one whose value
    is the last not above the one looked for; -1 if that is below all, and the number of rows if it is above all. *)
Theorem C73_row : forall rnd d col xs val, column d col xs -> (2 <= alen d)%Z -> increasing xs (alen d) -> guess_fits rnd xs val ->
  exists r, get_row rnd d col val = Done r /\ (-1 <= r <= alen d)%Z /\
  (r = (-1)%Z <-> val < xs 0%Z) /\ (r = alen d <-> xs (alen d - 1)%Z < val) /\
  ((0 <= r < alen d)%Z -> xs r <= val /\ forall j, (r < j < alen d)%Z -> val < xs j).
Proof.
  intros rnd d col xs val HC Hn HI HG. destruct (get_row_val d col xs val HC rnd Hn HI HG) as (r & E & K). exists r. split; [exact E|].
  assert (L : forall i j, (0 <= i < j)%Z -> (j < alen d)%Z -> xs i < xs j) by (apply inc_lt; exact HI).
  assert (L0 := L 0%Z (alen d - 1)%Z ltac:(lia) ltac:(lia)).
  destruct K as [[K ->] | [[K ->] | (B & K & K2 & K3)]].
  - split; [lia|]. split; [split; [intros _; exact K|reflexivity]|]. split; [split; [intros; lia|intros; lra]|]. intros; lia.
  - split; [lia|]. split; [split; [intros; lia|intros; lra]|]. split; [split; [intros _; exact K|reflexivity]|]. intros; lia.
  - split; [lia|]. assert (xs 0%Z <= xs r) by (destruct (Z.eq_dec r 0) as [-> | N]; [lra|apply Rlt_le, L; lia]).
    split; [split; [intros; lia|intros; lra]|]. split.
    + split; [intros; lia|]. intros C. destruct (Z.eq_dec r (alen d - 1)) as [EQ|N]; [rewrite (K3 EQ), EQ in C; lra|]. specialize (K2 ltac:(lia)).
      destruct (Z.eq_dec (r + 1) (alen d - 1)) as [EQ|N2]; [rewrite EQ in K2; lra|]. specialize (L (r + 1) (alen d - 1) ltac:(lia) ltac:(lia))%Z. lra.
    + intros _. split; [exact K|]. intros j Hj. specialize (K2 ltac:(lia)). destruct (Z.eq_dec (r + 1) j) as [<- | N]; [exact K2|]. specialize (L (r + 1) j ltac:(lia) ltac:(lia))%Z. lra.
Qed.
Print Assumptions C73_row.

(** The interpolated value, in exact arithmetic, is the one on the line through the points of the table; outside of the table there is an exception; the
    table does not change.  (C73_line: that value is unique, between those of the table, and exact for a column that depends linearly on the other.) *)
Theorem C73_interpolated : forall t k ik c ic xs ys val, hfind (t_header t) k = Some c -> hfind (t_header t) ik = Some ic -> k <> ik ->
  column (t_data t) ic xs -> column (t_data t) c ys -> (2 <= n_rows t)%Z -> increasing xs (n_rows t) -> guess_fits (fun x => x) xs val ->
  (xs 0%Z <= val <= xs (n_rows t - 1)%Z -> exists y, get_interpolated (fun x => x) t k ik val = Done (y, t) /\ polyline xs ys (n_rows t) val y) /\
  (val < xs 0%Z \/ xs (n_rows t - 1)%Z < val -> get_interpolated (fun x => x) t k ik val = Throw).
Proof.
  intros t k ik c ic xs ys val Hk Hik Hne HX HY Hn HI HG. unfold n_rows in *. destruct (get_row_val (t_data t) ic xs val HX (fun x => x) Hn HI HG) as (r & E & K).
  assert (L0 := inc_lt xs _ HI 0%Z (alen (t_data t) - 1)%Z ltac:(lia) ltac:(lia)).
  unfold get_interpolated, hget. rewrite Hk, Hik. destruct (teqb k ik) eqn:ET; [apply teqb_iff in ET; contradiction|]. rewrite E. cbn [bind].
  destruct K as [[K ->] | [[K ->] | (B & K & K2 & K3)]].
  - split; [intros; lra|]. intros _. reflexivity.
  - split; [intros; lra|]. intros _. rewrite Z.leb_refl, orb_true_r. reflexivity.
  - split.
    + intros _. destruct (Z.ltb_spec r 0); [lia|]. destruct (Z.leb_spec (alen (t_data t)) r); [lia|]. cbn [orb]. rewrite (at_col _ _ _ r HX B). cbn [bind]. destruct (Req_EM_T (xs r) val) as [EQ|NE].
      * rewrite (at_col _ _ _ r HY B). cbn [bind]. exists (ys r). split; [destruct t; reflexivity|]. exists r. split; [exact B|]. left. split; [symmetry; exact EQ|reflexivity].
      * destruct (Z.eq_dec r (alen (t_data t) - 1)) as [ER|NR]; [specialize (K3 ER); lra|]. specialize (K2 ltac:(lia)).
        rewrite (at_col _ _ _ (r + 1)%Z HX), (at_col _ _ _ r HY B), (at_col _ _ _ (r + 1)%Z HY) by lia. cbn [bind]. eexists. split; [destruct t; reflexivity|]. exists r. split; [exact B|]. right. split; [lia|]. split; [lra|]. field. lra.
    + intros [C|C].
      * destruct (Z.eq_dec r 0) as [-> | N]; [lra|]. specialize (inc_lt xs _ HI 0%Z r ltac:(lia) ltac:(lia)). lra.
      * destruct (Z.eq_dec r (alen (t_data t) - 1)) as [EQ|N]; [rewrite (K3 EQ), EQ in C; lra|]. specialize (K2 ltac:(lia)).
        destruct (Z.eq_dec (r + 1) (alen (t_data t) - 1)) as [EQ|N2]; [rewrite EQ in K2; lra|]. specialize (inc_lt xs _ HI (r + 1) (alen (t_data t) - 1) ltac:(lia) ltac:(lia))%Z. lra.
Qed.
Print Assumptions C73_interpolated.

(** what it means to be on the line *)
Theorem C73_line : forall xs ys n x y, increasing xs n -> polyline xs ys n x y ->
  (forall y', polyline xs ys n x y' -> y' = y) /\
  (forall lo hi, (forall i, (0 <= i < n)%Z -> lo <= ys i <= hi) -> lo <= y <= hi) /\
  (forall a b, (forall i, (0 <= i < n)%Z -> ys i = a * xs i + b) -> y = a * x + b).
Proof.
  intros xs ys n x y HI HP.
  (* a point on the line is on a node, or strictly inside of a segment *)
  assert (N : forall y, polyline xs ys n x y -> exists i, (0 <= i < n)%Z /\ ((x = xs i /\ y = ys i) \/
    (i + 1 < n)%Z /\ xs i < x < xs (i + 1)%Z /\ (y - ys i) * (xs (i + 1)%Z - xs i) = (x - xs i) * (ys (i + 1)%Z - ys i))).
  { intros z (i & Hi & [H|(H1 & H2 & H3)]); [exists i; split; [exact Hi|left; exact H]|]. specialize (HI i ltac:(lia) H1).
    destruct (Req_dec x (xs i)) as [E|E]; [exists i; split; [exact Hi|left; split; [exact E|]]; rewrite E in H3; replace ((xs i - xs i) * (ys (i + 1)%Z - ys i)) with 0 in H3 by ring; apply Rmult_integral in H3; lra|].
    destruct (Req_dec x (xs (i + 1)%Z)) as [E2|E2]; [exists (i + 1)%Z; split; [lia|left; split; [exact E2|]]; rewrite E2 in H3; assert ((z - ys (i + 1)%Z) * (xs (i + 1)%Z - xs i) = 0) as H4 by lra; apply Rmult_integral in H4; lra|].
    exists i. split; [exact Hi|]. right. split; [exact H1|]. split; [lra|exact H3]. }
  split; [|split].
  - intros y' HP'. destruct (N y HP) as (i & Hi & H), (N y' HP') as (j & Hj & H'). assert (LT := inc_lt xs n HI).
    destruct (Z.lt_trichotomy i j) as [C|[<-|C]].
    + exfalso. specialize (LT i j ltac:(lia) ltac:(lia)). destruct H as [[H _]|(H1 & H2 & _)], H' as [[H' _]|(H1' & H2' & _)]; try lra.
      * destruct (Z.eq_dec (i + 1) j) as [<- | Q]; [lra|]. assert (T := inc_lt xs n HI (i + 1)%Z j ltac:(lia) ltac:(lia)). lra.
      * destruct (Z.eq_dec (i + 1) j) as [<- | Q]; [lra|]. assert (T := inc_lt xs n HI (i + 1)%Z j ltac:(lia) ltac:(lia)). lra.
    + destruct H as [[H A]|(H1 & H2 & A)], H' as [[H' A']|(H1' & H2' & A')]; try lra. apply (Rmult_eq_reg_r (xs (i + 1)%Z - xs i)); lra.
    + exfalso. specialize (LT j i ltac:(lia) ltac:(lia)). destruct H as [[H _]|(H1 & H2 & _)], H' as [[H' _]|(H1' & H2' & _)]; try lra.
      * destruct (Z.eq_dec (j + 1) i) as [<- | Q]; [lra|]. assert (T := inc_lt xs n HI (j + 1)%Z i ltac:(lia) ltac:(lia)). lra.
      * destruct (Z.eq_dec (j + 1) i) as [<- | Q]; [lra|]. assert (T := inc_lt xs n HI (j + 1)%Z i ltac:(lia) ltac:(lia)). lra.
  - intros lo hi HB. destruct (N y HP) as (i & Hi & [[_ ->]|(H1 & H2 & A)]); [apply HB; exact Hi|]. assert (B1 := HB i Hi). assert (B2 := HB (i + 1)%Z ltac:(lia)).
    set (h := xs (i + 1)%Z - xs i) in *. set (w := x - xs i) in *. assert (Hh : 0 < h) by (unfold h; lra). assert (Hw : 0 < w < h) by (unfold w, h; lra).
    assert (Y : y = ys i + w / h * (ys (i + 1)%Z - ys i)) by (apply (Rmult_eq_reg_r h); [field_simplify; lra|lra]).
    assert (Q : 0 < w / h < 1). { split; [apply Rdiv_lt_0_compat; lra|apply (Rmult_lt_reg_r h); [exact Hh|]; field_simplify; lra]. }
    rewrite Y. revert Q. generalize (w / h). intros q Q. nra.
  - intros a b HB. destruct (N y HP) as (i & Hi & [[-> ->]|(H1 & H2 & A)]); [apply HB; exact Hi|]. rewrite (HB i Hi), (HB (i + 1)%Z ltac:(lia)) in A. apply (Rmult_eq_reg_r (xs (i + 1)%Z - xs i)); lra.
Qed.
Print Assumptions C73_line.

(** at the rows of the table the value is that of the table, however the arithmetic rounds *)
Theorem C73_rows : forall rnd t k ik c ic xs ys i, hfind (t_header t) k = Some c -> hfind (t_header t) ik = Some ic -> k <> ik ->
  column (t_data t) ic xs -> column (t_data t) c ys -> (2 <= n_rows t)%Z -> increasing xs (n_rows t) -> guess_fits rnd xs (xs i) -> (0 <= i < n_rows t)%Z ->
  get_interpolated rnd t k ik (xs i) = Done (ys i, t).
Proof.
  intros rnd t k ik c ic xs ys i Hk Hik Hne HX HY Hn HI HG Hi. unfold n_rows in *. destruct (C73_row rnd (t_data t) ic xs (xs i) HX Hn HI HG) as (r & E & B & K1 & K2 & K3).
  assert (LT := inc_lt xs _ HI). assert (R1 : r <> (-1)%Z). { intros Q. apply (proj1 K1) in Q. destruct (Z.eq_dec i 0) as [-> | N]; [lra|]. specialize (LT 0%Z i ltac:(lia) ltac:(lia)). lra. }
  assert (R2 : r <> alen (t_data t)). { intros Q. apply (proj1 K2) in Q. destruct (Z.eq_dec i (alen (t_data t) - 1)) as [-> | N]; [lra|]. specialize (LT i (alen (t_data t) - 1)%Z ltac:(lia) ltac:(lia)). lra. }
  destruct (K3 ltac:(lia)) as [A1 A2].
  assert (RI : r = i). { destruct (Z.lt_trichotomy r i) as [C|[C|C]]; [specialize (A2 i ltac:(lia)); lra|exact C|specialize (LT i r ltac:(lia) ltac:(lia)); lra]. } subst r.
  unfold get_interpolated, hget. rewrite Hk, Hik. destruct (teqb k ik) eqn:ET; [apply teqb_iff in ET; contradiction|]. rewrite E. cbn [bind].
  destruct (Z.ltb_spec i 0); [lia|]. destruct (Z.leb_spec (alen (t_data t)) i); [lia|]. cbn [orb]. rewrite (at_col _ _ _ i HX Hi). cbn [bind]. destruct (Req_EM_T (xs i) (xs i)); [|contradiction]. rewrite (at_col _ _ _ i HY Hi). destruct t; reflexivity.
Qed.
Print Assumptions C73_rows.

(** the size of the hole is where the density is off for the last time; if it is nowhere off there is an exception *)
Theorem C73_hole : forall t ne rho eps c ic ns xs, hfind (t_header t) ne = Some c -> hfind (t_header t) rho = Some ic -> column (t_data t) c ns -> column (t_data t) ic xs ->
  (exists i, (0 <= i < n_rows t)%Z /\ hole_size (fun x => x) t ne rho eps = Done (xs i) /\ eps < Rabs (ns i - 1) /\ forall j, (i < j < n_rows t)%Z -> Rabs (ns j - 1) <= eps) \/
  hole_size (fun x => x) t ne rho eps = Throw /\ forall j, (0 <= j < n_rows t)%Z -> Rabs (ns j - 1) <= eps.
Proof.
  intros t ne rho eps c ic ns xs Hk Hik HN HX. unfold hole_size, n_rows.
  assert (G : forall k col ys row, hfind (t_header t) k = Some col -> column (t_data t) col ys -> (0 <= row < alen (t_data t))%Z -> get t k row = Done (ys row, t)).
  { intros k col ys row H1 H2 H3. unfold get, hget. rewrite H1, (at_col _ _ _ row H2 H3). destruct t; reflexivity. }
  assert (K : forall n, (Z.of_nat n <= alen (t_data t))%Z ->
    (exists i, (0 <= i < Z.of_nat n)%Z /\ hole_from (fun x => x) t ne rho eps n = Done (xs i) /\ eps < Rabs (ns i - 1) /\ forall j, (i < j < Z.of_nat n)%Z -> Rabs (ns j - 1) <= eps) \/
    hole_from (fun x => x) t ne rho eps n = Throw /\ forall j, (0 <= j < Z.of_nat n)%Z -> Rabs (ns j - 1) <= eps).
  { induction n as [|n IH]; intros Hn; [right; split; [reflexivity|intros; lia]|]. cbn [hole_from]. rewrite (G ne c ns (Z.of_nat n) Hk HN) by lia. cbn [bind]. destruct (Rlt_dec eps (Rabs (ns (Z.of_nat n) - 1))) as [L|L].
    - left. exists (Z.of_nat n). split; [lia|]. rewrite (G rho ic xs (Z.of_nat n) Hik HX) by lia. split; [reflexivity|]. split; [exact L|intros; lia].
    - destruct (IH ltac:(lia)) as [(i & B & E & A & C)|(E & C)].
      + left. exists i. split; [lia|]. split; [exact E|]. split; [exact A|]. intros j Hj. destruct (Z.eq_dec j (Z.of_nat n)) as [-> | N]; [lra|apply C; lia].
      + right. split; [exact E|]. intros j Hj. destruct (Z.eq_dec j (Z.of_nat n)) as [-> | N]; [lra|apply C; lia]. }
  destruct (K (Z.to_nat (alen (t_data t))) ltac:(pose proof (alen_nonneg (t_data t)); lia)) as [(i & B & E & A & C)|(E & C)].
  - left. exists i. split; [lia|]. split; [exact E|]. split; [exact A|]. intros j Hj. apply C. lia.
  - right. split; [exact E|]. intros j Hj. apply C. pose proof (alen_nonneg (t_data t)). lia.
Qed.
Print Assumptions C73_hole.

(** * C74 *)

(** the lines of a file *)
Lemma file_lines ls file : file_of ls file -> Forall (fun l => fst l <> [] /\ Forall a_word (fst l)) ls -> safe_lines false [] file = map (fun l => tabbed (fst l)) ls.
Proof.
  intros [-> | (ls' & l & e & -> & ->)] HL.
  - destruct (lines_written ls false [] HL) as (a & E). rewrite app_nil_r in E. rewrite E. cbn [safe_lines]. apply app_nil_r.
  - apply Forall_app in HL. destruct HL as [H1 H2]. inversion H2 as [|? ? [H3 H4] _]; subst. cbn [fst] in *. destruct (lines_written ls' false (tabbed l) H1) as (a & ->). rewrite (lines_last l a H3 H4), map_app. reflexivity.
Qed.

Lemma good_rows (stod : text -> option R) (names : list text) (rows : list (list text * eol)) vals : names <> [] -> Forall2 (fun l row => Forall a_word (fst l) /\ Forall2 (fun w v => stod w = Some v) (fst l) row /\ alen row = alen names) rows vals ->
  Forall (fun l => fst l <> [] /\ Forall a_word (fst l)) rows.
Proof.
  intros HN HR. induction HR as [|l row rows vals (H1 & H2 & H3) _ IH]; constructor; [|exact IH]. split; [|exact H1]. intros Q. rewrite Q in H2. inversion H2; subst.
  destruct names; [contradiction|]. rewrite alen_nil, alen_cons in H3. pose proof (alen_nonneg names). lia.
Qed.

Lemma read_header (stod : text -> option R) names e rows vals rest file : names <> [] -> NoDup names -> Forall a_word names ->
  Forall2 (fun l row => Forall a_word (fst l) /\ Forall2 (fun w v => stod w = Some v) (fst l) row /\ alen row = alen names) rows vals ->
  Forall (fun l => fst l <> [] /\ Forall a_word (fst l)) rest -> file_of ((names, e) :: rows ++ rest) file ->
  exists h, n_cols h = alen names /\ (forall i w, aget names i = Some w -> hfind h w = Some i) /\ (forall w, ~ In w names -> hfind h w = None) /\
    new_table stod (Some file) = bind (parse_data stod (alen names) (map (fun l => tabbed (fst l)) rest)) (fun d => Done (Tab h (vals ++ d))).
Proof.
  intros HN ND HW HR HS HF. unfold new_table.
  rewrite (file_lines _ _ HF) by (constructor; [split; [exact HN|exact HW]|apply Forall_app; split; [exact (good_rows stod names rows vals HN HR)|exact HS]]). cbn [map hd tl fst].
  unfold parse_header. rewrite (words_tabbed names HW). destruct (header_fold names [] 0%Z ND ltac:(reflexivity)) as (A & B & C). set (h := fst _) in *. exists h.
  assert (NC : n_cols h = alen names) by (unfold n_cols, alen; rewrite A; reflexivity). split; [exact NC|]. split; [intros i w H; rewrite (B i w H); f_equal|]. split; [intros w H; rewrite (C w H); reflexivity|].
  rewrite NC, map_app, <- (map_map fst tabbed rows). rewrite (parse_data_app stod (alen names) (map fst rows) vals).
  - destruct (parse_data stod (alen names) _); reflexivity.
  - destruct names; [contradiction|]; rewrite alen_cons; pose proof (alen_nonneg names); lia.
  - clear - HR. induction HR; constructor; assumption.
Qed.

(** The full statement: every table is read as it is written, or refused; asking for a column that is not in the file, or for a value, never has
    another effect than the right value or an error.  False in five ways (below).  Proved: a file whose lines are words separated by tabs, with a
    header of different names and rows of as many numbers, each line ended in any of the three ways and the last perhaps not at all, is read as written. *)
Theorem C74_read_partial : forall stod names e rows vals file, names <> [] -> NoDup names -> Forall a_word names ->
  Forall2 (fun l row => Forall a_word (fst l) /\ Forall2 (fun w v => stod w = Some v) (fst l) row /\ alen row = alen names) rows vals ->
  file_of ((names, e) :: rows) file ->
  exists t, new_table stod (Some file) = Done t /\ t_data t = vals /\ n_cols (t_header t) = alen names /\
    (forall i w, aget names i = Some w -> hfind (t_header t) w = Some i) /\ (forall w, ~ In w names -> has_column t w = false).
Proof.
  intros stod names e rows vals file HN ND HW HR HF. rewrite <- (app_nil_r rows) in HF. destruct (read_header stod names e rows vals [] file HN ND HW HR ltac:(constructor) HF) as (h & A & B & C & ->).
  cbn [map parse_data bind]. exists (Tab h (vals ++ [])). split; [reflexivity|]. split; [apply app_nil_r|]. split; [exact A|]. split; [exact B|]. intros w H. unfold has_column. cbn [t_header]. rewrite (C w H). reflexivity.
Qed.
Print Assumptions C74_read_partial.

(** If such rows are followed by one with another number of words, or with a word that is no number, the file is refused, whatever comes after. *)
Theorem C74_refused : forall stod names e rows vals l el rest file, names <> [] -> NoDup names -> Forall a_word names ->
  Forall2 (fun l row => Forall a_word (fst l) /\ Forall2 (fun w v => stod w = Some v) (fst l) row /\ alen row = alen names) rows vals ->
  l <> [] -> Forall a_word l -> Forall (fun l => fst l <> [] /\ Forall a_word (fst l)) rest ->
  alen l <> alen names \/ (exists w, In w l /\ stod w = None) -> file_of ((names, e) :: rows ++ (l, el) :: rest) file ->
  new_table stod (Some file) = Exit \/ new_table stod (Some file) = Throw.
Proof.
  intros stod names e rows vals l el rest file HN ND HW HR HL HLW HRest HB HF.
  destruct (read_header stod names e rows vals ((l, el) :: rest) file HN ND HW HR ltac:(constructor; [split; assumption|assumption]) HF) as (h & _ & _ & _ & ->).
  cbn [map fst parse_data]. rewrite (words_tabbed l HLW). destruct (parse_row_cases stod l) as [(row & E & EL)|E]; rewrite E; cbn [bind]; [|right; reflexivity].
  destruct HB as [HB|(w & Hw & EW)]; [|rewrite (parse_row_bad stod l w Hw EW) in E; discriminate]. rewrite EL. destruct (Z.eqb_spec (alen l) 0) as [Z0|_].
  - destruct l; [contradiction|]. rewrite alen_cons in Z0. pose proof (alen_nonneg l). lia.
  - destruct (Z.eqb_spec (alen l) (alen names)); [contradiction|]. left. reflexivity.
Qed.
Print Assumptions C74_refused.

(** a column that is not there is taken to be the first one, and from then on the table has it *)
Theorem C74_missing_column_refuted : exists t k ik val y t', has_column t k = false /\ get_interpolated (fun x => x) t k ik val = Done (y, t') /\ has_column t' k = true /\
  y = val /\ n_cols (t_header t') = (n_cols (t_header t) + 1)%Z.
Proof.
  exists (Tab [(lit "rho", 0); (lit "Te", 1)]%Z [[0; 5]; [1; 6]]), (lit "Psi"), (lit "rho"), 1, 1. eexists. split; [reflexivity|].
  unfold get_interpolated. set (T := Tab [(lit "rho", 0); (lit "Te", 1)]%Z [[0; 5]; [1; 6]]).
  change (teqb (lit "Psi") (lit "rho")) with false. change (hget (t_header T) (lit "Psi")) with (0%Z, (hput (t_header T) (lit "Psi") 0)). cbv iota beta.
  change (hget (hput (t_header T) (lit "Psi") 0) (lit "rho")) with (0%Z, (hput (t_header T) (lit "Psi") 0)). cbv iota beta zeta. change (t_data T) with [[0; 5]; [1; 6]].
  destruct (get_row_val [[0; 5]; [1; 6]] 0 IZR 1) with (rnd := fun x : R => x) as (r & E & K).
  - intros i Hi. change (alen [[0; 5]; [1; 6]]) with 2%Z in Hi. assert (i = 0 \/ i = 1)%Z as [-> | ->] by lia; (eexists; split; reflexivity).
  - cbn. lia.
  - intros i H0 H1. change (alen [[0; 5]; [1; 6]]) with 2%Z in H1. replace i with 0%Z by lia. cbn. lra.
  - replace (1 / (IZR 1 - IZR 0))%R with (IZR 1) by field. rewrite Ztrunc_IZR. lia.
  - change (alen [[0; 5]; [1; 6]]) with 2%Z in K. assert (r = 1)%Z as ->.
    { destruct K as [[K _]|[[K _]|(B & K1 & K2 & K3)]]; [cbn in K; lra|cbn in K; lra|]. destruct (Z.eq_dec r 0) as [-> | N]; [specialize (K2 ltac:(lia)); cbn in K2; lra|lia]. }
    rewrite E. cbn [bind]. change ((1 <? 0) || (alen [[0; 5]; [1; 6]] <=? 1))%Z with false. cbv iota. change (at_rc [[0; 5]; [1; 6]] 1 0) with (Done 1). cbn [bind].
    destruct (Req_EM_T 1 1) as [_|N]; [|contradiction]. split; [reflexivity|]. split; [reflexivity|]. split; reflexivity.
Qed.
Print Assumptions C74_missing_column_refuted.

(** a file that cannot be opened gives a table without an error, and looking something up in it is undefined *)
Theorem C74_missing_file_refuted : forall stod, exists t, new_table stod None = Done t /\ forall rnd k ik val, k <> ik -> get_interpolated rnd t k ik val = Undef.
Proof.
  intros stod. exists (Tab [] []). split; [reflexivity|]. intros rnd k ik val H. unfold get_interpolated. destruct (teqb k ik) eqn:E; [apply teqb_iff in E; contradiction|].
  destruct (hget _ _) as [c h]. destruct (hget h ik) as [ic h2]. reflexivity.
Qed.
Print Assumptions C74_missing_file_refuted.

(** looking up in a table of one row is undefined, although the value is there *)
Theorem C74_one_row_refuted : exists t k ik y, has_column t k = true /\ has_column t ik = true /\ column (t_data t) 0 (fun _ => 3) /\ column (t_data t) 1 (fun _ => y) /\
  hfind (t_header t) ik = Some 0%Z /\ hfind (t_header t) k = Some 1%Z /\ n_rows t = 1%Z /\ forall rnd, get_interpolated rnd t k ik 3 = Undef.
Proof.
  exists (Tab [(lit "rho", 0); (lit "Te", 1)]%Z [[3; 5]]), (lit "Te"), (lit "rho"), 5.
  assert (C : forall i, (0 <= i < alen [[3; 5]%R])%Z -> i = 0%Z) by (intros i Hi; unfold alen in Hi; cbn in Hi; lia).
  split; [reflexivity|]. split; [reflexivity|]. split; [intros i Hi; rewrite (C i Hi); eexists; split; reflexivity|]. split; [intros i Hi; rewrite (C i Hi); eexists; split; reflexivity|]. repeat (split; [reflexivity|]). intros rnd. reflexivity.
Qed.
Print Assumptions C74_one_row_refuted.

(** the guess of the row may not fit into an int: the value is in the table, which is strictly increasing, but the spacing is not even *)
Theorem C74_guess_refuted : exists d xs val, column d 0 xs /\ alen d = 3%Z /\ increasing xs 3 /\ xs 0%Z <= val <= xs 2%Z /\ get_row (fun x => x) d 0 val = Undef.
Proof.
  exists [[0]; [/ 4294967296]; [1]], (fun i => if (i =? 0)%Z then 0 else if (i =? 1)%Z then / 4294967296 else 1), 1. split; [|split; [reflexivity|split; [|split; [cbn; lra|]]]].
  - intros i Hi. change (alen [[0]; [/ 4294967296]; [1]]) with 3%Z in Hi. assert (i = 0 \/ i = 1 \/ i = 2)%Z as [-> | [-> | ->]] by lia; (eexists; split; reflexivity).
  - intros i H0 H1. assert (i = 0 \/ i = 1)%Z as [-> | ->] by lia; cbn; lra.
  - unfold get_row. change (at_rc [[0]; [/ 4294967296]; [1]] 1 0) with (Done (/ 4294967296)). change (at_rc [[0]; [/ 4294967296]; [1]] 0 0) with (Done 0). cbn [bind].
    assert (T : to_int (1 / (/ 4294967296 - 0)) = Undef) by (unfold to_int; replace (1 / (/ 4294967296 - 0)) with (IZR 4294967296) by field; rewrite Ztrunc_IZR; reflexivity).
    cbv zeta. rewrite T. reflexivity.
Qed.
Print Assumptions C74_guess_refuted.

(** what follows an empty line is left out without an error *)
Theorem C74_blank_refuted : exists stod file t, new_table stod (Some file) = Done t /\ file = written [([lit "x"; lit "y"], LF); ([lit "1"; lit "2"], LF); ([], LF); ([lit "3"; lit "4"], LF)] /\ t_data t = [[0; 0]].
Proof. exists (fun _ => Some 0). eexists. exists (Tab [(lit "x", 0); (lit "y", 1)]%Z [[0; 0]]). split; [|split; reflexivity]. reflexivity. Qed.
Print Assumptions C74_blank_refuted.

(** * Examples *)

Definition ex_names : list text := [lit "rho"; lit "ne"; lit "Te"].
Definition ex_stod (w : text) : option R := if teqb w (lit "0") then Some 0 else if teqb w (lit "1") then Some 1 else if teqb w (lit "2.5") then Some (5 / 2) else if teqb w (lit "4") then Some 4 else None.
Definition ex_rows : list (list text * eol) := [([lit "0"; lit "4"; lit "1"], CR); ([lit "1"; lit "2.5"; lit "0"], CRLF); ([lit "4"; lit "1"; lit "2.5"], LF)].
Definition ex_vals : list (list R) := [[0; 4; 1]; [1; 5 / 2; 0]; [4; 1; 5 / 2]].
Definition ex_t : table := Tab [(lit "rho", 0); (lit "ne", 1); (lit "Te", 2)]%Z ex_vals.
Definition ex_xs (i : Z) : R := if (i =? 0)%Z then 0 else if (i =? 1)%Z then 1 else 4.
Definition ex_ys (i : Z) : R := if (i =? 0)%Z then 1 else if (i =? 1)%Z then 0 else 5 / 2.
Definition ex_ns (i : Z) : R := if (i =? 0)%Z then 4 else if (i =? 1)%Z then 5 / 2 else 1.

Lemma ex_names_words : Forall a_word ex_names.
Proof. repeat constructor; try discriminate; intros c Hc; cbn in Hc; repeat (destruct Hc as [<- | Hc]; [reflexivity|]); destruct Hc. Qed.

Example ex_C74 : ex_names <> [] /\ NoDup ex_names /\ Forall a_word ex_names /\
  Forall2 (fun l row => Forall a_word (fst l) /\ Forall2 (fun w v => ex_stod w = Some v) (fst l) row /\ alen row = alen ex_names) ex_rows ex_vals /\
  file_of ((ex_names, CRLF) :: ex_rows) (written ((ex_names, CRLF) :: ex_rows)) /\ new_table ex_stod (Some (written ((ex_names, CRLF) :: ex_rows))) = Done ex_t.
Proof.
  split; [discriminate|]. split; [repeat constructor; cbn; intuition discriminate|]. split; [exact ex_names_words|]. split.
  - repeat constructor; try discriminate; try (intros c Hc; cbn in Hc; repeat (destruct Hc as [<- | Hc]; [reflexivity|]); destruct Hc).
  - split; [left; reflexivity|reflexivity].
Qed.

(** the last line not ended; a row too short; a word that is no number *)
Example ex_C74_more : file_of [(ex_names, LF); ([lit "0"; lit "4"; lit "1"], LF)] (written [(ex_names, LF)] ++ tabbed [lit "0"; lit "4"; lit "1"]) /\
  new_table ex_stod (Some (written [(ex_names, LF)] ++ tabbed [lit "0"; lit "4"; lit "1"])) = Done (Tab (t_header ex_t) [[0; 4; 1]]) /\
  new_table ex_stod (Some (written ((ex_names, CR) :: ex_rows ++ [([lit "1"; lit "4"], LF)]))) = Exit /\
  new_table ex_stod (Some (written ((ex_names, CR) :: ex_rows ++ [([lit "1"; lit "4"; lit "x"], LF)]))) = Throw.
Proof. split; [right; exists [(ex_names, LF)]; eexists; exists LF; split; reflexivity|]. repeat split. Qed.

Example ex_C73 : column ex_vals 0 ex_xs /\ column ex_vals 2 ex_ys /\ column ex_vals 1 ex_ns /\ increasing ex_xs 3 /\ guess_fits (fun x => x) ex_xs 2 /\ ex_xs 0%Z <= 2 <= ex_xs 2%Z.
Proof.
  assert (C : forall i, (0 <= i < alen ex_vals)%Z -> i = 0%Z \/ i = 1%Z \/ i = 2%Z) by (intros i Hi; change (alen ex_vals) with 3%Z in Hi; lia).
  split; [intros i Hi; destruct (C i Hi) as [-> | [-> | ->]]; (eexists; split; reflexivity)|]. split; [intros i Hi; destruct (C i Hi) as [-> | [-> | ->]]; (eexists; split; reflexivity)|].
  split; [intros i Hi; destruct (C i Hi) as [-> | [-> | ->]]; (eexists; split; reflexivity)|].
  split; [intros i H0 H1; assert (i = 0 \/ i = 1)%Z as [-> | ->] by lia; cbn; lra|]. split; [|cbn; lra].
  unfold guess_fits, ex_xs. cbn [Z.eqb Pos.eqb]. replace (2 / (1 - 0)) with (IZR 2) by field. rewrite Ztrunc_IZR. lia.
Qed.

(** at 2, a third of the way from 1 to 4 *)
Example ex_C73_value : get_interpolated (fun x => x) ex_t (lit "Te") (lit "rho") 2 = Done (5 / 6, ex_t) /\ hole_size (fun x => x) ex_t (lit "ne") (lit "rho") (1 / 10000) = Done 1.
Proof.
  destruct ex_C73 as (HX & HY & HN & HI & HG & HB). split.
  - destruct (proj1 (C73_interpolated ex_t (lit "Te") (lit "rho") 2 0 ex_xs ex_ys 2 eq_refl eq_refl ltac:(discriminate) HX HY ltac:(cbn; lia) HI HG) HB) as (y & E & P). rewrite E. do 2 f_equal.
    symmetry. apply (proj1 (C73_line ex_xs ex_ys 3 2 y HI P)). exists 1%Z. split; [lia|]. right. split; [lia|]. cbn. lra.
  - destruct (C73_hole ex_t (lit "ne") (lit "rho") (1 / 10000) 1 0 ex_ns ex_xs eq_refl eq_refl HN HX) as [(i & B & E & A & C)|(_ & C)].
    + change (n_rows ex_t) with 3%Z in *. assert (i = 0 \/ i = 1 \/ i = 2)%Z as [-> | [-> | ->]] by lia; [|exact E|]; exfalso.
      * specialize (C 1%Z ltac:(lia)). cbn in C. rewrite Rabs_pos_eq in C; lra.
      * cbn in A. rewrite Rminus_diag_eq, Rabs_R0 in A; lra.
    + exfalso. specialize (C 0%Z ltac:(cbn; lia)). cbn in C. rewrite Rabs_pos_eq in C; lra.
Qed.
