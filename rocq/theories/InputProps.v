(** C45: reading of parameter files. *)
From Coq Require Import Ascii String.
From Verif Require Import Base InputModel InputSpec InputProofs.
Local Open Scope Z_scope.
Local Open Scope list_scope.

(** Each text has exactly one division into lines. *)
Theorem C45_lines s : exists ls, is_lines s ls /\ forall ls', is_lines s ls' -> ls' = ls.
Proof.
  exists (getlines [] s). split; [apply (getlines_ok s []); intros []|]. intros ls'. apply is_lines_getlines.
Qed.
Print Assumptions C45_lines.

(** C45: a parameter is returned with the value of its last definition; one that is not defined is an error, or
    the default; a file that cannot be opened is an error. *)
Theorem C45_lookup s ls : is_lines s ls ->
  InputParams None = Abort NoFile /\
  exists m, InputParams (Some s) = Ok m /\
  (forall name v d, last_definition ls name v ->
     get parse_string m name = Ok v /\ getOrDefault parse_string m name d = Ok v /\
     getAndWarnOrDefault parse_string m name d = Ok v) /\
  (forall name T (parse : text -> parsed T) d, ~ defined ls name ->
     get parse m name = Abort Absent /\ getOrDefault parse m name d = Ok d /\ getAndWarnOrDefault parse m name d = Ok d).
Proof.
  intros HL. split; [reflexivity|]. exists (read s). split; [apply InputParams_read|]. split.
  - intros name v d HD. assert (has (read s) name = true) as H by (apply (has_iff s ls name HL), defined_last; eauto).
    unfold getOrDefault, getAndWarnOrDefault, get. rewrite H, (unparsed_some _ _ _ _ HL HD). repeat split.
  - intros name T parse d HN. pose proof (has_false s ls name HL HN) as H.
    unfold getOrDefault, getAndWarnOrDefault, get, getUnparsed. rewrite H. repeat split.
Qed.
Print Assumptions C45_lookup.

(** C45 for booleans: true or false in any case; all else is the documented error. *)
Theorem C45_bool s ls name v : is_lines s ls -> last_definition ls name v ->
  exists m, InputParams (Some s) = Ok m /\
  (Forall2 same_letter v (lit "true") -> get parse_bool m name = Ok true) /\
  (Forall2 same_letter v (lit "false") -> get parse_bool m name = Ok false) /\
  (~ Forall2 same_letter v (lit "true") -> ~ Forall2 same_letter v (lit "false") -> get parse_bool m name = Abort Malformed).
Proof.
  intros HL HD. exists (read s). split; [apply InputParams_read|]. unfold get. rewrite (unparsed_some _ _ _ _ HL HD).
  destruct (parse_bool_ok v) as [P1 [P2 P3]]. repeat split; intros.
  - rewrite P1 by assumption. reflexivity.
  - rewrite P2 by assumption. reflexivity.
  - rewrite P3 by assumption. reflexivity.
Qed.
Print Assumptions C45_bool.

(** C45 for integers in the range of int, and for values of which no leading part is an integer. Missing: values with
    something after the integer, see [C45_trailing_refuted], and integers beyond int, see [C45_range_refuted]. *)
Theorem C45_int_partial s ls name v : is_lines s ls -> last_definition ls name v ->
  exists m, InputParams (Some s) = Ok m /\
  (forall z, integer v z -> - 2 ^ 31 <= z < 2 ^ 31 -> get parse_int m name = Ok z) /\
  ((forall p t z, v = p ++ t -> ~ integer p z) -> get parse_int m name = Abort Malformed).
Proof.
  intros HL HD. exists (read s). split; [apply InputParams_read|]. unfold get. rewrite (unparsed_some _ _ _ _ HL HD). split.
  - intros z HI HZ. rewrite <- (app_nil_r v). rewrite (parse_int_ok v z []) by (try exact HI; discriminate).
    destruct (Z.leb_spec (- 2 ^ 31) z), (Z.ltb_spec z (2 ^ 31)); try lia. reflexivity.
  - intros HN. rewrite parse_int_invalid; [reflexivity| |exact HN].
    destruct HD as [pre [l [post [_ [[b1 [b2 [rest [_ [_ [_ [_ [_ [[N W] _]]]]]]]]] _]]]]]. destruct v as [|c v]; [congruence|]. apply W. left. reflexivity.
Qed.
Print Assumptions C45_int_partial.

(** What follows an integer within a value is ignored: "12abc" is read as 12, and "1e3" as 1. *)
Theorem C45_trailing_refuted : exists s ls name v v', is_lines s ls /\ last_definition ls name v /\
  (forall z, ~ integer v z) /\ exists m, InputParams (Some s) = Ok m /\ get parse_int m name = Ok v'.
Proof.
  pose (s := lit "nmax 1e3"). exists s, (getlines [] s), (lit "nmax"), (lit "1e3"), 1.
  split; [apply (getlines_ok s []); intros []|]. split; [apply fold_at; reflexivity|]. split.
  - intros z HI. assert (~ is_digit "e") as NE by (intros [d Hd]; discriminate).
    assert (forall w, ~ decimal (lit "1e3") w) as ND.
    { intros w D. destruct (decimal_digits _ _ D) as [F _]. inversion F as [|? ? _ F2]; subst. inversion F2; subst. contradiction. }
    destruct HI as [D|[[r [E _]]|[r [w [E _]]]]]; [exact (ND _ D)|discriminate|discriminate].
  - exists (read s). split; reflexivity.
Qed.
Print Assumptions C45_trailing_refuted.

(** An integer beyond the range of int ends in an exception that get does not catch. *)
Theorem C45_range_refuted : exists s ls name v z, is_lines s ls /\ last_definition ls name v /\
  integer v z /\ exists m, InputParams (Some s) = Ok m /\ get parse_int m name = Uncaught.
Proof.
  pose (s := lit "nmax 3000000000"). exists s, (getlines [] s), (lit "nmax"), (lit "3000000000"), 3000000000.
  split; [apply (getlines_ok s []); intros []|]. split; [apply fold_at; reflexivity|]. split.
  - left. change (lit "3000000000") with (((((((((["3"%char] ++ ["0"%char]) ++ ["0"%char]) ++ ["0"%char]) ++ ["0"%char]) ++ ["0"%char]) ++ ["0"%char]) ++ ["0"%char]) ++ ["0"%char]) ++ ["0"%char]).
    change 3000000000 with (10 * (10 * (10 * (10 * (10 * (10 * (10 * (10 * (10 * Z.of_nat 3 + Z.of_nat 0) + Z.of_nat 0) + Z.of_nat 0) + Z.of_nat 0) + Z.of_nat 0) + Z.of_nat 0) + Z.of_nat 0) + Z.of_nat 0) + Z.of_nat 0).
    do 9 (apply (D_snoc _ _ "0"%char 0); [|reflexivity|lia]). apply (D_one "3"%char 3); [reflexivity|lia].
  - exists (read s). split; reflexivity.
Qed.
Print Assumptions C45_range_refuted.

(** The functions that guard against parameters: they stop exactly on the parameters and values they are meant to. *)
Theorem C45_guards s ls : is_lines s ls -> exists m, InputParams (Some s) = Ok m /\
  (forall name, ~ defined ls name -> warnIfPresent m name = Ok false /\ errIfPresent m name = Ok tt /\
     forall T (parse : text -> parsed T) eqb w, errIfPresentAndEqual parse eqb m name w = Ok tt /\ errIfPresentAndNotEqual parse eqb m name w = Ok tt) /\
  (forall name v, last_definition ls name v -> warnIfPresent m name = Ok true /\ errIfPresent m name = Abort Forbidden /\
     forall w, errIfPresentAndEqual parse_string teqb m name w = (if list_eq_dec ascii_dec v w then Abort Forbidden else Ok tt) /\
               errIfPresentAndNotEqual parse_string teqb m name w = (if list_eq_dec ascii_dec v w then Ok tt else Abort Forbidden)).
Proof.
  intros HL. exists (read s). split; [apply InputParams_read|]. split.
  - intros name HN. pose proof (has_false s ls name HL HN) as H.
    unfold warnIfPresent, errIfPresent, errIfPresentAndEqual, errIfPresentAndNotEqual. rewrite H. repeat split.
  - intros name v HD. assert (has (read s) name = true) as H by (apply (has_iff s ls name HL), defined_last; eauto).
    unfold warnIfPresent, errIfPresent, errIfPresentAndEqual, errIfPresentAndNotEqual, get. rewrite H, (unparsed_some _ _ _ _ HL HD).
    cbn [negb parse_string]. split; [reflexivity|]. split; [reflexivity|]. intros w.
    destruct (list_eq_dec ascii_dec v w) as [->|N]; [rewrite teqb_refl; split; reflexivity|].
    rewrite (proj2 (teqb_false v w) N). split; reflexivity.
Qed.
Print Assumptions C45_guards.

(** a file with a comment, an empty line, a line without value and a parameter that is defined twice *)
Definition ex_file : text := lit "nmax 100 steps" ++ [newline; newline] ++ lit "restart" ++ [newline] ++ lit "  nmax   -20" ++ [newline] ++ lit "restart True".
Example ex_C45 : exists ls m, is_lines ex_file ls /\ List.length ls = 5%nat /\ InputParams (Some ex_file) = Ok m /\
  last_definition ls (lit "nmax") (lit "-20") /\ last_definition ls (lit "restart") (lit "True") /\ ~ defined ls (lit "steps") /\
  get parse_int m (lit "nmax") = Ok (-20) /\ get parse_bool m (lit "restart") = Ok true /\ get parse_int m (lit "restart") = Abort Malformed /\
  get parse_int m (lit "steps") = Abort Absent.
Proof.
  exists (getlines [] ex_file), (read ex_file). pose proof (getlines_ok ex_file [] ltac:(intros [])) as HL. cbn [app] in HL.
  split; [exact HL|]. split; [reflexivity|]. split; [reflexivity|].
  split; [apply fold_at; reflexivity|]. split; [apply fold_at; reflexivity|].
  split; [intros D; apply (has_iff _ _ _ HL) in D; discriminate|]. repeat split; reflexivity.
Qed.
Example ex_C45_integer : integer (lit "-20") (-20) /\ Forall2 same_letter (lit "True") (lit "true").
Proof.
  split.
  - right. right. exists (lit "20"), 20. split; [reflexivity|]. split; [|reflexivity].
    apply (D_snoc ["2"%char] (Z.of_nat 2) "0"%char 0); [|reflexivity|lia]. apply D_one; [reflexivity|lia].
  - constructor; [right; cbn; lia|]. repeat constructor.
Qed.
