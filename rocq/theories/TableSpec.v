(** What a table is, how it is written, and what its interpolation is to be. *)
From Coq Require Import Reals Ascii.
From Verif Require Import Base Arr InputModel.
Local Open Scope R_scope.

(** the values in column col are xs *)
Definition column (d : list (list R)) (col : Z) (xs : Z -> R) : Prop := forall i, (0 <= i < alen d)%Z -> exists r, aget d i = Some r /\ aget r col = Some (xs i).
(** strictly increasing *)
Definition increasing (xs : Z -> R) (n : Z) : Prop := forall i, (0 <= i)%Z -> (i + 1 < n)%Z -> xs i < xs (i + 1)%Z.
(** (x, y) is on the line through the n points (xs, ys) *)
Definition polyline (xs ys : Z -> R) (n : Z) (x y : R) : Prop :=
  exists i, (0 <= i < n)%Z /\ ((x = xs i /\ y = ys i) \/
    (i + 1 < n)%Z /\ xs i <= x <= xs (i + 1)%Z /\ (y - ys i) * (xs (i + 1)%Z - xs i) = (x - xs i) * (ys (i + 1)%Z - ys i)).

(** ends of lines: \n, \r\n, \r *)
Inductive eol := LF | CRLF | CR.
Definition eol_text (e : eol) : text :=
  match e with LF => [ascii_of_N 10] | CRLF => [ascii_of_N 13; ascii_of_N 10] | CR => [ascii_of_N 13] end.
(** words separated by tabs *)
Fixpoint tabbed (ws : list text) : text :=
  match ws with [] => [] | [w] => w | w :: r => w ++ ascii_of_N 9 :: tabbed r end.
(** a file of lines, each with its own kind of end *)
Definition written (ls : list (list text * eol)) : text := flat_map (fun l => tabbed (fst l) ++ eol_text (snd l)) ls.
(** a file with these lines; the last may have no end *)
Definition file_of (ls : list (list text * eol)) (file : text) : Prop :=
  file = written ls \/ exists ls' l e, ls = ls' ++ [(l, e)] /\ file = written ls' ++ tabbed l.
(** a word: something without white space *)
Definition a_word (w : text) : Prop := w <> [] /\ forall c, In c w -> isspace c = false.
