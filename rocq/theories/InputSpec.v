(** What a parameter file means. *)
From Coq Require Import Ascii String.
From Verif Require Import Base.
Local Open Scope Z_scope.
Local Open Scope list_scope.

Definition space (c : ascii) : Prop := In (nat_of_ascii c) [32; 9; 10; 11; 12; 13]%nat.
Definition blank (s : list ascii) : Prop := forall c, In c s -> space c.
Definition is_word (s : list ascii) : Prop := s <> [] /\ forall c, In c s -> ~ space c.

Definition nl : ascii := ascii_of_nat 10.

(** the lines of a text: each ends in a newline, but the last may lack it *)
Inductive is_lines : list ascii -> list (list ascii) -> Prop :=
| L_nil : is_lines [] []
| L_last l : l <> [] -> ~ In nl l -> is_lines l [l]
| L_cons l s ls : ~ In nl l -> is_lines s ls -> is_lines (l ++ nl :: s) (l :: ls).

(** a line whose first two words are a name and a value *)
Definition defines (line name value : list ascii) : Prop :=
  exists b1 b2 rest, line = b1 ++ name ++ b2 ++ value ++ rest /\
    blank b1 /\ is_word name /\ b2 <> [] /\ blank b2 /\ is_word value /\ (rest = [] \/ exists c r, rest = c :: r /\ space c).

(** the last of the lines that define a name *)
Definition last_definition (ls : list (list ascii)) (name value : list ascii) : Prop :=
  exists pre l post, ls = pre ++ l :: post /\ defines l name value /\ forall l' v', In l' post -> ~ defines l' name v'.

Definition defined (ls : list (list ascii)) (name : list ascii) : Prop := exists l v, In l ls /\ defines l name v.

(** equal up to the case of the letters A-Z *)
Definition same_letter (a b : ascii) : Prop :=
  a = b \/ (65 <= nat_of_ascii a <= 90 /\ nat_of_ascii b = nat_of_ascii a + 32)%nat.

(** the value of a sequence of digits *)
Inductive decimal : list ascii -> Z -> Prop :=
| D_one c d : nat_of_ascii c = (48 + d)%nat -> (d < 10)%nat -> decimal [c] (Z.of_nat d)
| D_snoc s v c d : decimal s v -> nat_of_ascii c = (48 + d)%nat -> (d < 10)%nat -> decimal (s ++ [c]) (10 * v + Z.of_nat d).

Definition minus : ascii := ascii_of_nat 45.
Definition plus : ascii := ascii_of_nat 43.
Definition integer (s : list ascii) (v : Z) : Prop :=
  decimal s v \/ (exists r, s = plus :: r /\ decimal r v) \/ (exists r w, s = minus :: r /\ decimal r w /\ v = - w).
