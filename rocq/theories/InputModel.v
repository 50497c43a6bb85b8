(** Reading of parameter files: class InputParams of src/include/input_params.hxx.  A text is the
    list of its characters.  Floating-point parameters (parse<double>, parse<float>, 280-284 and
    292-296) are not modelled.  Warnings (LOG_WARN), which only print, are not modelled either. *)
From Coq Require Import Ascii String.
From Verif Require Import Base.
Local Open Scope Z_scope.
Local Open Scope list_scope.

(** a std::string, e.g. the keys and values of the map, input_params.hxx:61 *)
Definition text := list ascii.
(** a string literal, as in input_params.hxx:271-274 *)
Definition lit (s : string) : text := list_ascii_of_string s.

(** what a call of a member function ends in: a value; LOG_ERROR, i.e. a message and abort()
    (src/libpsc/bits.hxx:35-40), for one of the reasons of input_params.hxx:81, 106, 193, 211, 235 and 258; an
    exception that is not caught *)
Inductive error := NoFile | Malformed | Forbidden | Absent.
(** as above (input_params.hxx:81-258) *)
Inductive result (T : Type) := Ok (v : T) | Abort (e : error) | Uncaught.
Arguments Ok {T}. Arguments Abort {T}. Arguments Uncaught {T}.

(** white space of the C locale, which [>>] (input_params.hxx:73-75) skips: space, \t, \n, \v, \f, \r *)
Definition isspace (c : ascii) : bool :=
  let n := N_of_ascii c in (n =? 32)%N || ((9 <=? n)%N && (n <=? 13)%N).
(** '\n', where std::getline (input_params.hxx:70) ends a line *)
Definition newline : ascii := ascii_of_N 10.
(** equality of characters, for the comparisons of strings below (input_params.hxx:90, 271) *)
Definition ceqb (a b : ascii) : bool := (N_of_ascii a =? N_of_ascii b)%N.

(** the lines std::getline delivers, input_params.hxx:70: the last line need not end in a newline; an empty rest
    after the last newline is not a line *)
Fixpoint getlines (line : text) (s : text) : list text :=
  match s with
  | [] => match line with [] => [] | _ => [line] end
  | c :: s => if ceqb c newline then line :: getlines [] s else getlines (line ++ [c]) s
  end.

(** leading white space removed, as [>>] does, input_params.hxx:74 *)
Fixpoint skip (s : text) : text :=
  match s with
  | [] => []
  | c :: r => if isspace c then skip r else s
  end.
(** the characters up to the next white space, and the rest ([>>], input_params.hxx:74) *)
Fixpoint word (s : text) : text * text :=
  match s with
  | [] => ([], [])
  | c :: r => if isspace c then ([], s) else let (w, t) := word r in (c :: w, t)
  end.
(** [iss >> w], input_params.hxx:74: fails if there is no character *)
Definition extract (s : text) : option (text * text) :=
  match word (skip s) with
  | ([], _) => None
  | wr => Some wr
  end.

(** input_params.hxx:73-75 *)
Definition parse_line (line : text) : option (text * text) :=
  match extract line with
  | Some (paramName, rest) => match extract rest with Some (paramVal, _) => Some (paramName, paramVal) | None => None end
  | None => None
  end.

(** comparison of std::string (keys of the map, input_params.hxx:61; 271-274) *)
Fixpoint teqb (a b : text) : bool :=
  match a, b with
  | [], [] => true
  | x :: a, y :: b => ceqb x y && teqb a b
  | _, _ => false
  end.

(** the map, input_params.hxx:61: unordered_map as a list with one entry per key *)
Definition params := list (text * text).
(** [params[k] = v], input_params.hxx:76 *)
Fixpoint put (m : params) (k v : text) : params :=
  match m with
  | [] => [(k, v)]
  | (k', v') :: m => if teqb k' k then (k', v) :: m else (k', v') :: put m k v
  end.
(** [params.at(k)], 255 *)
Fixpoint at_ (m : params) (k : text) : option text :=
  match m with
  | [] => None
  | (k', v') :: m => if teqb k' k then Some v' else at_ m k
  end.
(** [params.count(k)], 90 *)
Definition count (m : params) (k : text) : Z := Z.of_nat (List.length (filter (fun kv => teqb (fst kv) k) m)).

(** the constructor, input_params.hxx:64-83; the content of the file, None if it cannot be opened *)
Definition InputParams (file : option text) : result params :=
  match file with
  | None => Abort NoFile
  | Some s => Ok (fold_left (fun m line => match parse_line line with Some (k, v) => put m k v | None => m end) (getlines [] s) [])
  end.

(** input_params.hxx:90 *)
Definition has (m : params) (paramName : text) : bool := count m paramName =? 1.

(** _getUnparsed, 252-259.  Uncaught: std::out_of_range of at() *)
Definition getUnparsed (m : params) (paramName : text) : result text :=
  if has m paramName then match at_ m paramName with Some v => Ok v | None => Uncaught end else Abort Absent.

(** what parse<T> (input_params.hxx:262-296) ends in: a value, std::invalid_argument, std::out_of_range *)
Inductive parsed (T : Type) := Val (v : T) | Invalid | OutOfRange.
Arguments Val {T}. Arguments Invalid {T}. Arguments OutOfRange {T}.

(** std::tolower in the C locale, 269 *)
Definition tolower (c : ascii) : ascii :=
  let n := N_of_ascii c in if (65 <=? n)%N && (n <=? 90)%N then ascii_of_N (n + 32) else c.
(** parse<bool>, 265-278 *)
Definition parse_bool (val : text) : parsed bool :=
  let val := map tolower val in
  if teqb val (lit "true") then Val true else if teqb val (lit "false") then Val false else Invalid.

(** the value of a digit (strtol within std::stoi, input_params.hxx:286-290) *)
Definition digit (c : ascii) : option Z :=
  let n := N_of_ascii c in if (48 <=? n)%N && (n <=? 57)%N then Some (Z.of_N n - 48) else None.
(** strtol, base 10, as std::stoi uses it: the value of the leading digits and their number *)
Fixpoint digits (acc : Z) (n : nat) (s : text) : Z * nat :=
  match s with
  | c :: r => match digit c with Some d => digits (10 * acc + d) (S n) r | None => (acc, n) end
  | [] => (acc, n)
  end.
(** std::stoi, called in parse<int>, 286-290: leading white space, a sign, digits; the rest is ignored; values
    beyond int are out of range (beyond long, too) *)
Definition parse_int (val : text) : parsed Z :=
  let s := skip val in
  let '(sign, s) := match s with
                    | c :: r => if ceqb c "-" then (-1, r) else if ceqb c "+" then (1, r) else (1, s)
                    | [] => (1, s)
                    end in
  match digits 0 0 s with
  | (_, O) => Invalid
  | (v, _) => if (- 2 ^ 31 <=? sign * v) && (sign * v <? 2 ^ 31) then Val (sign * v) else OutOfRange
  end.
(** parse<std::string>, 298-302 *)
Definition parse_string (val : text) : parsed text := Val val.

(** get, input_params.hxx:98-110 *)
Definition get {T} (parse : text -> parsed T) (m : params) (paramName : text) : result T :=
  match getUnparsed m paramName with
  | Ok unparsed => match parse unparsed with Val v => Ok v | Invalid => Abort Malformed | OutOfRange => Uncaught end
  | Abort e => Abort e
  | Uncaught => Uncaught
  end.
(** getOrDefault, 120-133 *)
Definition getOrDefault {T} (parse : text -> parsed T) (m : params) (paramName : text) (deflt : T) : result T :=
  if has m paramName then get parse m paramName else Ok deflt.
(** getAndWarnOrDefault, 143-160 *)
Definition getAndWarnOrDefault {T} (parse : text -> parsed T) (m : params) (paramName : text) (deflt : T) : result T :=
  if negb (has m paramName) then Ok deflt else get parse m paramName.
(** warnIfPresent, 168-180 *)
Definition warnIfPresent (m : params) (paramName : text) : result bool :=
  if negb (has m paramName) then Ok false else Ok true.
(** errIfPresent, 187-195 *)
Definition errIfPresent (m : params) (paramName : text) : result unit :=
  if negb (has m paramName) then Ok tt else Abort Forbidden.
(** errIfPresentAndEqual, 202-217 *)
Definition errIfPresentAndEqual {T} (parse : text -> parsed T) (eqb : T -> T -> bool) (m : params) (paramName : text) (forbiddenVal : T) : result unit :=
  if negb (has m paramName) then Ok tt
  else match get parse m paramName with
       | Ok v => if eqb v forbiddenVal then Abort Forbidden else Ok tt
       | Abort e => Abort e
       | Uncaught => Uncaught
       end.
(** errIfPresentAndNotEqual, 224-243 *)
Definition errIfPresentAndNotEqual {T} (parse : text -> parsed T) (eqb : T -> T -> bool) (m : params) (paramName : text) (allowedVal : T) : result unit :=
  if negb (has m paramName) then Ok tt
  else match get parse m paramName with
       | Ok v => if eqb v allowedVal then Ok tt else Abort Forbidden
       | Abort e => Abort e
       | Uncaught => Uncaught
       end.
