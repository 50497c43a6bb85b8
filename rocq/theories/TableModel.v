(** Tables of initial conditions: src/psc_bgk_util/table.hxx, and getHoleSize of src/psc_bgk_util/bgk_params.hxx, which
    searches one.  Texts are as in InputModel.v.  [stod] is std::stod ([None]: it throws); [rnd] rounds after every operation on doubles.
    Infinities and NaN are not modelled. *)
From Coq Require Import Reals Ascii.
From Flocq Require Import Core.
From Verif Require Import Base Arr InputModel.
Local Open Scope R_scope.

(** what a call ends in: a value; exit(EXIT_FAILURE), table.hxx:129; an exception (211, std::stod in 109); undefined behaviour: an
    access outside of a vector, or a conversion to int that does not fit (159, 171, 174) *)
Inductive outcome (T : Type) := Done (v : T) | Exit | Throw | Undef.
Arguments Done {T}. Arguments Exit {T}. Arguments Throw {T}. Arguments Undef {T}.
(** one statement after the other, as in table.hxx:198-223 *)
Definition bind {T U} (o : outcome T) (k : T -> outcome U) : outcome U :=
  match o with Done v => k v | Exit => Exit | Throw => Throw | Undef => Undef end.
(** an element of a vector, table.hxx:159, 171 *)
Definition elem {T} (o : option T) : outcome T := match o with Some v => Done v | None => Undef end.

(** '\r', table.hxx:48 *)
Definition cr : ascii := ascii_of_N 13.

(** the lines that successive calls of safe_getline deliver until eof() holds, table.hxx:32-58, 118: \n, \r\n and \r end a line; the
    last need not be ended; [aft] when a \r has just ended a line (sgetc in 49) *)
Fixpoint safe_lines (aft : bool) (line s : text) : list text :=
  match s with
  | [] => match line with [] => [] | _ => [line] end
  | c :: s =>
      if aft && ceqb c newline then safe_lines false line s
      else if ceqb c cr then line :: safe_lines true [] s
      else if ceqb c newline then line :: safe_lines false [] s
      else safe_lines false (line ++ [c]) s
  end.

(** the words that [word_stream >> word] delivers, table.hxx:93, 108 *)
Fixpoint words (cur s : text) : list text :=
  match s with
  | [] => match cur with [] => [] | _ => [cur] end
  | c :: s => if isspace c then match cur with [] => words [] s | _ => cur :: words [] s end else words (cur ++ [c]) s
  end.

(** the map of column names, table.hxx:80: unordered_map as a list with one entry per key *)
Definition header := list (text * Z).
(** [header[k] = v], table.hxx:94 *)
Fixpoint hput (h : header) (k : text) (v : Z) : header :=
  match h with
  | [] => [(k, v)]
  | (k', v') :: h => if teqb k' k then (k', v) :: h else (k', v') :: hput h k v
  end.
(** the entry of a key, if there is one, table.hxx:153, 158 *)
Fixpoint hfind (h : header) (k : text) : option Z :=
  match h with
  | [] => None
  | (k', v') :: h => if teqb k' k then Some v' else hfind h k
  end.
(** [header[k]] as a value, table.hxx:158, 168, 205, 206: operator[] of a map adds a key that is not there, with value 0 *)
Definition hget (h : header) (k : text) : Z * header :=
  match hfind h k with Some v => (v, h) | None => (0%Z, hput h k 0) end.

(** a Table, table.hxx:80-81 *)
Record table := Tab { t_header : header; t_data : list (list R) }.

(** parse_header, table.hxx:83-99 *)
Definition parse_header (line : text) : header :=
  fst (fold_left (fun '(h, n) w => (hput h w n, (n + 1)%Z)) (words [] line) ([], 0%Z)).
(** n_cols, table.hxx:149 *)
Definition n_cols (h : header) : Z := Z.of_nat (length h).
(** n_rows, table.hxx:148 *)
Definition n_rows (t : table) : Z := alen (t_data t).
(** has_column, table.hxx:151-154 *)
Definition has_column (t : table) (k : text) : bool := match hfind (t_header t) k with Some _ => true | None => false end.

Section Table.
  Variable stod : text -> option R.
  Variable rnd : R -> R.

  (** parse_data_row, table.hxx:102-112 *)
  Fixpoint parse_row (ws : list text) : outcome (list R) :=
    match ws with
    | [] => Done []
    | w :: ws => match stod w with None => Throw | Some v => bind (parse_row ws) (fun l => Done (v :: l)) end
    end.

  (** parse_data, table.hxx:114-137: it ends at the first line without words *)
  Fixpoint parse_data (expected : Z) (lines : list text) : outcome (list (list R)) :=
    match lines with
    | [] => Done []
    | l :: ls => bind (parse_row (words [] l)) (fun row =>
        if (alen row =? 0)%Z then Done []
        else if (alen row =? expected)%Z then bind (parse_data expected ls) (fun d => Done (row :: d)) else Exit)
    end.

  (** the constructor, table.hxx:141-147; a file that cannot be opened ([None]) is read as an empty one *)
  Definition new_table (file : option text) : outcome table :=
    let lines := safe_lines false [] (match file with Some s => s | None => [] end) in
    let h := parse_header (hd [] lines) in
    bind (parse_data (n_cols h) (tl lines)) (fun d => Done (Tab h d)).

  (** data[row][col], table.hxx:159 *)
  Definition at_rc (d : list (list R)) (row col : Z) : outcome R := bind (elem (aget d row)) (fun r => elem (aget r col)).

  (** get, table.hxx:156-160; with the header after the call *)
  Definition get (t : table) (k : text) (row : Z) : outcome (R * table) :=
    let (col, h) := hget (t_header t) k in bind (at_rc (t_data t) row col) (fun v => Done (v, Tab h (t_data t))).

  (** (int)x, table.hxx:174 *)
  Definition to_int (x : R) : outcome Z :=
    let z := Ztrunc x in if ((- 2 ^ 31 <=? z) && (z <? 2 ^ 31))%Z then Done z else Undef.

  (** the first loop, table.hxx:176-178; [fuel] is max_row - row *)
  Fixpoint go_up (d : list (list R)) (col : Z) (val : R) (fuel : nat) (row : Z) : outcome Z :=
    match fuel with
    | O => Done row
    | Datatypes.S f => bind (at_rc d row col) (fun x => if Rlt_dec x val then go_up d col val f (row + 1) else Done row)
    end.
  (** the second loop, table.hxx:184-186; [fuel] is row - min_row *)
  Fixpoint go_down (d : list (list R)) (col : Z) (val : R) (fuel : nat) (row : Z) : outcome Z :=
    match fuel with
    | O => Done row
    | Datatypes.S f => bind (at_rc d row col) (fun x => if Rlt_dec val x then go_down d col val f (row - 1) else Done row)
    end.

  (** get_row, table.hxx:166-193, for the column with number col *)
  Definition get_row (d : list (list R)) (col : Z) (val : R) : outcome Z :=
    let max_row := (alen d - 1)%Z in
    bind (at_rc d 1 col) (fun x1 => bind (at_rc d 0 col) (fun x0 =>
    let delta := rnd (x1 - x0) in
    bind (to_int (rnd (val / delta))) (fun guess =>
    let row := Z.max 0 (Z.min max_row guess) in
    bind (go_up d col val (Z.to_nat (max_row - row)) row) (fun row =>
    bind (if (row =? max_row)%Z then bind (at_rc d row col) (fun x => Done (if Rlt_dec x val then true else false)) else Done false) (fun beyond =>
    if beyond then Done (max_row + 1)%Z else
    bind (go_down d col val (Z.to_nat row) row) (fun row =>
    bind (if (row =? 0)%Z then bind (at_rc d row col) (fun x => Done (if Rlt_dec val x then true else false)) else Done false) (fun before =>
    if before then Done (-1)%Z else Done row))))))).

  (** get_interpolated, table.hxx:198-223; with the header after the call *)
  Definition get_interpolated (t : table) (k ik : text) (val : R) : outcome (R * table) :=
    if teqb k ik then Done (val, t) else
    let (col, h1) := hget (t_header t) k in
    let (icol, h) := hget h1 ik in
    let d := t_data t in
    bind (get_row d icol val) (fun row =>
    if ((row <? 0) || (alen d <=? row))%Z then Throw else
    bind (at_rc d row icol) (fun x =>
    if Req_EM_T x val then bind (at_rc d row col) (fun y => Done (y, Tab h d)) else
    bind (at_rc d (row + 1) icol) (fun x2 => bind (at_rc d row col) (fun y => bind (at_rc d (row + 1) col) (fun y2 =>
    let w1 := rnd (x2 - val) in let w2 := rnd (val - x) in
    Done (rnd (rnd (rnd (w1 * y) + rnd (w2 * y2)) / rnd (w1 + w2)), Tab h d)))))).

  (** the loop of getHoleSize, bgk_params.hxx:46-50; the argument is row + 1.  [Throw]: throw in 51 *)
  Fixpoint hole_from (t : table) (ne rho : text) (eps : R) (n : nat) : outcome R :=
    match n with
    | O => Throw
    | Datatypes.S row => bind (get t ne (Z.of_nat row)) (fun '(v, t) =>
        if Rlt_dec eps (Rabs (rnd (v - 1))) then bind (get t rho (Z.of_nat row)) (fun '(x, _) => Done x) else hole_from t ne rho eps row)
    end.
  (** getHoleSize, bgk_params.hxx:41-52; ne, rho and eps are the constants there *)
  Definition hole_size (t : table) (ne rho : text) (eps : R) : outcome R := hole_from t ne rho eps (Z.to_nat (n_rows t)).
End Table.
