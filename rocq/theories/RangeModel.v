(** Index ranges: src/kg/include/kg/VecRange.hxx, and flat indices:
    src/kg/include/kg/Vec3.h.  Vectors of N components are lists of length N. *)
From Verif Require Import Base Arr.
Local Open Scope Z_scope.

(** VecRange.hxx:43-55, [k] = d + 1 *)
Fixpoint incr_loop (starts stops : list Z) (k : nat) (current : list Z) (end_ : bool) : option (list Z * bool) :=
  match k with
  | O => Some (current, end_)
  | S d =>
      match aget current (Z.of_nat d), aget starts (Z.of_nat d), aget stops (Z.of_nat d) with
      | Some c, Some start, Some stop =>
          match aset current (Z.of_nat d) (c + 1) with
          | Some current =>
              if c + 1 <? stop then Some (current, end_)
              else
                match aset current (Z.of_nat d) start with
                | Some current => incr_loop starts stops d current (if Nat.eqb d 0 then true else end_)
                | None => None
                end
          | None => None
          end
      | _, _, _ => None
      end
  end.

(** the iterator: current_ and end_ (VecRange.hxx:66-67) *)
Definition vr_iter := (list Z * bool)%type.

(** VecRange.hxx:41-57; N is the number of components *)
Definition vr_next (starts stops : list Z) (it : vr_iter) : option vr_iter :=
  incr_loop starts stops (length starts) (fst it) (snd it).

(** VecRange.hxx:73 *)
Definition vr_begin (starts : list Z) : vr_iter := (starts, false).

(** the range-based for loop: compares with end() (VecRange.hxx:61 and 75, true is
    the end_ of end()), dereferences (59), increments.  [fuel] bounds the number of
    iterations; running out is [None]. *)
Fixpoint vr_loop (fuel : nat) (starts stops : list Z) (it : vr_iter) : option (list (list Z)) :=
  if negb (Bool.eqb (snd it) true) then
    match fuel with
    | O => None
    | S fuel =>
        match vr_next starts stops it with
        | Some it' =>
            match vr_loop fuel starts stops it' with
            | Some l => Some (fst it :: l)
            | None => None
            end
        | None => None
        end
    end
  else Some [].

(** the loop over a VecRange, from begin() (VecRange.hxx:73-75) *)
Definition vr_visits (fuel : nat) (starts stops : list Z) : option (list (list Z)) :=
  vr_loop fuel starts stops (vr_begin starts).

(** Vec3.h:480-487 *)
Fixpoint flatten_rest (flat : Z) (idx dims : list Z) : Z :=
  match idx, dims with
  | i :: idx, n :: dims => flatten_rest (flat * n + i) idx dims
  | _, _ => flat
  end.
(** Vec3.h:480-487 *)
Definition flatten_index (idx dims : list Z) : option Z :=
  match idx, dims with
  | i :: idx, _ :: dims => Some (flatten_rest i idx dims)
  | _, _ => None
  end.
