(** Cell indices: src/include/particle_indexer.hxx. *)
From Verif Require Import Base.
Local Open Scope Z_scope.

(** [int] is 32 bits wide *)
Definition is_int (x : Z) : bool := (- 2 ^ 31 <=? x) && (x <? 2 ^ 31).

(** result of an [int] operation (particle_indexer.hxx:40-72); overflow is undefined behaviour *)
Definition int_op (x : Z) : option Z := if is_int x then Some x else None.

(** conversion to [unsigned int] (particle_indexer.hxx:40-60) *)
Definition uint (x : Z) : Z := x mod 2 ^ 32.

(** particle_indexer.hxx:71 *)
Definition n_cells (ldims : V3 Z) : option Z :=
  match int_op (c0 ldims * c1 ldims) with
  | Some a => int_op (a * c2 ldims)
  | None => None
  end.

(** particle_indexer.hxx:101-112; the usual arithmetic conversions turn ldims_[d]
    into unsigned as well *)
Definition is_valid_cell_position (ldims cpos : V3 Z) : bool :=
  forallb (fun d => negb (uint (get3 ldims d) <=? uint (get3 cpos d))) dims3.

(** particle_indexer.hxx:85-93 *)
Definition cell_index (ldims cpos : V3 Z) : option Z :=
  if existsb (fun d => uint (get3 ldims d) <=? uint (get3 cpos d)) dims3 then Some (-1)
  else
    match int_op (c2 cpos * c1 ldims) with
    | Some a =>
        match int_op (a + c1 cpos) with
        | Some b =>
            match int_op (b * c0 ldims) with
            | Some c => int_op (c + c0 cpos)
            | None => None
            end
        | None => None
        end
    | None => None
    end.

(** particle_indexer.hxx:114-130 with the cell position already computed; failed
    asserts are [None] *)
Definition valid_cell_index (ldims cpos : V3 Z) : option Z :=
  if is_valid_cell_position ldims cpos then
    match cell_index ldims cpos with
    | Some i => if 0 <=? i then Some i else None
    | None => None
    end
  else None.
