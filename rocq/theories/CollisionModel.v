(** Which particles collide: src/libpsc/psc_collision/psc_collision_impl.hxx.
    One patch; the loop over the patches (line 60) treats each independently.
    The physics of one collision is in BinaryCollisionModel.v; here it is recorded
    as an event.  Statistics (lines 82-85, 116-138) and the momentum transfer
    diagnostic (lines 176-212) are not modelled. *)
From Verif Require Import Base Arr.
Local Open Scope Z_scope.

Section Collision.
  Context {P : Type}.
  (** [validCellIndex] of a particle; [None] is its failed assert *)
  Variable cell : P -> option Z.

  (** psc_collision_impl.hxx:153-155 and 157-159: [while (last < upto) offsets[++last] = n]
      ([fuel] bounds the number of iterations) *)
  Fixpoint fill_offsets (fuel : nat) (offs : list Z) (last upto n : Z) : option (list Z * Z) :=
    if last <? upto then
      match fuel with
      | O => None
      | S fuel => match aset offs (last + 1) n with
                  | Some offs => fill_offsets fuel offs (last + 1) upto n
                  | None => None
                  end
      end
    else Some (offs, last).

  (** psc_collision_impl.hxx:150-156 *)
  Fixpoint offsets_loop (prts : list P) (n : Z) (offs : list Z) (last : Z) : option (list Z * Z) :=
    match prts with
    | [] => Some (offs, last)
    | prt :: r =>
        match cell prt with
        | Some ci =>
            if last <=? ci then
              match fill_offsets (Z.to_nat (ci - last)) offs last ci n with
              | Some (offs, last) => offsets_loop r (n + 1) offs last
              | None => None
              end
            else None
        | None => None
        end
    end.

  (** psc_collision_impl.hxx:144-160; [offs] is the array passed in *)
  Definition find_cell_offsets (n_cells : Z) (prts : list P) (offs : list Z) : option (list Z) :=
    match aset offs 0 0 with
    | None => None
    | Some offs =>
        match offsets_loop prts 0 offs 0 with
        | None => None
        | Some (offs, last) =>
            match fill_offsets (Z.to_nat (n_cells - last)) offs last n_cells (alen prts) with
            | Some (offs, _) => Some offs
            | None => None
            end
        end
    end.

  (** one call of [do_bc] (lines 250-255): the two particles and the time weight
      in units of [.5 * nudt1] *)
  Definition event := (Z * Z * Z)%type.

  (** [nudts[cnt++] = do_bc(mprts, p, permute[i], permute[j], h * .5 * nudt1)],
      where nudts has [cap] elements and cnt is the number of events so far *)
  Definition do_bc (cap : Z) (permute : list Z) (i j h : Z) (evs : list event) : option (list event) :=
    match aget permute i, aget permute j with
    | Some a, Some b => if alen evs <? cap then Some (evs ++ [(a, b, h)]) else None
    | _, _ => None
    end.

  (** psc_collision_impl.hxx:241-243 *)
  Fixpoint collide_pairs (fuel : nat) (cap : Z) (permute : list Z) (n : Z) (evs : list event) : option (list event) :=
    if n <? alen permute then
      match fuel with
      | O => None
      | S fuel => match do_bc cap permute n (n + 1) 2 evs with
                  | Some evs => collide_pairs fuel cap permute (n + 2) evs
                  | None => None
                  end
      end
    else Some evs.

  (** psc_collision_impl.hxx:217-248 *)
  Definition collide_in_cell (permute : list Z) : option (list event) :=
    let nn := alen permute in
    if nn <? 2 then Some []
    else
      let cap := Z.quot nn 2 + 2 in
      if Z.rem nn 2 =? 1 then
        match do_bc cap permute 0 1 1 [] with
        | Some evs =>
            match do_bc cap permute 0 2 1 evs with
            | Some evs =>
                match do_bc cap permute 1 2 1 evs with
                | Some evs => collide_pairs (length permute) cap permute 3 evs
                | None => None
                end
            | None => None
            end
        | None => None
        end
      else collide_pairs (length permute) cap permute 0 [].

  (** the random numbers only enter by the order [std::shuffle] returns
      (line 169); [shuffle c] is what it does in the call for cell c *)
  Variable shuffle : Z -> list Z -> list Z.

  (** psc_collision_impl.hxx:165-171 *)
  Definition randomize_in_cell (c n_start n_end : Z) : list Z := shuffle c (zrange n_start n_end).

  (** psc_collision_impl.hxx:70-86: the body of the loop over the cells *)
  Definition collide_cell (ldims : V3 Z) (offs : list Z) (i : V3 Z) : option (list event) :=
    let c := (c2 i * c1 ldims + c1 i) * c0 ldims + c0 i in
    match aget offs c, aget offs (c + 1) with
    | Some n_start, Some n_end => collide_in_cell (randomize_in_cell c n_start n_end)
    | _, _ => None
    end.

  (** Grid_::Foreach_3d(0, 0): src/include/grid.hxx:124-139 *)
  Definition foreach_3d (ldims : V3 Z) : list (V3 Z) :=
    flat_map (fun k => flat_map (fun j => map (fun i => v3 i j k) (zrange 0 (c0 ldims)))
                                (zrange 0 (c1 ldims))) (zrange 0 (c2 ldims)).

  (** psc_collision_impl.hxx:60-99: all the collisions in a patch, in order *)
  Definition collide_patch (ldims : V3 Z) (prts : list P) : option (list event) :=
    let nr_cells := c0 ldims * c1 ldims * c2 ldims in
    match find_cell_offsets nr_cells prts (repeat 0 (Z.to_nat (nr_cells + 1))) with
    | None => None
    | Some offs => option_map (@concat event) (all_some (map (collide_cell ldims offs) (foreach_3d ldims)))
    end.
End Collision.
