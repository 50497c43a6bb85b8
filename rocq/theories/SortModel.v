(** The two counting sorts: src/libpsc/psc_sort/psc_sort_impl.hxx.  One patch;
    the loop over the patches (lines 22, 73) treats each independently.
    [cell] is [validCellIndex] of a particle: [None] is its failed assert.
    Counters are unbounded (the code uses [unsigned int]: at most 2^32 - 1
    particles per patch). *)
From Verif Require Import Base Arr.
Local Open Scope Z_scope.

Section Sort.
  Context {P : Type}.
  Variable cell : P -> option Z.
  Variable n_cells : Z.

  (** psc_sort_impl.hxx:27 *)
  Definition cnts_t := list Z.

  (** cnts[cni]++, psc_sort_impl.hxx:32 *)
  Definition incr (cnts : list Z) (cni n : Z) : option (list Z) :=
    match aget cnts cni with Some v => aset cnts cni (v + n) | None => None end.

  (** psc_sort_impl.hxx:29-33 *)
  Fixpoint count (prts : list P) (cnts : list Z) : option (list Z) :=
    match prts with
    | [] => Some cnts
    | prt :: r =>
        match cell prt with
        | Some cni => match incr cnts cni 1 with Some cnts => count r cnts | None => None end
        | None => None
        end
    end.

  (** psc_sort_impl.hxx:35-41 and 93-99: exclusive scan in place; the array has
      n_cells elements, the loop walks over all of them *)
  Fixpoint offsets (cnts : list Z) (cur : Z) : list Z * Z :=
    match cnts with
    | [] => ([], cur)
    | n :: r => let '(o, c) := offsets r (cur + n) in (cur :: o, c)
    end.

  (** the array being filled (psc_sort_impl.hxx:42-50; elements uninitialised at first) and the counters *)
  Definition sort_state := (list (option P) * list Z)%type.

  (** psc_sort_impl.hxx:48-49 *)
  Definition move1 (cni : Z) (prt : P) (st : sort_state) : option sort_state :=
    let '(particles2, cnts) := st in
    match aget cnts cni with
    | Some pos =>
        match aset particles2 pos (Some prt), incr cnts cni 1 with
        | Some particles2, Some cnts => Some (particles2, cnts)
        | _, _ => None
        end
    | None => None
    end.

  (** psc_sort_impl.hxx:46-50 *)
  Fixpoint move (prts : list P) (st : sort_state) : option sort_state :=
    match prts with
    | [] => Some st
    | prt :: r =>
        match cell prt with
        | Some cni => match move1 cni prt st with Some st => move r st | None => None end
        | None => None
        end
    end.

  (** psc_sort_impl.hxx:20-57 *)
  Definition sort_countsort (prts : list P) : option (list P) :=
    match count prts (repeat 0 (Z.to_nat n_cells)) with
    | None => None
    | Some cnts =>
        let '(cnts, cur) := offsets cnts 0 in
        if cur =? alen prts then
          match move prts (repeat None (length prts), cnts) with
          | Some (particles2, _) => all_some particles2
          | None => None
          end
        else None
    end.

  (** ** SortCountsort2 *)

  (** psc_sort_impl.hxx:77-83 *)
  Definition find_cnis (prts : list P) : option (list Z) := all_some (map cell prts).

  (** psc_sort_impl.hxx:87-91 *)
  Fixpoint count2 (cnis : list Z) (cnts : list Z) : option (list Z) :=
    match cnis with
    | [] => Some cnts
    | cni :: r => match incr cnts cni 1 with Some cnts => count2 r cnts | None => None end
    end.

  (** psc_sort_impl.hxx:110, memcpy(&dst[pos], src, n): element by element; the source elements are
      [src] *)
  Fixpoint copy_run (dst : list (option P)) (pos : Z) (src : list P) : option (list (option P)) :=
    match src with
    | [] => Some dst
    | x :: r => match aset dst pos (Some x) with
                | Some dst => copy_run dst (pos + 1) r
                | None => None
                end
    end.

  (** psc_sort_impl.hxx:106-109: number of following elements with index [cni] *)
  Fixpoint run_length (cni : Z) (cnis : list Z) : nat :=
    match cnis with
    | c :: r => if c =? cni then S (run_length cni r) else 0%nat
    | [] => 0%nat
    end.

  (** psc_sort_impl.hxx:104-114; [cnis] and [prts] are the parts of the arrays
      from position i on *)
  Fixpoint move2 (fuel : nat) (cnis : list Z) (prts : list P) (st : sort_state) : option sort_state :=
    match cnis with
    | [] => Some st
    | cni :: cnis' =>
        match fuel with
        | O => None
        | S fuel =>
            let n := S (run_length cni cnis') in
            let '(particles2, cnts) := st in
            match aget cnts cni with
            | Some pos =>
                match copy_run particles2 pos (firstn n prts), incr cnts cni (Z.of_nat n) with
                | Some particles2, Some cnts =>
                    move2 fuel (skipn n cnis) (skipn n prts) (particles2, cnts)
                | _, _ => None
                end
            | None => None
            end
        end
    end.

  (** psc_sort_impl.hxx:71-122 *)
  Definition sort_countsort2 (prts : list P) : option (list P) :=
    match find_cnis prts with
    | None => None
    | Some cnis =>
        match count2 cnis (repeat 0 (Z.to_nat n_cells)) with
        | None => None
        | Some cnts =>
            let '(cnts, cur) := offsets cnts 0 in
            if cur =? alen prts then
              match move2 (length cnis) cnis prts (repeat None (length prts), cnts) with
              | Some (particles2, _) => all_some particles2
              | None => None
              end
            else None
        end
    end.
End Sort.
