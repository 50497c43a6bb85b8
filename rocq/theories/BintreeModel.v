(** The search tree for sparse patch maps: src/libmrc/src/bintree.c.
    Pointers to nodes are indices into tree->nodes, [None] is NULL; a pointer to a
    node pointer says which field it points to. *)
From Verif Require Import Base Arr.
Local Open Scope Z_scope.

(** struct bintree_node *, bintree.h:17-22 *)
Definition ptr := option Z.

(** src/libmrc/include/bintree.h:17-22 *)
Record node := Node { nd_key : Z; nd_value : Z; nd_left : ptr; nd_right : ptr }.

(** struct bintree (bintree.h:11-15) and the static counter numelements
    (bintree.c:5); malloc'ed nodes are uninitialised at first *)
Record tree := Tree { nodes : list (option node); root : ptr; numelements : Z }.

(** [struct bintree_node **] (bintree.c:22, 35, 48): &tree->root, &n->left, &n->right *)
Inductive slot := SRoot | SLeft (n : Z) | SRight (n : Z).

(** dereferencing a node pointer (bintree.c:28-50); [None]: not a node *)
Definition get_node (t : tree) (i : Z) : option node :=
  match aget (nodes t) i with Some (Some n) => Some n | _ => None end.

(** reading *root (bintree.c:21) *)
Definition load (t : tree) (s : slot) : option ptr :=
  match s with
  | SRoot => Some (root t)
  | SLeft i => option_map nd_left (get_node t i)
  | SRight i => option_map nd_right (get_node t i)
  end.

(** writing a node (bintree.c:59-62) *)
Definition set_node (t : tree) (i : Z) (n : node) : option tree :=
  match aset (nodes t) i (Some n) with
  | Some l => Some (Tree l (root t) (numelements t))
  | None => None
  end.

(** writing *target (bintree.c:58) *)
Definition store (t : tree) (s : slot) (p : ptr) : option tree :=
  match s with
  | SRoot => Some (Tree (nodes t) p (numelements t))
  | SLeft i => match get_node t i with
               | Some n => set_node t i (Node (nd_key n) (nd_value n) p (nd_right n))
               | None => None
               end
  | SRight i => match get_node t i with
                | Some n => set_node t i (Node (nd_key n) (nd_value n) (nd_left n) p)
                | None => None
                end
  end.

(** bintree.c:24-56: the target; a failed assert is [None] *)
Fixpoint find_target (fuel : nat) (t : tree) (key : Z) (parent : ptr) (target : slot) : option slot :=
  match parent with
  | None => Some target
  | Some i =>
      match fuel, get_node t i with
      | S fuel, Some n =>
          if key <? nd_key n then
            match nd_left n with
            | Some _ => find_target fuel t key (nd_left n) target
            | None => Some (SLeft i)
            end
          else if nd_key n <? key then
            match nd_right n with
            | Some _ => find_target fuel t key (nd_right n) target
            | None => Some (SRight i)
            end
          else None
      | _, _ => None
      end
  end.

(** bintree.c:10-59 *)
Definition addelement (t : tree) (rt : slot) (key value : Z) : option tree :=
  let i := numelements t in
  match set_node (Tree (nodes t) (root t) (i + 1)) i (Node key value None None) with
  | Some t =>
      match load t rt with
      | Some parent =>
          match find_target (length (nodes t)) t key parent rt with
          | Some target => store t target (Some i)
          | None => None
          end
      | None => None
      end
  | None => None
  end.

(** bintree.c:61-74 *)
Fixpoint addfromarray (fuel : nat) (t : tree) (rt : slot) (keys values : list Z) (lower higher : Z) : option tree :=
  if higher <? lower then Some t
  else
    match fuel with
    | O => None
    | S fuel =>
        let median := lower + Z.quot (higher - lower) 2 in
        match aget keys median, aget values median with
        | Some key, Some value =>
            match addelement t rt key value with
            | Some t =>
                match load t rt with
                | Some (Some n) =>
                    match addfromarray fuel t (SLeft n) keys values lower (median - 1) with
                    | Some t =>
                        (* evaluated after the first call: *root again *)
                        match load t rt with
                        | Some (Some n) => addfromarray fuel t (SRight n) keys values (median + 1) higher
                        | _ => None
                        end
                    | None => None
                    end
                | _ => None
                end
            | None => None
            end
        | _, _ => None
        end
    end.

(** bintree.c:76-84; [n0] is the static counter on entry *)
Definition create_from_ordered_list (n0 : Z) (keys values : list Z) (num_entries : Z) : option tree :=
  match addfromarray (Z.to_nat num_entries) (Tree (repeat None (Z.to_nat num_entries)) None n0) SRoot
                     keys values 0 (num_entries - 1) with
  | Some t => Some (Tree (nodes t) (root t) 0)
  | None => None
  end.

(** bintree.c:92-112: [Some None] is "not found", [None] a bad access *)
Fixpoint get_loop (fuel : nat) (t : tree) (key : Z) (p : ptr) : option (option Z) :=
  match p with
  | None => Some None
  | Some i =>
      match fuel, get_node t i with
      | S fuel, Some n =>
          if nd_key n =? key then Some (Some (nd_value n))
          else if key <? nd_key n then get_loop fuel t key (nd_left n)
          else get_loop fuel t key (nd_right n)
      | _, _ => None
      end
  end.

(** bintree.c:92-112: starts at the root; the number of nodes bounds the depth *)
Definition bintree_get (t : tree) (key : Z) : option (option Z) := get_loop (length (nodes t)) t key (root t).

(** the map built with it, src/libmrc/src/mrc_domain_multi.c:28-47 and 61-75 (with
    active patches): sparse list of curve indices -> patch number *)
Definition map_create (sfc_indices : list Z) : option tree :=
  create_from_ordered_list 0 sfc_indices (zrange 0 (alen sfc_indices)) (alen sfc_indices).

(** mrc_domain_multi.c:61-75 *)
Definition map_sfc_idx_to_gpatch (t : tree) (sfc_idx : Z) : option Z :=
  match bintree_get t sfc_idx with
  | Some (Some v) => Some v
  | Some None => Some (-1)
  | None => None
  end.
