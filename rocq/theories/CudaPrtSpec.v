(** What the CUDA particle store and its boundary exchange are to do, said of the
    plain collection of the particles of a process. *)
From Coq Require Import Permutation.
From Verif Require Import Base Arr CudaPrtModel.
Local Open Scope Z_scope.

(** The grid the CUDA code is made for: patches are made of whole blocks, sizes are
    C ints, in 2-d there is one layer of blocks along x. *)
Record geom_ok (g : geom) : Prop := {
  go_np : 0 <= g_np g;
  go_bs : forall d, 0 < get3 (g_bs g) d;
  go_ld : forall d, 0 < get3 (g_ldims g) d < 2 ^ 31;
  go_div : forall d, (get3 (g_bs g) d | get3 (g_ldims g) d);
  go_yz : g_yz g = true -> c0 (g_ldims g) = c0 (g_bs g);
  go_int : g_np g * (c0 (g_ldims g) / c0 (g_bs g) * (c1 (g_ldims g) / c1 (g_bs g))
             * (c2 (g_ldims g) / c2 (g_bs g))) < 2 ^ 31
}.

Section Spec.
Context {P : Type} (cpos : P -> V3 Z) (g : geom).

(** A cell of the patch. *)
Definition cell_in (c : V3 Z) : Prop := forall d, 0 <= get3 c d < get3 (g_ldims g) d.

(** The same, decided. *)
Definition cell_inb (c : V3 Z) : bool :=
  forallb (fun d => (0 <=? get3 c d) && (get3 c d <? get3 (g_ldims g) d)) dims3.

(** The cell [c] is one of block [b] of the patch. *)
Definition in_blockb (c b : V3 Z) : bool :=
  forallb (fun d => (get3 (g_bs g) d * get3 b d <=? get3 c d)
                    && (get3 c d <? get3 (g_bs g) d * (get3 b d + 1))) dims3.

(** Number of blocks along a direction. *)
Definition nblk (d : dim3) : Z := get3 (g_ldims g) d / get3 (g_bs g) d.

(** Blocks in order: patch by patch, x fastest. *)
Definition block_no (p : Z) (b : V3 Z) : Z :=
  c0 b + nblk D0 * (c1 b + nblk D1 * (c2 b + nblk D2 * p)).

(** A particle with the patch it is in. *)
Definition tagged : Type := Z * P.

(** Buffers, one per patch, as one collection. *)
Definition tag (bufs : list (list P)) : list tagged :=
  concat (map (fun p => match aget bufs p with Some l => map (fun x => (p, x)) l | None => [] end)
              (zrange 0 (g_np g))).

(** All the buffer's particles are in their patch, and there is a buffer for every
    patch. *)
Definition bufs_in (bufs : list (list P)) : Prop :=
  alen bufs = g_np g /\ forall l x, In l bufs -> In x l -> cell_in (cpos x).

(** The particles after the push. *)
Definition pushed (f : Z -> P -> P) (S : list tagged) : list tagged :=
  map (fun w => (fst w, f (fst w) (snd w))) S.

(** Those still in their patch. *)
Definition stay (S : list tagged) : list tagged :=
  filter (fun w => cell_inb (cpos (snd w))) S.

(** Those that left patch [p]. *)
Definition leave (p : Z) (S : list tagged) : list P :=
  map snd (filter (fun w => (fst w =? p) && negb (cell_inb (cpos (snd w)))) S).

(** Positions the push may give: cell numbers are C ints; in 2-d the push does not
    move particles along x. *)
Definition push_ok (f : Z -> P -> P) : Prop :=
  forall p x, cell_in (cpos x) ->
    (forall d, - 2 ^ 31 <= get3 (cpos (f p x)) d < 2 ^ 31) /\
    (g_yz g = true -> c0 (cpos (f p x)) = c0 (cpos x)).

(** What is stored for block [k]: the particles of the slots from off[k] to
    off[k+1], directly or by way of d_id as long as reordering is due. *)
Definition stored (c : cm P) (k : Z) (l : list P) : Prop :=
  exists lo hi, aget (c_off c) k = Some lo /\ aget (c_off c) (k + 1) = Some hi /\
    0 <= lo <= hi /\ hi <= c_n c /\ alen l = hi - lo /\
    forall i, 0 <= i < hi - lo ->
      (if c_re c then exists j, aget (c_id c) (lo + i) = Some j /\ aget (c_st c) j = aget l i
       else aget (c_st c) (lo + i) = aget l i).

(** The store holds the particles [S]: all are in their patches, and for each block
    are stored just those that are in it. *)
Definition represents (c : cm P) (S : list tagged) : Prop :=
  c_n c = alen S /\
  (forall w, In w S -> 0 <= fst w < g_np g /\ cell_in (cpos (snd w))) /\
  forall p b, 0 <= p < g_np g -> (forall d, 0 <= get3 b d < nblk d) ->
    exists l, stored c (block_no p b) l /\
      Permutation l (map snd (filter (fun w => (fst w =? p) && in_blockb (cpos (snd w)) b) S)).

(** What is done with the store: particles put in, a step (push and boundary
    exchange, with what the exchange brings), reordering, reading. *)
Inductive action : Type :=
| Inject (bufs : list (list P))
| Step (f : Z -> P -> P) (recv : list (list P))
| Reorder
| Get.

(** The particles after an action. *)
Definition after (S : list tagged) (a : action) : list tagged :=
  match a with
  | Inject bufs => S ++ tag bufs
  | Step f recv => stay (pushed f S) ++ tag recv
  | Reorder | Get => S
  end.

(** The demands on an action: what comes in is in its patch, and the process does
    not lose its last particle. *)
Definition allowed (S : list tagged) (a : action) : Prop :=
  match a with
  | Inject bufs => bufs_in bufs
  | Step f recv => push_ok f /\ bufs_in recv /\
      (S <> [] -> stay (pushed f S) ++ tag recv <> [])
  | Reorder | Get => True
  end.

(** What an action gives to the outside: the buffers handed to the exchange, or the
    particles read. *)
Inductive output : Type :=
| Sent (bufs : list (list P))
| Read (l : list P) (offs : list Z)
| Nothing.

(** The outputs that are right. *)
Definition right_output (S : list tagged) (a : action) (o : output) : Prop :=
  match a, o with
  | Step f _, Sent bufs => alen bufs = g_np g /\
      forall p, 0 <= p < g_np g ->
        exists l, aget bufs p = Some l /\ Permutation l (leave p (pushed f S))
  | Get, Read l offs => alen offs = g_np g + 1 /\
      forall p, 0 <= p < g_np g ->
        exists lo hi m, aget offs p = Some lo /\ aget offs (p + 1) = Some hi /\
          0 <= lo <= hi /\ alen m = hi - lo /\ (forall i, 0 <= i < hi - lo -> aget l (lo + i) = aget m i) /\
          Permutation m (map snd (filter (fun w => fst w =? p) S))
  | Inject _, Nothing => True
  | Reorder, Nothing => True
  | _, _ => False
  end.

(** One action after the other is right. *)
Fixpoint right_run (S : list tagged) (acts : list action) (outs : list output) : Prop :=
  match acts, outs with
  | [], [] => True
  | a :: acts, o :: outs => right_output S a o /\ right_run (after S a) acts outs
  | _, _ => False
  end.

(** The demands on a run. *)
Fixpoint allowed_run (S : list tagged) (acts : list action) : Prop :=
  match acts with
  | [] => True
  | a :: acts => allowed S a /\ allowed_run (after S a) acts
  end.

End Spec.

Arguments action : clear implicits.
Arguments output : clear implicits.

(** An action of the model's store. *)
Definition exec {P} (cpos : P -> V3 Z) (dP : P) (moved : P -> P) (g : geom)
    (c : cm P) (a : action P) : option (cm P * output P) :=
  match a with
  | Inject bufs => option_map (fun c => (c, Nothing)) (inject cpos dP moved g c bufs)
  | Step f recv =>
      match push_mprts cpos dP g f c with
      | Some c =>
          match prep g c with
          | Some (bufs, c) => option_map (fun c => (c, Sent bufs)) (post cpos dP moved g c recv)
          | None => None
          end
      | None => None
      end
  | Reorder => option_map (fun c => (c, Nothing)) (reorder dP c)
  | Get =>
      match get_particles dP c with
      | Some (c, l) => option_map (fun o => (c, Read l o)) (get_offsets g c)
      | None => None
      end
  end.

(** A run of the model's store. *)
Fixpoint exec_run {P} (cpos : P -> V3 Z) (dP : P) (moved : P -> P) (g : geom)
    (c : cm P) (acts : list (action P)) : option (cm P * list (output P)) :=
  match acts with
  | [] => Some (c, [])
  | a :: acts =>
      match exec cpos dP moved g c a with
      | Some (c, o) =>
          match exec_run cpos dP moved g c acts with
          | Some (c, os) => Some (c, o :: os)
          | None => None
          end
      | None => None
      end
  end.

(** The same demands, but the process may lose its last particle. *)
Fixpoint in_place_run {P} (cpos : P -> V3 Z) (g : geom) (acts : list (action P)) : Prop :=
  match acts with
  | [] => True
  | a :: acts =>
      match a with
      | Inject bufs => bufs_in cpos g bufs
      | Step f recv => push_ok cpos g f /\ bufs_in cpos g recv
      | Reorder | Get => True
      end /\ in_place_run cpos g acts
  end.

(** The current of a step: what the particles add in this step. *)
Definition current_of (s : Z * list Z * Z) : Z :=
  let '(_, dep, nb) := s in fold_left Z.add dep nb.
