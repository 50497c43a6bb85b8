(** Domains with one patch per process: src/libmrc/src/mrc_domain_simple.c.  Integers are unbounded.  A failed assert and a division by zero are [None].
    The processes find their offsets by messages along lines of processes; the model takes any order of their steps. *)
From Verif Require Import Base.
Local Open Scope Z_scope.

(** mrc_domain_simple_rank2proc, mrc_domain_simple.c:18-27; % and / of C *)
Definition rank2proc (np : V3 Z) (rank : Z) : V3 Z :=
  let p0 := Z.rem rank (c0 np) in
  let rank := Z.quot rank (c0 np) in
  let p1 := Z.rem rank (c1 np) in
  let rank := Z.quot rank (c1 np) in
  v3 p0 p1 (Z.rem rank (c2 np)).

(** mrc_domain_simple_proc2rank, mrc_domain_simple.c:29-39 *)
Definition proc2rank (np p : V3 Z) : Z :=
  if existsb (fun d => (get3 p d <? 0) || (get3 np d <=? get3 p d)) dims3 then -1
  else (c2 p * c1 np + c1 p) * c0 np + c0 p.

(** mrc_domain_simple_get_neighbor_rank, mrc_domain_simple.c:125-136, for a shift by s in direction d *)
Definition get_neighbor_rank (np : V3 Z) (rank : Z) (d : dim3) (s : Z) : Z :=
  let p := rank2proc np rank in proc2rank np (set3 p d (get3 p d + s)).

(** mrc_domain_simple_do_setup, mrc_domain_simple.c:52-68: the numbers of processes and of cells of one process *)
Definition setup_dims (size : Z) (gdims np lm : V3 Z) : option (V3 Z * V3 Z) :=
  let one := (size =? 1) && (1 <? c0 np * c1 np * c2 np) in
  let np := if one then v3 1 1 1 else np in
  let lm := if one then v3 0 0 0 else lm in
  let ok := forallb (fun d => negb (get3 lm d =? 0) || (negb (get3 np d =? 0) && (Z.rem (get3 gdims d) (get3 np d) =? 0))) dims3 in
  if ok && (c0 np * c1 np * c2 np =? size) then Some (np, gen3 (fun d => if get3 lm d =? 0 then Z.quot (get3 gdims d) (get3 np d) else get3 lm d)) else None.

(** the state during mrc_domain_simple.c:71-94: how far each process is (2 d: before line 76 for d; 2 d + 1: before line 87; 6: done), patch.off,
    and the messages sent from one process to another with tag d.  A message stays there when it has been received; as the receiver goes on to the next d,
    and does not receive from the same process with the same tag again, this makes no difference. *)
Record st := St { pc : Z -> Z; off : Z -> dim3 -> Z; msg : Z -> Z -> dim3 -> option Z }.

(** the d of a place in the program, mrc_domain_simple.c:74 *)
Definition dim_at (k : Z) : dim3 := if k <? 2 then D0 else if k <? 4 then D1 else D2.
(** an assignment by process r, in lines 80, 83 of mrc_domain_simple.c *)
Definition upd {T} (f : Z -> T) (r : Z) (v : T) : Z -> T := fun x => if x =? r then v else f x.
(** an assignment to component d, in lines 80, 83 of mrc_domain_simple.c *)
Definition updd {T} (f : dim3 -> T) (d : dim3) (v : T) : dim3 -> T := fun x => if dim3_eqb x d then v else f x.

(** before the loop, mrc_domain_simple.c:74 *)
Definition init : st := St (fun _ => 0) (fun _ _ => 0) (fun _ _ _ => None).

(** the next step of process r, which has lm cells; [None]: it has to wait, or has finished.  mrc_domain_simple.c:74-94 *)
Definition next (np : V3 Z) (lm : Z -> V3 Z) (s : st) (r : Z) : option st :=
  let proc := rank2proc np r in
  let k := pc s r in
  let d := dim_at k in
  if (k <? 0) || (6 <=? k) then None else
  if Z.even k then
    if 0 <? get3 proc d then
      match msg s (get_neighbor_rank np r d (-1)) r d with
      | None => None
      | Some v => Some (St (upd (pc s) r (k + 1)) (upd (off s) r (updd (off s r) d v)) (msg s))
      end
    else Some (St (upd (pc s) r (k + 1)) (upd (off s) r (updd (off s r) d 0)) (msg s))
  else
    if get3 proc d <? get3 np d - 1 then
      let off_nei := off s r d + get3 (lm r) d in
      let rank_nei := get_neighbor_rank np r d 1 in
      Some (St (upd (pc s) r (k + 1)) (off s) (upd (msg s) r (upd (msg s r) rank_nei (updd (msg s r rank_nei) d (Some off_nei)))))
    else Some (St (upd (pc s) r (k + 1)) (off s) (msg s)).

(** the processes 0 .. size - 1 take steps in any order: n steps *)
Inductive reach (np : V3 Z) (lm : Z -> V3 Z) (size : Z) : Z -> st -> Prop :=
| reach_init : reach np lm size 0 init
| reach_next n s r s' : reach np lm size n s -> 0 <= r < size -> next np lm s r = Some s' -> reach np lm size (n + 1) s'.

(** process r is about to send, mrc_domain_simple.c:87-92, and MPI_Send may not return before the receiver, at line 76-80, receives *)
Definition sends_to_busy (np : V3 Z) (s : st) (r : Z) : Prop :=
  let d := dim_at (pc s r) in Z.even (pc s r) = false /\ get3 (rank2proc np r) d < get3 np d - 1 /\ pc s (get_neighbor_rank np r d 1) <> pc s r - 1.

(** the global numbers of cells, from the last process: mrc_domain_simple.c:96-105 *)
Definition last_gdims (np : V3 Z) (lm : Z -> V3 Z) (s : st) : V3 Z :=
  let r := proc2rank np (gen3 (fun d => get3 np d - 1)) in gen3 (fun d => off s r d + get3 (lm r) d).

(** mrc_domain_simple_get_global_patch_info, mrc_domain_simple.c:196-212: idx3, ldims, off *)
Definition global_patch_info (np gdims : V3 Z) (gpatch : Z) : option (V3 Z * V3 Z * V3 Z) :=
  let idx3 := rank2proc np gpatch in
  if forallb (fun d => Z.rem (get3 gdims d) (get3 np d) =? 0) dims3 then
    let ldims := gen3 (fun d => Z.quot (get3 gdims d) (get3 np d)) in
    Some (idx3, ldims, gen3 (fun d => get3 idx3 d * get3 ldims d))
  else None.

(** one direction of mrc_domain_simple_get_neighbor_rank_patch, mrc_domain_simple.c:147-161 *)
Definition nei1 (periodic : bool) (n i dir : Z) : option Z :=
  let j := i + dir in
  let j := if periodic then let j := if j <? 0 then j + n else j in if n <=? j then j - n else j else j in
  if (j <? 0) || (n <=? j) then None else Some j.
(** mrc_domain_simple_get_neighbor_rank_patch, mrc_domain_simple.c:138-164: rank and patch *)
Definition get_neighbor_rank_patch (np : V3 Z) (periodic : V3 bool) (rank : Z) (dir : V3 Z) : Z * Z :=
  let proc := rank2proc np rank in
  let n d := nei1 (get3 periodic d) (get3 np d) (get3 proc d) (get3 dir d) in
  match n D0, n D1, n D2 with
  | Some a, Some b, Some c => (proc2rank np (v3 a b c), 0)
  | _, _, _ => (-1, -1)
  end.
