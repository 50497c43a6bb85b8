(** The field updates on the GPU: src/libpsc/cuda/push_fields_cuda_impl.cxx and the CUDA
    part of the Marder correction, src/libpsc/psc_push_fields/marder_impl.hxx:63-148.  The
    right hand sides are written down as expressions, whose evaluation checks every access
    against the shape of the arrays; the elements of an assignment and the threads of a
    launch run in any order.  Values are real numbers. *)
From Coq Require Import Reals Permutation.
From Verif Require Import Base FieldModel.
Local Open Scope Z_scope.

(** the components that are accessed: those of the state (include/psc.h:26-41) and the
    residual, which is an array of its own of the same shape (marder_impl.hxx:134, 141) *)
Inductive gcomp := Comp (q : qty) (d : dim3) | Res.

(** the arrays on the device, [gt(ix, iy, iz, m, p)]: index 0 is the first ghost point
    (push_fields_cuda_impl.cxx:60, 189, MfieldsStateCuda::gt) *)
Definition gtf := Z -> gcomp -> V3 Z -> R.

(** [gt.shape()] in space: push_fields_cuda_impl.cxx:188, 209 *)
Definition gt_shape (g : fgrid) : V3 Z := gen3 (fun d => get3 (ldims g) d + 2 * get3 (ibn g) d).

(** an element of an array of this shape, as accessed in
    push_fields_cuda_impl.cxx:134-171 *)
Definition gt_in (sh n : V3 Z) : bool :=
  ((0 <=? c0 n) && (c0 n <? c0 sh) && (0 <=? c1 n) && (c1 n <? c1 sh) && (0 <=? c2 n) && (c2 n <? c2 sh)).

(** the index of an access, [gt(ix + o0, iy + o1, iz + o2, ..)] or the element of a view
    that begins at [o] (push_fields_cuda_impl.cxx:62-81, 134-150) *)
Definition at_off (i o : V3 Z) : V3 Z := gen3 (fun d => get3 i d + get3 o d).

(** right hand sides; [GAt c o sh] is an element of component [c] displaced by [o], and,
    where it comes from a view, [sh] is the shape of that view
    (push_fields_cuda_impl.cxx:62-81, 98-113, 134-171, marder_impl.hxx:74-84, 99-115) *)
Inductive gexpr :=
| GConst (r : R)
| GAt (c : gcomp) (o : V3 Z) (sh : option (V3 Z))
| GAdd (a b : gexpr) | GSub (a b : gexpr) | GMul (a b : gexpr).

(** evaluation for element [i] of patch [p]; None: out of bounds
    (the accesses of push_fields_cuda_impl.cxx:62-81, 134-171) *)
Fixpoint gt_eval (sh : V3 Z) (f : gtf) (p : Z) (i : V3 Z) (e : gexpr) : option R :=
  match e with
  | GConst r => Some r
  | GAt c o _ => if gt_in sh (at_off i o) then Some (f p c (at_off i o)) else None
  | GAdd a b => match gt_eval sh f p i a, gt_eval sh f p i b with Some x, Some y => Some (x + y)%R | _, _ => None end
  | GSub a b => match gt_eval sh f p i a, gt_eval sh f p i b with Some x, Some y => Some (x - y)%R | _, _ => None end
  | GMul a b => match gt_eval sh f p i a, gt_eval sh f p i b with Some x, Some y => Some (x * y)%R | _, _ => None end
  end.

(** a statement [if (guard) F(.., c, ..) = rhs]
    (push_fields_cuda_impl.cxx:62-81, 98-113, 131-150, 158-171, marder_impl.hxx:73-84) *)
Record gstmt := GStmt { gs_c : gcomp; gs_o : V3 Z; gs_sh : option (V3 Z); gs_guard : V3 Z -> bool; gs_rhs : gexpr }.

(** one statement for one element of one patch: the unit that is executed in any order
    (push_fields_cuda_impl.cxx:134-150) *)
Definition gtask : Type := Z * V3 Z * gstmt.

(** equality test on components (the component index of the access,
    push_fields_cuda_impl.cxx:134) *)
Definition gcomp_eqb (a b : gcomp) : bool :=
  match a, b with
  | Comp q d, Comp q' d' => qty_eqb q q' && dim3_eqb d d'
  | Res, Res => true
  | _, _ => false
  end.

(** assignment to an element (push_fields_cuda_impl.cxx:134) *)
Definition gt_set (f : gtf) (p : Z) (c : gcomp) (n : V3 Z) (v : R) : gtf :=
  fun p' c' n' => if (p =? p') && gcomp_eqb c c' && v3_eqb n n' then v else f p' c' n'.

(** execution of one statement for one element (push_fields_cuda_impl.cxx:134-138 and the
    like) *)
Definition gt_exec (sh : V3 Z) (t : gtask) (f : gtf) : option gtf :=
  let '(p, i, s) := t in
  if gs_guard s i then
    if gt_in sh (at_off i (gs_o s)) then
      match gt_eval sh f p i (gs_rhs s) with
      | Some v => Some (gt_set f p (gs_c s) (at_off i (gs_o s)) v)
      | None => None
      end
    else None
  else Some f.

(** execution of tasks one after the other, in the order in which the device happens to run
    them; finer interleavings of the threads of a launch are orders of their statements
    (gt::launch, push_fields_cuda_impl.cxx:190-194) *)
Fixpoint gt_run (sh : V3 Z) (ts : list gtask) (f : gtf) : option gtf :=
  match ts with
  | [] => Some f
  | t :: r => match gt_exec sh t f with Some f1 => gt_run sh r f1 | None => None end
  end.

(** a sequence of launches, each of which is finished when the next starts, and each of
    which runs its tasks in some order (push_fields_cuda_impl.cxx:62-81) *)
Fixpoint gt_runs (sh : V3 Z) (stages : list (list gtask)) (f f' : gtf) : Prop :=
  match stages with
  | [] => f' = f
  | ts :: r => exists ord f1, Permutation ts ord /\ gt_run sh ord f = Some f1 /\ gt_runs sh r f1 f'
  end.

(** the indices of a launch of this extent in space (gt::launch,
    push_fields_cuda_impl.cxx:190-191, 211-212) *)
Definition gt_box (ext : V3 Z) : list (V3 Z) :=
  flat_map (fun k => flat_map (fun j => map (fun i => v3 i j k)
    (zrange 0 (c0 ext))) (zrange 0 (c1 ext))) (zrange 0 (c2 ext)).

(** the statements of all threads of a launch over elements and patches
    (push_fields_cuda_impl.cxx:190-194, 211-215) *)
Definition gt_launch (ext : V3 Z) (patches : list Z) (ss : list gstmt) : list gtask :=
  flat_map (fun p => flat_map (fun i => map (fun s => (p, i, s)) ss) (gt_box ext)) patches.

(** the slices that are used: all from [b] on, [_s(1, _)], or all up to [e] from the end,
    [_s(_, -1)] (push_fields_cuda_impl.cxx:62-81, 98-113) *)
Inductive gslice := From (b : Z) | UpTo (e : Z).
(** the first element of a slice (gtensor; push_fields_cuda_impl.cxx:62-81) *)
Definition sl_start (s : gslice) : Z := match s with From b => b | UpTo _ => 0 end.
(** the number of elements of a slice of [n] elements (gtensor;
    push_fields_cuda_impl.cxx:62-81) *)
Definition sl_len (s : gslice) (n : Z) : Z := match s with From b => n - b | UpTo e => n + e end.

(** the shape of [view(0, sy, sz, m)]; the picked index in x counts as a direction with one
    element (push_fields_cuda_impl.cxx:62) *)
Definition view_shape (sh : V3 Z) (sy sz : gslice) : V3 Z := v3 1 (sl_len sy (c1 sh)) (sl_len sz (c2 sh)).
(** the place of the first element of [view(0, sy, sz, m)] (push_fields_cuda_impl.cxx:62) *)
Definition view_start (sy sz : gslice) : V3 Z := v3 0 (sl_start sy) (sl_start sz).

(** [gt.view(0, sy, sz, c)] in an expression (push_fields_cuda_impl.cxx:62-81) *)
Definition GView (sh : V3 Z) (sy sz : gslice) (q : qty) (d : dim3) : gexpr :=
  GAt (Comp q d) (view_start sy sz) (Some (view_shape sh sy sz)).

(** the assignment [gt.view(0, sy, sz, c) = rhs] (push_fields_cuda_impl.cxx:62-81) *)
Definition vassign (sh : V3 Z) (sy sz : gslice) (q : qty) (d : dim3) (rhs : gexpr) : gstmt :=
  GStmt (Comp q d) (view_start sy sz) (Some (view_shape sh sy sz)) (fun _ => true) rhs.

(** all views of an expression have the shape of the one that is assigned to (gtensor
    asserts that the shapes agree; push_fields_cuda_impl.cxx:62-81) *)
Fixpoint shapes_ok (w : V3 Z) (e : gexpr) : bool :=
  match e with
  | GConst _ => true
  | GAt _ _ (Some s) => v3_eqb w s
  | GAt _ _ None => false
  | GAdd a b | GSub a b | GMul a b => shapes_ok w a && shapes_ok w b
  end.

(** an assignment to a view: one launch over all its elements and all patches, the last
    direction of the array, which is not mentioned (push_fields_cuda_impl.cxx:62-81) *)
Definition gt_assign (np : Z) (s : gstmt) : option (list gtask) :=
  match gs_sh s with
  | Some w => if shapes_ok w (gs_rhs s) then Some (gt_launch w (zrange 0 np) [s]) else None
  | None => None
  end.

(** several assignments after one another (push_fields_cuda_impl.cxx:62-81) *)
Fixpoint gt_assigns (np : Z) (ss : list gstmt) : option (list (list gtask)) :=
  match ss with
  | [] => Some []
  | s :: r => match gt_assign np s, gt_assigns np r with Some t, Some ts => Some (t :: ts) | _, _ => None end
  end.

(** push_fields_cuda_impl.cxx:48-49, 184-186 *)
Definition gcn (g : fgrid) (dt_fac : R) (d : dim3) : R := (dt_fac * dt g / get3 (dx g) d)%R.

(** [_s(1, _)] (push_fields_cuda_impl.cxx:62) *)
Definition S1 : gslice := From 1.
(** [_s(_, -1)] (push_fields_cuda_impl.cxx:65) *)
Definition Sm : gslice := UpTo (-1).

(** push_fields_cuda_impl.cxx:38-84.  Simplified: the number of components (44) is not
    modelled. *)
Definition gpu_push_E_yz (g : fgrid) (np : Z) (dt_fac : R) : option (list (list gtask)) :=
  if np =? 0 then Some [] else
  if negb (v3_eqb (ibn g) (v3 0 2 2)) then None else
  let dtf := GConst (dt_fac * dt g)%R in
  let cny := GConst (gcn g dt_fac D1) in
  let cnz := GConst (gcn g dt_fac D2) in
  let zero := GConst 0%R in
  let V := GView (gt_shape g) in
  gt_assigns np
    [vassign (gt_shape g) S1 S1 QE D0
       (GAdd (V S1 S1 QE D0)
          (GSub (GSub (GSub (GMul cny (GSub (V S1 S1 QH D2) (V Sm S1 QH D2)))
                            (GMul cnz (GSub (V S1 S1 QH D1) (V S1 Sm QH D1)))) zero)
                (GMul dtf (V S1 S1 QJ D0))));
     vassign (gt_shape g) S1 S1 QE D1
       (GAdd (V S1 S1 QE D1)
          (GSub (GSub (GMul cnz (GSub (V S1 S1 QH D0) (V S1 Sm QH D0))) zero)
                (GMul dtf (V S1 S1 QJ D1))));
     vassign (gt_shape g) S1 S1 QE D2
       (GAdd (V S1 S1 QE D2)
          (GSub (GSub zero (GMul cny (GSub (V S1 S1 QH D0) (V Sm S1 QH D0))))
                (GMul dtf (V S1 S1 QJ D2))))].

(** push_fields_cuda_impl.cxx:86-116 *)
Definition gpu_push_H_yz (g : fgrid) (np : Z) (dt_fac : R) : option (list (list gtask)) :=
  if np =? 0 then Some [] else
  let cny := GConst (gcn g dt_fac D1) in
  let cnz := GConst (gcn g dt_fac D2) in
  let zero := GConst 0%R in
  let V := GView (gt_shape g) in
  gt_assigns np
    [vassign (gt_shape g) Sm Sm QH D0
       (GSub (V Sm Sm QH D0)
          (GSub (GMul cny (GSub (V S1 Sm QE D2) (V Sm Sm QE D2)))
                (GMul cnz (GSub (V Sm S1 QE D1) (V Sm Sm QE D1)))));
     vassign (gt_shape g) Sm Sm QH D1
       (GSub (V Sm Sm QH D1) (GMul cnz (GSub (V Sm S1 QE D0) (V Sm Sm QE D0))));
     vassign (gt_shape g) Sm Sm QH D2
       (GSub (V Sm Sm QH D2) (GSub zero (GMul cny (GSub (V S1 Sm QE D0) (V Sm Sm QE D0)))))].

(** [F(ix + o0, iy + o1, iz + o2, c, p)] in a kernel (push_fields_cuda_impl.cxx:134-150) *)
Definition GF (o : V3 Z) (q : qty) (d : dim3) : gexpr := GAt (Comp q d) o None.
(** the statement [if (guard) F(ix, iy, iz, c, p) = rhs]
    (push_fields_cuda_impl.cxx:131-138) *)
Definition kassign (guard : V3 Z -> bool) (q : qty) (d : dim3) (rhs : gexpr) : gstmt :=
  GStmt (Comp q d) (v3 0 0 0) None guard rhs.
(** the displacement by one in direction [d] (push_fields_cuda_impl.cxx:136-150) *)
Definition o1 (d : dim3) (s : Z) : V3 Z := set3 (v3 0 0 0) d s.

(** push_fields_cuda_impl.cxx:126-151 *)
Definition k_push_E (g : fgrid) (dt_fac : R) : list gstmt :=
  let guard := fun i => (1 <=? c0 i) && (1 <=? c1 i) && (1 <=? c2 i) in
  let cnx := GConst (gcn g dt_fac D0) in
  let cny := GConst (gcn g dt_fac D1) in
  let cnz := GConst (gcn g dt_fac D2) in
  let dtf := GConst (dt_fac * dt g)%R in
  let F := GF (v3 0 0 0) in
  [kassign guard QE D0
     (GAdd (F QE D0)
        (GSub (GSub (GMul cny (GSub (F QH D2) (GF (o1 D1 (-1)) QH D2)))
                    (GMul cnz (GSub (F QH D1) (GF (o1 D2 (-1)) QH D1))))
              (GMul dtf (F QJ D0))));
   kassign guard QE D1
     (GAdd (F QE D1)
        (GSub (GSub (GMul cnz (GSub (F QH D0) (GF (o1 D2 (-1)) QH D0)))
                    (GMul cnx (GSub (F QH D2) (GF (o1 D0 (-1)) QH D2))))
              (GMul dtf (F QJ D1))));
   kassign guard QE D2
     (GAdd (F QE D2)
        (GSub (GSub (GMul cnx (GSub (F QH D1) (GF (o1 D0 (-1)) QH D1)))
                    (GMul cny (GSub (F QH D0) (GF (o1 D1 (-1)) QH D0))))
              (GMul dtf (F QJ D2))))].

(** push_fields_cuda_impl.cxx:153-172 *)
Definition k_push_H (g : fgrid) (dt_fac : R) : list gstmt :=
  let cnx := GConst (gcn g dt_fac D0) in
  let cny := GConst (gcn g dt_fac D1) in
  let cnz := GConst (gcn g dt_fac D2) in
  let F := GF (v3 0 0 0) in
  [kassign (fun _ => true) QH D0
     (GSub (F QH D0)
        (GSub (GMul cny (GSub (GF (o1 D1 1) QE D2) (F QE D2)))
              (GMul cnz (GSub (GF (o1 D2 1) QE D1) (F QE D1)))));
   kassign (fun _ => true) QH D1
     (GSub (F QH D1)
        (GSub (GMul cnz (GSub (GF (o1 D2 1) QE D0) (F QE D0)))
              (GMul cnx (GSub (GF (o1 D0 1) QE D2) (F QE D2)))));
   kassign (fun _ => true) QH D2
     (GSub (F QH D2)
        (GSub (GMul cnx (GSub (GF (o1 D0 1) QE D1) (F QE D1)))
              (GMul cny (GSub (GF (o1 D1 1) QE D0) (F QE D0)))))].

(** push_fields_cuda_impl.cxx:174-196.  Simplified: the number of components (180) is not
    modelled. *)
Definition gpu_push_E_xyz (g : fgrid) (np : Z) (dt_fac : R) : option (list (list gtask)) :=
  if np =? 0 then Some [] else
  if negb (v3_eqb (ibn g) (v3 2 2 2)) then None else
  Some [gt_launch (gt_shape g) (zrange 0 np) (k_push_E g dt_fac)].

(** push_fields_cuda_impl.cxx:198-217 *)
Definition gpu_push_H_xyz (g : fgrid) (np : Z) (dt_fac : R) : option (list (list gtask)) :=
  if np =? 0 then Some [] else
  Some [gt_launch (gen3 (fun d => get3 (gt_shape g) d - 1)) (zrange 0 np) (k_push_H g dt_fac)].

(** marder_impl.hxx:126-129 *)
Definition gfac (g : fgrid) (diffusion : R) (d : dim3) : R := (1 / 2 * dt g * diffusion / get3 (dx g) d)%R.

(** [k_res(ix + o0, iy + o1, iz + o2)] (marder_impl.hxx:76, 82) *)
Definition GRes (o : V3 Z) : gexpr := GAt Res o None.

(** marder_impl.hxx:73-84, the statements of a thread *)
Definition k_marder_yz (fac : dim3 -> R) (l r : V3 Z) : list gstmt :=
  let guard := fun i => ((c1 l <=? c1 i) && (c1 i <? c1 r)) && ((c2 l <=? c2 i) && (c2 i <? c2 r)) in
  map (fun d => kassign guard QE d
         (GAdd (GF (v3 0 0 0) QE d) (GMul (GConst (fac d)) (GSub (GRes (o1 d 1)) (GRes (v3 0 0 0))))))
      [D1; D2].

(** marder_impl.hxx:98-116, the statements of a thread; the first one takes the difference
    in y *)
Definition k_marder_xyz (fac : dim3 -> R) (l r : V3 Z) : list gstmt :=
  let guard := fun i => ((c0 l <=? c0 i) && (c0 i <? c0 r)) && ((c1 l <=? c1 i) && (c1 i <? c1 r)) &&
                        ((c2 l <=? c2 i) && (c2 i <? c2 r)) in
  map (fun dd => kassign guard QE (fst dd)
         (GAdd (GF (v3 0 0 0) QE (fst dd))
               (GMul (GConst (fac (fst dd))) (GSub (GRes (o1 (snd dd) 1)) (GRes (v3 0 0 0))))))
      [(D0, D1); (D1, D1); (D2, D2)].

(** marder_impl.hxx:121-147; the asserts on the offsets of the arrays hold by the choice of
    [gtf] *)
Definition gpu_marder (g : fgrid) (np : Z) (diffusion : R) : list (list gtask) :=
  let l := ibn g in
  let r := gen3 (fun d => get3 (ibn g) d + get3 (ldims g) d) in
  map (fun p =>
         if c0 (invar g)
         then gt_launch (v3 1 (c1 (gt_shape g)) (c2 (gt_shape g))) [p] (k_marder_yz (gfac g diffusion) l r)
         else gt_launch (gt_shape g) [p] (k_marder_xyz (gfac g diffusion) l r))
      (zrange 0 np).
