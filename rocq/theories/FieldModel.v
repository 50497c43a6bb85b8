(** Field updates: src/include/psc_push_fields_impl.hxx, the divergence of
    src/libpsc/psc_output_fields/fields_item_fields.hxx and the Marder correction of
    src/libpsc/psc_push_fields/marder_impl.hxx.  Values are real numbers. *)
From Coq Require Import Reals.
From Verif Require Import Base.
Local Open Scope R_scope.

(** the components of the state, include/psc.h:26-41 (JXI.., EX.., HX..): which field,
    and which direction *)
Inductive qty := QJ | QE | QH.

(** equality test on [qty] (component numbers, include/psc.h:26-41) *)
Definition qty_eqb (a b : qty) : bool :=
  match a, b with QJ, QJ | QE, QE | QH, QH => true | _, _ => false end.

(** what the functions here use of Grid_t (grid.hxx:68-118, domain.hxx) *)
Record fgrid := FGrid { ldims : V3 Z; ibn : V3 Z; dx : V3 R; dt : R; invar : V3 bool }.

(** the fields of one patch with their ghost points; index 0 is the first interior point
    (Fields3d, fields.hxx:36-93, [ib] already subtracted) *)
Definition pf := qty -> dim3 -> V3 Z -> R.

(** fields.hxx:56-60 and 65-69: the index in an invariant direction is 0 *)
Definition fnorm (inv : V3 bool) (i : V3 Z) : V3 Z := gen3 (fun d => if get3 inv d then 0%Z else get3 i d).

(** the point next to i in direction d (i - 1, j + 1 etc. in
    psc_push_fields_impl.hxx:65-119) *)
Definition shift (i : V3 Z) (d : dim3) (s : Z) : V3 Z := set3 i d (get3 i d + s)%Z.

(** equality test on indices (element access, fields.hxx:54-71) *)
Definition v3_eqb (a b : V3 Z) : bool := ((c0 a =? c0 b) && (c1 a =? c1 b) && (c2 a =? c2 b))%Z.

(** read access, fields.hxx:54-61 *)
Definition fget (inv : V3 bool) (f : pf) (q : qty) (d : dim3) (i : V3 Z) : R := f q d (fnorm inv i).

(** [F(m, i, j, k) += v], fields.hxx:63-71 *)
Definition fadd (inv : V3 bool) (f : pf) (q : qty) (d : dim3) (i : V3 Z) (v : R) : pf :=
  fun q' d' i' =>
    if qty_eqb q q' && dim3_eqb d d' && v3_eqb (fnorm inv i) i' then f q' d' i' + v else f q' d' i'.

(** grid.hxx:124-139, the points visited, in order *)
Definition foreach_bnd (g : fgrid) (l r : Z) : list (V3 Z) :=
  let lo := gen3 (fun d => if get3 (invar g) d then 0 else - l)%Z in
  let hi := gen3 (fun d => get3 (ldims g) d + (if get3 (invar g) d then 0 else r))%Z in
  flat_map (fun k => flat_map (fun j => map (fun i => v3 i j k)
    (zrange (c0 lo) (c0 hi))) (zrange (c1 lo) (c1 hi))) (zrange (c2 lo) (c2 hi)).

(** psc_push_fields_impl.hxx:33-41 *)
Definition dth (g : fgrid) (dt_fac : R) : R := dt_fac * dt g.
(** psc_push_fields_impl.hxx:37-39 *)
Definition cn (g : fgrid) (dt_fac : R) (d : dim3) : R := if get3 (invar g) d then 0 else dth g dt_fac / get3 (dx g) d.

(** psc_push_fields_impl.hxx:63-68 *)
Definition pushE_x (g : fgrid) (dt_fac : R) (f : pf) (i : V3 Z) : pf :=
  let F := fget (invar g) f in
  fadd (invar g) f QE D0 i
    (cn g dt_fac D1 * (F QH D2 i - F QH D2 (shift i D1 (-1))) -
     cn g dt_fac D2 * (F QH D1 i - F QH D1 (shift i D2 (-1))) - dth g dt_fac * F QJ D0 i).

(** psc_push_fields_impl.hxx:70-75 *)
Definition pushE_y (g : fgrid) (dt_fac : R) (f : pf) (i : V3 Z) : pf :=
  let F := fget (invar g) f in
  fadd (invar g) f QE D1 i
    (cn g dt_fac D2 * (F QH D0 i - F QH D0 (shift i D2 (-1))) -
     cn g dt_fac D0 * (F QH D2 i - F QH D2 (shift i D0 (-1))) - dth g dt_fac * F QJ D1 i).

(** psc_push_fields_impl.hxx:77-82 *)
Definition pushE_z (g : fgrid) (dt_fac : R) (f : pf) (i : V3 Z) : pf :=
  let F := fget (invar g) f in
  fadd (invar g) f QE D2 i
    (cn g dt_fac D0 * (F QH D1 i - F QH D1 (shift i D0 (-1))) -
     cn g dt_fac D1 * (F QH D0 i - F QH D0 (shift i D1 (-1))) - dth g dt_fac * F QJ D2 i).

(** psc_push_fields_impl.hxx:106-110 *)
Definition pushH_x (g : fgrid) (dt_fac : R) (f : pf) (i : V3 Z) : pf :=
  let F := fget (invar g) f in
  fadd (invar g) f QH D0 i
    (- (cn g dt_fac D1 * (F QE D2 (shift i D1 1) - F QE D2 i) -
        cn g dt_fac D2 * (F QE D1 (shift i D2 1) - F QE D1 i))).

(** psc_push_fields_impl.hxx:112-116 *)
Definition pushH_y (g : fgrid) (dt_fac : R) (f : pf) (i : V3 Z) : pf :=
  let F := fget (invar g) f in
  fadd (invar g) f QH D1 i
    (- (cn g dt_fac D2 * (F QE D0 (shift i D2 1) - F QE D0 i) -
        cn g dt_fac D0 * (F QE D2 (shift i D0 1) - F QE D2 i))).

(** psc_push_fields_impl.hxx:118-122 *)
Definition pushH_z (g : fgrid) (dt_fac : R) (f : pf) (i : V3 Z) : pf :=
  let F := fget (invar g) f in
  fadd (invar g) f QH D2 i
    (- (cn g dt_fac D0 * (F QE D1 (shift i D0 1) - F QE D1 i) -
        cn g dt_fac D1 * (F QE D0 (shift i D1 1) - F QE D0 i))).

(** push_E on one patch: psc_push_fields_impl.hxx:13-21 and 154-157 *)
Definition push_E (g : fgrid) (dt_fac : R) (f : pf) : pf :=
  fold_left (fun f i => pushE_z g dt_fac (pushE_y g dt_fac (pushE_x g dt_fac f i) i) i) (foreach_bnd g 1 2) f.

(** push_H on one patch: psc_push_fields_impl.hxx:13-21 and 173-176 *)
Definition push_H (g : fgrid) (dt_fac : R) (f : pf) : pf :=
  fold_left (fun f i => pushH_z g dt_fac (pushH_y g dt_fac (pushH_x g dt_fac f i) i) i) (foreach_bnd g 2 1) f.

(** fields_item_fields.hxx:63-103 at the interior point i; the trimmed view starts one
    point below the interior, so [lhs] is the point itself and [rhs] the one below *)
Definition div_nc (g : fgrid) (f : dim3 -> V3 Z -> R) (i : V3 Z) : R :=
  fold_left (fun s a => if get3 (invar g) a then s else s + (f a i - f a (shift i a (-1))) / get3 (dx g) a) dims3 0.

(** an interior point (slice s1, marder_impl.hxx:45-47) *)
Definition interior (g : fgrid) (i : V3 Z) : bool :=
  ((0 <=? c0 i) && (c0 i <? c0 (ldims g)) && (0 <=? c1 i) && (c1 i <? c1 (ldims g)) &&
   (0 <=? c2 i) && (c2 i <? c2 (ldims g)))%Z.

(** marder_impl.hxx:26-61 on one patch *)
Definition marder_correct (g : fgrid) (diffusion : R) (f : pf) (res : V3 Z -> R) : pf :=
  fun q d i =>
    if qty_eqb q QE && negb (get3 (invar g) d) && interior g i
    then f q d i + (res (shift i d 1) - res i) * (1 / 2 * dt g * diffusion * (1 / get3 (dx g) d))
    else f q d i.

(** marder_impl.hxx:217-222: the diffusion used, for the parameter [diffusion_] *)
Definition marder_diffusion (g : fgrid) (diffusion_ : R) : R :=
  let inv_sum := fold_left (fun s d => if get3 (invar g) d then s else s + (1 / get3 (dx g) d) * (1 / get3 (dx g) d)) dims3 0 in
  1 / 2 / (1 / 2 * dt g) / inv_sum * diffusion_.

(** marder_impl.hxx:238: the residual of one patch (its ghost points are filled
    afterwards) *)
Definition marder_res (g : fgrid) (f : pf) (rho : V3 Z -> R) (i : V3 Z) : R := div_nc g (f QE) i - rho i.

(** marder_impl.hxx:89-119, the CUDA version of the correction for runs in three dimensions *)
Definition marder_correct_cuda (g : fgrid) (diffusion : R) (f : pf) (res : V3 Z -> R) : pf :=
  fun q d i =>
    if qty_eqb q QE && interior g i
    then f q d i + (1 / 2 * dt g * diffusion / get3 (dx g) d) *
           (res (shift i (match d with D0 => D1 | d => d end) 1) - res i)
    else f q d i.
