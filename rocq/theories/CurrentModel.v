(** Current deposition for first order particles, after Villasenor and Buneman, and the
    zigzag scheme.  Positions are in units of the grid spacing, relative to the patch.
    Real numbers stand for the floating point numbers of the code. *)
From Coq Require Import Reals.
From Verif Require Import Base FieldModel DepositModel.
Local Open Scope R_scope.

(** one [curr.add(m, i, j, k, val)], psc/current_deposition.hxx:25; adding is +=
    (psc_push_particles/push_config.hxx:27-30) *)
Definition entry := (dim3 * V3 Z * R)%type.

(** the current J of a patch, by component and index, psc/current_deposition.hxx:15-19 *)
Definition current := dim3 -> V3 Z -> R.

(** curr_cache_t::add, psc_push_particles/push_config.hxx:27-30 *)
Definition cadd (J : current) (e : entry) : current :=
  fun d n => if (dim3_eqb (fst (fst e)) d && v3_eqb (snd (fst e)) n)%bool then J d n + snd e else J d n.

(** a sequence of adds, psc/current_deposition.hxx:24-39 *)
Definition cadd_all (J : current) (l : list entry) : current := fold_left cadd l J.

(** one add with integer index arithmetic, psc/current_deposition.hxx:25 *)
Definition add (d : dim3) (a b c : Z) (v : R) : entry := (d, z3 a b c, v).

(** the dimension types CurrentDeposition1vb has an operator() for,
    psc/current_deposition.hxx:17-82 *)
Inductive vb_dim := vb_xyz | vb_xz | vb_yz.

(** as dimension types, psc/current_deposition.hxx:19, 44 and 65 *)
Definition vb_dim_t (d : vb_dim) : dim_t := match d with vb_xyz => dim_xyz | vb_xz => dim_xz | vb_yz => dim_yz end.

(** CurrentDeposition1vb::operator(), psc/current_deposition.hxx:17-82 *)
Definition dep1vb (d : vb_dim) (fnqs : V3 R) (i : V3 Z) (qni_wni : R) (dx xa : V3 R) : list entry :=
  let '(v3 i0 i1 i2) := i in
  let '(v3 dx0 dx1 dx2) := dx in
  let '(v3 xa0 xa1 xa2) := xa in
  let h := (1 / 12) * (dx0 * dx1 * dx2) in
  let fnq0 := qni_wni * c0 fnqs in
  let fnq1 := qni_wni * c1 fnqs in
  let fnq2 := qni_wni * c2 fnqs in
  match d with
  | vb_xyz =>
     [ add D0 i0 i1 i2 (fnq0 * (dx0 * (1 - xa1) * (1 - xa2) + h));
       add D0 i0 (i1 + 1) i2 (fnq0 * (dx0 * xa1 * (1 - xa2) - h));
       add D0 i0 i1 (i2 + 1) (fnq0 * (dx0 * (1 - xa1) * xa2 - h));
       add D0 i0 (i1 + 1) (i2 + 1) (fnq0 * (dx0 * xa1 * xa2 + h));
       add D1 i0 i1 i2 (fnq1 * (dx1 * (1 - xa2) * (1 - xa0) + h));
       add D1 i0 i1 (i2 + 1) (fnq1 * (dx1 * xa2 * (1 - xa0) - h));
       add D1 (i0 + 1) i1 i2 (fnq1 * (dx1 * (1 - xa2) * xa0 - h));
       add D1 (i0 + 1) i1 (i2 + 1) (fnq1 * (dx1 * xa2 * xa0 + h));
       add D2 i0 i1 i2 (fnq2 * (dx2 * (1 - xa0) * (1 - xa1) + h));
       add D2 (i0 + 1) i1 i2 (fnq2 * (dx2 * xa0 * (1 - xa1) - h));
       add D2 i0 (i1 + 1) i2 (fnq2 * (dx2 * (1 - xa0) * xa1 - h));
       add D2 (i0 + 1) (i1 + 1) i2 (fnq2 * (dx2 * xa0 * xa1 + h)) ]
  | vb_xz =>
     [ add D0 i0 i1 i2 (fnq0 * (dx0 * (1 - xa2)));
       add D0 i0 i1 (i2 + 1) (fnq0 * (dx0 * xa2));
       add D1 i0 i1 i2 (fnq1 * (dx1 * (1 - xa2) * (1 - xa0) + h));
       add D1 i0 i1 (i2 + 1) (fnq1 * (dx1 * xa2 * (1 - xa0) - h));
       add D1 (i0 + 1) i1 i2 (fnq1 * (dx1 * (1 - xa2) * xa0 - h));
       add D1 (i0 + 1) i1 (i2 + 1) (fnq1 * (dx1 * xa2 * xa0 + h));
       add D2 i0 i1 i2 (fnq2 * (dx2 * (1 - xa0)));
       add D2 (i0 + 1) i1 i2 (fnq2 * (dx2 * xa0)) ]
  | vb_yz =>
     [ add D0 i0 i1 i2 (fnq0 * (dx0 * (1 - xa1) * (1 - xa2) + h));
       add D0 i0 (i1 + 1) i2 (fnq0 * (dx0 * xa1 * (1 - xa2) - h));
       add D0 i0 i1 (i2 + 1) (fnq0 * (dx0 * (1 - xa1) * xa2 - h));
       add D0 i0 (i1 + 1) (i2 + 1) (fnq0 * (dx0 * xa1 * xa2 + h));
       add D1 i0 i1 i2 (fnq1 * (dx1 * (1 - xa2)));
       add D1 i0 i1 (i2 + 1) (fnq1 * (dx1 * xa2));
       add D2 i0 i1 i2 (fnq2 * (dx2 * (1 - xa1)));
       add D2 i0 (i1 + 1) i2 (fnq2 * (dx2 * xa1)) ]
  end.

(** what the deposition objects know of the grid: dt, the spacing, norm.fnqs
    (inc_curr_1vb_split.cxx:19-23) *)
Record cgrid := { cg_dt : R; cg_dx : V3 R; cg_fnqs : R }.

(** the factors given to CurrentDeposition1vb, inc_curr_1vb_split.cxx:22 and
    inc_curr_zigzag.cxx:23 *)
Definition vb_fnqs (g : cgrid) : V3 R := gen3 (fun d => cg_fnqs g / cg_dt g * get3 (cg_dx g) d).

(** calc_j2_one_cell, inc_curr_1vb_split.cxx:25-33 and inc_curr_zigzag.cxx:26-40 *)
Definition one_cell (g : cgrid) (d : vb_dim) (qni_wni : R) (xm xp : V3 R) : list entry :=
  let dx := gen3 (fun e => get3 xp e - get3 xm e) in
  let xa := gen3 (fun e => 1 / 2 * (get3 xp e + get3 xm e)) in
  let i := gen3 (fun e => fint (get3 xa e)) in
  dep1vb d (vb_fnqs g) i qni_wni dx (gen3 (fun e => get3 xa e - IZR (get3 i e))).

(** calc_split_x1, inc_curr_1vb_split.cxx:35-51 *)
Definition split_x1 (dim : dim3) (im ip : Z) (xm xp : V3 R) : V3 R :=
  let bnd := IZR (Z.max im ip) in
  let frac := (bnd - get3 xm dim) / (get3 xp dim - get3 xm dim) in
  gen3 (fun e => if dim3_eqb e dim then bnd else get3 xm e + frac * (get3 xp e - get3 xm e)).

(** calc_j2_split_dim_x, _y and _z, inc_curr_1vb_split.cxx:55-98: they differ in [dim] and
    in the function called for the parts *)
Definition split_dim (d : vb_dim) (dim : dim3) (next : V3 R -> V3 R -> list entry) (xm xp : V3 R) : list entry :=
  let im := fint (get3 xm dim) in
  let ip := fint (get3 xp dim) in
  if (get3 (invar_of (vb_dim_t d)) dim || (ip =? im)%Z)%bool then next xm xp
  else let x1 := split_x1 dim im ip xm xp in next xm x1 ++ next x1 xp.

(** inc_curr_1vb_split.cxx:55-68 *)
Definition split_dim_x g d qw := split_dim d D0 (one_cell g d qw).
(** inc_curr_1vb_split.cxx:70-83 *)
Definition split_dim_y g d qw := split_dim d D1 (split_dim_x g d qw).
(** inc_curr_1vb_split.cxx:85-98 *)
Definition split_dim_z g d qw := split_dim d D2 (split_dim_y g d qw).

(** inc_curr_1vb_split.cxx:106-119: positions in the invariant directions *)
Definition invar_pos (g : cgrid) (inv : V3 bool) (vxi xm xp : V3 R) : V3 R * V3 R :=
  (gen3 (fun e => if get3 inv e then / 2 else get3 xm e),
   gen3 (fun e => if get3 inv e then / 2 + get3 vxi e * cg_dt g * (1 / get3 (cg_dx g) e) else get3 xp e)).

(** Current1vbSplit::calc_j, inc_curr_1vb_split.cxx:103-122 *)
Definition calc_j_split (g : cgrid) (d : vb_dim) (qni_wni : R) (xm xp vxi : V3 R) : list entry :=
  let '(xm, xp) := invar_pos g (invar_of (vb_dim_t d)) vxi xm xp in
  split_dim_z g d qni_wni xm xp.

(** the positions in CurrentZigzag::calc_j, inc_curr_zigzag.cxx:48-61; for InvarZ it is the
    y components that are set *)
Definition zigzag_pos (g : cgrid) (inv : V3 bool) (vxi xm xp : V3 R) : V3 R * V3 R :=
  let dp := fun e => / 2 + get3 vxi e * cg_dt g * (1 / get3 (cg_dx g) e) in
  let '(xm, xp) := if c0 inv then (set3 xm D0 (/ 2), set3 xp D0 (dp D0)) else (xm, xp) in
  let '(xm, xp) := if c1 inv then (set3 xm D1 (/ 2), set3 xp D1 (dp D1)) else (xm, xp) in
  if c2 inv then (set3 xm D1 (/ 2), set3 xp D1 (dp D1)) else (xm, xp).

(** xr, inc_curr_zigzag.cxx:63-73 *)
Definition zigzag_xr (xm xp : V3 R) : V3 R :=
  gen3 (fun e => let im := fint (get3 xm e) in let ip := fint (get3 xp e) in
    if (im =? ip)%Z then / 2 * (get3 xm e + get3 xp e) else IZR (Z.max im ip)).

(** crossed, inc_curr_zigzag.cxx:64-73 *)
Definition zigzag_crossed (xm xp : V3 R) : bool :=
  existsb (fun e => negb (fint (get3 xm e) =? fint (get3 xp e))%Z) dims3.

(** CurrentZigzag::calc_j, inc_curr_zigzag.cxx:45-80 *)
Definition calc_j_zigzag (g : cgrid) (d : vb_dim) (qni_wni : R) (xm xp vxi : V3 R) : list entry :=
  let '(xm, xp) := zigzag_pos g (invar_of (vb_dim_t d)) vxi xm xp in
  if zigzag_crossed xm xp
  then one_cell g d qni_wni xm (zigzag_xr xm xp) ++ one_cell g d qni_wni (zigzag_xr xm xp) xp
  else one_cell g d qni_wni xm xp.

(** ** Current1vbVar1 (yz only) *)

(** fnqxs_, fnqys_, fnqzs_, inc_curr_1vb_var1.cxx:24-26 and inc_curr_1vb_2d.cxx:18-19 *)
Definition var1_fnqs (g : cgrid) (e : dim3) : R := get3 (cg_dx g) e * cg_fnqs g / cg_dt g.

(** calc_3d_dx1, inc_curr_1vb_var1.cxx:36-57 *)
Definition calc_3d_dx1 (x dx : V3 R) (off : V3 Z) : V3 R :=
  if (c2 off =? 0)%Z then
    let d1 := / 2 * IZR (c1 off) - c1 x in
    if Req_EM_T (c1 dx) 0 then v3 0 d1 0 else v3 (c0 dx / c1 dx * d1) d1 (c2 dx / c1 dx * d1)
  else
    let d2 := / 2 * IZR (c2 off) - c2 x in
    if Req_EM_T (c2 dx) 0 then v3 0 0 d2 else v3 (c0 dx / c2 dx * d2) (c1 dx / c2 dx * d2) d2.

(** curr_3d_vb_cell, inc_curr_1vb_var1.cxx:62-89 *)
Definition curr_3d_vb_cell (g : cgrid) (i : V3 Z) (x dx : V3 R) (qni_wni : R) : list entry :=
  let xa1 := c1 x + / 2 * c1 dx in
  let xa2 := c2 x + / 2 * c2 dx in
  let fnqx := qni_wni * var1_fnqs g D0 in
  let h := (1 / 12) * c0 dx * c1 dx * c2 dx in
  let fnqy := qni_wni * var1_fnqs g D1 in
  let fnqz := qni_wni * var1_fnqs g D2 in
  [ add D0 0 (c1 i) (c2 i) (fnqx * (c0 dx * (/ 2 - xa1) * (/ 2 - xa2) + h));
    add D0 0 (c1 i + 1) (c2 i) (fnqx * (c0 dx * (/ 2 + xa1) * (/ 2 - xa2) - h));
    add D0 0 (c1 i) (c2 i + 1) (fnqx * (c0 dx * (/ 2 - xa1) * (/ 2 + xa2) - h));
    add D0 0 (c1 i + 1) (c2 i + 1) (fnqx * (c0 dx * (/ 2 + xa1) * (/ 2 + xa2) + h));
    add D1 0 (c1 i) (c2 i) (fnqy * c1 dx * (/ 2 - xa2));
    add D1 0 (c1 i) (c2 i + 1) (fnqy * c1 dx * (/ 2 + xa2));
    add D2 0 (c1 i) (c2 i) (fnqz * c2 dx * (/ 2 - xa1));
    add D2 0 (c1 i + 1) (c2 i) (fnqz * c2 dx * (/ 2 + xa1)) ].

(** the cell, the position relative to its center, and what is left of the displacement,
    inc_curr_1vb_var1.cxx:113-116 *)
Record vstate := { vs_i : V3 Z; vs_x : V3 R; vs_dx : V3 R }.

(** curr_3d_vb_cell_upd, inc_curr_1vb_var1.cxx:94-104 *)
Definition vb_upd (s : vstate) (dx1 : V3 R) (off : V3 Z) : vstate :=
  {| vs_i := v3 (c0 (vs_i s)) (c1 (vs_i s) + c1 off)%Z (c2 (vs_i s) + c2 off)%Z;
     vs_x := v3 (c0 (vs_x s)) (c1 (vs_x s) + (c1 dx1 - IZR (c1 off))) (c2 (vs_x s) + (c2 dx1 - IZR (c2 off)));
     vs_dx := v3 (c0 (vs_dx s) - c0 dx1) (c1 (vs_dx s) - c1 dx1) (c2 (vs_dx s) - c2 dx1) |}.

(** one block "if (first_dir >= 0)" or "if (second_dir >= 0)", inc_curr_1vb_var1.cxx:143-157: the
    part up to the boundary in direction [dir] (D1 or D2) *)
Definition vb_step (g : cgrid) (qni_wni : R) (idiff : V3 Z) (dir : dim3) (s : vstate) : list entry * vstate :=
  let off := set3 (v3 0%Z 0%Z 0%Z) dir (get3 idiff dir) in
  let dx1 := calc_3d_dx1 (vs_x s) (vs_dx s) off in
  (curr_3d_vb_cell g (vs_i s) (vs_x s) dx1 qni_wni, vb_upd s dx1 off).

(** first_dir and second_dir, inc_curr_1vb_var1.cxx:118-141, as the list of directions *)
Definition vb_dirs (idiff : V3 Z) (x dx : V3 R) : list dim3 :=
  if ((c1 idiff =? 0) && (c2 idiff =? 0))%Z then []
  else if (c1 idiff =? 0)%Z then [D2]
  else if (c2 idiff =? 0)%Z then [D1]
  else
    let d1 := / 2 * IZR (c1 idiff) - c1 x in
    let d2 := if Req_EM_T (c1 dx) 0 then 0 else c2 dx / c1 dx * d1 in
    if Rgt_dec (Rabs (c2 x + d2)) (/ 2) then [D2; D1] else [D1; D2].

(** the blocks in sequence and the last cell, inc_curr_1vb_var1.cxx:143-159 *)
Fixpoint vb_run (g : cgrid) (qni_wni : R) (idiff : V3 Z) (dirs : list dim3) (s : vstate) : list entry :=
  match dirs with
  | [] => curr_3d_vb_cell g (vs_i s) (vs_x s) (vs_dx s) qni_wni
  | dir :: dirs => let '(l, s') := vb_step g qni_wni idiff dir s in l ++ vb_run g qni_wni idiff dirs s'
  end.

(** Current1vbVar1::calc_j for dim_yz, inc_curr_1vb_var1.cxx:109-160 *)
Definition calc_j_var1 (g : cgrid) (qni_wni : R) (xm xp : V3 R) (lf lg : V3 Z) (vxi : V3 R) : list entry :=
  let idiff := v3 0%Z (c1 lf - c1 lg)%Z (c2 lf - c2 lg)%Z in
  let i := v3 0%Z (c1 lg) (c2 lg) in
  let dx := v3 (c0 vxi * cg_dt g * (1 / c0 (cg_dx g))) (c1 xp - c1 xm) (c2 xp - c2 xm) in
  let x := v3 0 (c1 xm - (IZR (c1 i) + / 2)) (c2 xm - (IZR (c2 i) + / 2)) in
  vb_run g qni_wni idiff (vb_dirs idiff x dx) {| vs_i := i; vs_x := x; vs_dx := dx |}.

(** ** Current1vb2d (yz only; the arrays of length 2 are the y and z components here) *)

(** calc_dx1, inc_curr_1vb_2d.cxx:25-43 *)
Definition calc_dx1 (x dx : R * R) (off : Z * Z) : R * R :=
  if (snd off =? 0)%Z then
    let d0 := / 2 * IZR (fst off) - fst x in
    if Req_EM_T (fst dx) 0 then (d0, 0) else (d0, snd dx / fst dx * d0)
  else
    let d1 := / 2 * IZR (snd off) - snd x in
    if Req_EM_T (snd dx) 0 then (0, d1) else (fst dx / snd dx * d1, d1).

(** curr_2d_vb_cell, the adds, inc_curr_1vb_2d.cxx:49-56 *)
Definition curr_2d_vb_cell (g : cgrid) (i : Z * Z) (x dx : R * R) (qni_wni : R) : list entry :=
  let fnq0 := qni_wni * var1_fnqs g D1 in
  let fnq1 := qni_wni * var1_fnqs g D2 in
  [ add D1 0 (fst i) (snd i) (fnq0 * fst dx * (/ 2 - snd x - / 2 * snd dx));
    add D1 0 (fst i) (snd i + 1) (fnq0 * fst dx * (/ 2 + snd x + / 2 * snd dx));
    add D2 0 (fst i) (snd i) (fnq1 * snd dx * (/ 2 - fst x - / 2 * fst dx));
    add D2 0 (fst i + 1) (snd i) (fnq1 * snd dx * (/ 2 + fst x + / 2 * fst dx)) ].

(** the variables of calc_j, inc_curr_1vb_2d.cxx:88-91 *)
Record v2state := { v2_i : Z * Z; v2_x : R * R; v2_dx : R * R }.

(** curr_2d_vb_cell, the update, inc_curr_1vb_2d.cxx:58-65 *)
Definition v2_upd (s : v2state) (dx1 : R * R) (off : Z * Z) : v2state :=
  {| v2_i := (fst (v2_i s) + fst off, snd (v2_i s) + snd off)%Z;
     v2_x := (fst (v2_x s) + (fst dx1 - IZR (fst off)), snd (v2_x s) + (snd dx1 - IZR (snd off)));
     v2_dx := (fst (v2_dx s) - fst dx1, snd (v2_dx s) - snd dx1) |}.

(** one block, inc_curr_1vb_2d.cxx:120-132; direction false is 0 (y), true is 1 (z) *)
Definition v2_step (g : cgrid) (qni_wni : R) (idiff : Z * Z) (dir : bool) (s : v2state) : list entry * v2state :=
  let off := if dir then (0, snd idiff)%Z else (fst idiff, 0)%Z in
  let dx1 := calc_dx1 (v2_x s) (v2_dx s) off in
  (curr_2d_vb_cell g (v2_i s) (v2_x s) dx1 qni_wni, v2_upd s dx1 off).

(** first_dir and second_dir, inc_curr_1vb_2d.cxx:93-116 *)
Definition v2_dirs (idiff : Z * Z) (x dx : R * R) : list bool :=
  if ((fst idiff =? 0) && (snd idiff =? 0))%Z then []
  else if (fst idiff =? 0)%Z then [true]
  else if (snd idiff =? 0)%Z then [false]
  else
    let d0 := / 2 * IZR (fst idiff) - fst x in
    let d1 := if Req_EM_T (fst dx) 0 then 0 else snd dx / fst dx * d0 in
    if Rgt_dec (Rabs (snd x + d1)) (/ 2) then [true; false] else [false; true].

(** inc_curr_1vb_2d.cxx:120-134 *)
Fixpoint v2_run (g : cgrid) (qni_wni : R) (idiff : Z * Z) (dirs : list bool) (s : v2state) : list entry :=
  match dirs with
  | [] => curr_2d_vb_cell g (v2_i s) (v2_x s) (v2_dx s) qni_wni
  | dir :: dirs => let '(l, s') := v2_step g qni_wni idiff dir s in l ++ v2_run g qni_wni idiff dirs s'
  end.

(** Current1vb2d::calc_j, inc_curr_1vb_2d.cxx:84-135; the out-of-plane current is deposited
    by calc_j_oop, which does not enter the continuity equation *)
Definition calc_j_2d (g : cgrid) (qni_wni : R) (xm xp : V3 R) (lf lg : V3 Z) : list entry :=
  let i := (c1 lg, c2 lg) in
  let idiff := (c1 lf - c1 lg, c2 lf - c2 lg)%Z in
  let dx := (c1 xp - c1 xm, c2 xp - c2 xm) in
  let x := (c1 xm - (IZR (fst i) + / 2), c2 xm - (IZR (snd i) + / 2)) in
  v2_run g qni_wni idiff (v2_dirs idiff x dx) {| v2_i := i; v2_x := x; v2_dx := dx |}.
