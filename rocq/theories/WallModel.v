(** Boundary conditions for fields at walls: src/libpsc/psc_bnd_fields/psc_bnd_fields_impl.hxx and radiating_bnd.hxx (line
    numbers are of the former).  One patch; real numbers for floating point numbers.  The code as built without DEBUG:
    set_lower_ghosts_to_nan and set_upper_ghosts_to_nan (190-208) return at once.  None: an access outside of the storage, or
    a failed assertion. *)
From Coq Require Import Reals.
From Verif Require Import Base FieldModel.
Local Open Scope Z_scope.

(** the conditions, src/include/grid/BC.h:8-14 *)
Inductive bnd_fld := BND_FLD_OPEN | BND_FLD_PERIODIC | BND_FLD_CONDUCTING_WALL | BND_FLD_ABSORBING.

(** [F(m, ix, iy, iz)], fields.hxx:50-66: field, component and index *)
Definition ref := (qty * dim3 * V3 Z)%type.

(** the access is to a stored point (fields.hxx:50-66; extents are ldims + 2 ibn, fields3d.hxx:343-344) *)
Definition in_store (g : fgrid) (r : ref) : bool :=
  let i := fnorm (invar g) (snd r) in
  forallb (fun d => (- get3 (ibn g) d <=? get3 i d) && (get3 i d <? get3 (ldims g) d + get3 (ibn g) d)) dims3.

(** assignment to an element, fields.hxx:59-66 *)
Definition fset (inv : V3 bool) (f : pf) (q : qty) (d : dim3) (i : V3 Z) (v : R) : pf :=
  fun q' d' i' => if qty_eqb q q' && dim3_eqb d d' && v3_eqb (fnorm inv i) i' then v else f q' d' i'.

(** the statements of 301-533: [r = 0.], [r = s], [r = -s], [r += s], [r -= s] *)
Inductive stmt := Zero (r : ref) | Copy (r s : ref) | CopyNeg (r s : ref) | Add (r s : ref) | Sub (r s : ref).

(** as above, 301-533 *)
Definition exec (g : fgrid) (f : pf) (st : stmt) : option pf :=
  let rd (r : ref) := let '(q, d, i) := r in fget (invar g) f q d i in
  let wr (r : ref) v := let '(q, d, i) := r in fset (invar g) f q d i v in
  let chk (rs : list ref) (f' : pf) := if forallb (in_store g) rs then Some f' else None in
  match st with
  | Zero r => chk [r] (wr r 0%R)
  | Copy r s => chk [r; s] (wr r (rd s))
  | CopyNeg r s => chk [r; s] (wr r (- rd s)%R)
  | Add r s => chk [r; s] (wr r (rd r + rd s)%R)
  | Sub r s => chk [r; s] (wr r (rd r - rd s)%R)
  end.

(** one after the other, 301-533 *)
Definition run (g : fgrid) (f : pf) (l : list stmt) : option pf :=
  fold_left (fun o st => match o with Some f => exec g f st | None => None end) l (Some f).

(** [ix = std::max(-2, ib[0]); ix < std::min(ldims[0] + 2, ib[0] + im[0])], for example 311-312 *)
Definition ixs (g : fgrid) : list Z :=
  zrange (Z.max (-2) (- c0 (ibn g))) (Z.min (c0 (ldims g) + 2) (- c0 (ibn g) + (c0 (ldims g) + 2 * c0 (ibn g)))).
(** [iz = from; iz < ldims[2] + 2] (309) and [iy = from; iy < ldims[1] + 2] (323), with ix in the inner loop *)
Definition loops (g : fgrid) (from : Z) (e : dim3) (body : Z -> Z -> list stmt) : list stmt :=
  flat_map (fun t => flat_map (fun ix => body ix t) (ixs g)) (zrange from (get3 (ldims g) e + 2)).

(** conducting_wall_E_lo, 301-339 *)
Definition conducting_wall_E_lo (g : fgrid) (d : dim3) (f : pf) : option pf :=
  match d with
  | D1 => run g f (loops g (-2) D2 (fun ix iz =>
      [ Zero (QE, D0, v3 ix 0 iz); Copy (QE, D0, v3 ix (-1) iz) (QE, D0, v3 ix 1 iz);
        CopyNeg (QE, D1, v3 ix (-1) iz) (QE, D1, v3 ix 0 iz);
        Zero (QE, D2, v3 ix 0 iz); Copy (QE, D2, v3 ix (-1) iz) (QE, D2, v3 ix 1 iz) ]))
  | D2 => run g f (loops g (-2) D1 (fun ix iy =>
      [ Zero (QE, D0, v3 ix iy 0); Copy (QE, D0, v3 ix iy (-1)) (QE, D0, v3 ix iy 1);
        Zero (QE, D1, v3 ix iy 0); Copy (QE, D1, v3 ix iy (-1)) (QE, D1, v3 ix iy 1);
        CopyNeg (QE, D2, v3 ix iy (-1)) (QE, D2, v3 ix iy 0) ]))
  | D0 => None
  end.

(** conducting_wall_E_hi, 341-380 *)
Definition conducting_wall_E_hi (g : fgrid) (d : dim3) (f : pf) : option pf :=
  match d with
  | D1 => let my := c1 (ldims g) in run g f (loops g (-2) D2 (fun ix iz =>
      [ Zero (QE, D0, v3 ix my iz); Copy (QE, D0, v3 ix (my + 1) iz) (QE, D0, v3 ix (my - 1) iz);
        CopyNeg (QE, D1, v3 ix my iz) (QE, D1, v3 ix (my - 1) iz);
        Zero (QE, D2, v3 ix my iz); Copy (QE, D2, v3 ix (my + 1) iz) (QE, D2, v3 ix (my - 1) iz) ]))
  | D2 => let mz := c2 (ldims g) in run g f (loops g (-2) D1 (fun ix iy =>
      [ Zero (QE, D0, v3 ix iy mz); Copy (QE, D0, v3 ix iy (mz + 1)) (QE, D0, v3 ix iy (mz - 1));
        Zero (QE, D1, v3 ix iy mz); Copy (QE, D1, v3 ix iy (mz + 1)) (QE, D1, v3 ix iy (mz - 1));
        CopyNeg (QE, D2, v3 ix iy mz) (QE, D2, v3 ix iy (mz - 1)) ]))
  | D0 => None
  end.

(** conducting_wall_H_lo, 382-415; the loop over iz starts at -1 (391) *)
Definition conducting_wall_H_lo (g : fgrid) (d : dim3) (f : pf) : option pf :=
  match d with
  | D1 => run g f (loops g (-1) D2 (fun ix iz =>
      [ CopyNeg (QH, D0, v3 ix (-1) iz) (QH, D0, v3 ix 0 iz);
        Copy (QH, D1, v3 ix (-1) iz) (QH, D1, v3 ix 1 iz);
        CopyNeg (QH, D2, v3 ix (-1) iz) (QH, D2, v3 ix 0 iz) ]))
  | D2 => run g f (loops g (-2) D1 (fun ix iy =>
      [ CopyNeg (QH, D0, v3 ix iy (-1)) (QH, D0, v3 ix iy 0);
        CopyNeg (QH, D1, v3 ix iy (-1)) (QH, D1, v3 ix iy 0);
        Copy (QH, D2, v3 ix iy (-1)) (QH, D2, v3 ix iy 1) ]))
  | D0 => None
  end.

(** conducting_wall_H_hi, 417-453 *)
Definition conducting_wall_H_hi (g : fgrid) (d : dim3) (f : pf) : option pf :=
  match d with
  | D1 => let my := c1 (ldims g) in run g f (loops g (-2) D2 (fun ix iz =>
      [ CopyNeg (QH, D0, v3 ix my iz) (QH, D0, v3 ix (my - 1) iz);
        Copy (QH, D1, v3 ix (my + 1) iz) (QH, D1, v3 ix (my - 1) iz);
        CopyNeg (QH, D2, v3 ix my iz) (QH, D2, v3 ix (my - 1) iz) ]))
  | D2 => let mz := c2 (ldims g) in run g f (loops g (-2) D1 (fun ix iy =>
      [ CopyNeg (QH, D0, v3 ix iy mz) (QH, D0, v3 ix iy (mz - 1));
        CopyNeg (QH, D1, v3 ix iy mz) (QH, D1, v3 ix iy (mz - 1));
        Copy (QH, D2, v3 ix iy (mz + 1)) (QH, D2, v3 ix iy (mz - 1)) ]))
  | D0 => None
  end.

(** conducting_wall_J_lo, 455-492 *)
Definition conducting_wall_J_lo (g : fgrid) (d : dim3) (f : pf) : option pf :=
  match d with
  | D1 => run g f (loops g (-2) D2 (fun ix iz =>
      [ Add (QJ, D0, v3 ix 1 iz) (QJ, D0, v3 ix (-1) iz); Zero (QJ, D0, v3 ix (-1) iz);
        Sub (QJ, D1, v3 ix 0 iz) (QJ, D1, v3 ix (-1) iz); Zero (QJ, D1, v3 ix (-1) iz);
        Add (QJ, D2, v3 ix 1 iz) (QJ, D2, v3 ix (-1) iz); Zero (QJ, D2, v3 ix (-1) iz) ]))
  | D2 => run g f (loops g (-2) D1 (fun ix iy =>
      [ Add (QJ, D0, v3 ix iy 1) (QJ, D0, v3 ix iy (-1)); Zero (QJ, D0, v3 ix iy (-1));
        Add (QJ, D1, v3 ix iy 1) (QJ, D1, v3 ix iy (-1)); Zero (QJ, D1, v3 ix iy (-1));
        Sub (QJ, D2, v3 ix iy 0) (QJ, D2, v3 ix iy (-1)); Zero (QJ, D2, v3 ix iy (-1)) ]))
  | D0 => None
  end.

(** conducting_wall_J_hi, 494-533 *)
Definition conducting_wall_J_hi (g : fgrid) (d : dim3) (f : pf) : option pf :=
  match d with
  | D1 => let my := c1 (ldims g) in run g f (loops g (-2) D2 (fun ix iz =>
      [ Add (QJ, D0, v3 ix (my - 1) iz) (QJ, D0, v3 ix (my + 1) iz); Zero (QJ, D0, v3 ix (my + 1) iz);
        Sub (QJ, D1, v3 ix (my - 1) iz) (QJ, D1, v3 ix my iz); Zero (QJ, D1, v3 ix my iz);
        Add (QJ, D2, v3 ix (my - 1) iz) (QJ, D2, v3 ix (my + 1) iz); Zero (QJ, D2, v3 ix (my + 1) iz) ]))
  | D2 => let mz := c2 (ldims g) in run g f (loops g (-2) D1 (fun ix iy =>
      [ Add (QJ, D0, v3 ix iy (mz - 1)) (QJ, D0, v3 ix iy (mz + 1)); Zero (QJ, D0, v3 ix iy (mz + 1));
        Add (QJ, D1, v3 ix iy (mz - 1)) (QJ, D1, v3 ix iy (mz + 1)); Zero (QJ, D1, v3 ix iy (mz + 1));
        Sub (QJ, D2, v3 ix iy (mz - 1)) (QJ, D2, v3 ix iy mz); Zero (QJ, D2, v3 ix iy mz) ]))
  | D0 => None
  end.

(** the points of [VecRange(start, stop)], src/kg/include/kg/VecRange.hxx:41-57, for a range which is not empty: the last index is the
    fastest (property C38) *)
Definition vec_range (start stop : V3 Z) : list (V3 Z) :=
  flat_map (fun i => flat_map (fun j => map (fun k => v3 i j k) (zrange (c2 start) (c2 stop))) (zrange (c1 start) (c1 stop))) (zrange (c0 start) (c0 stop)).

(** mflds.ib(), fields3d.hxx:343 *)
Definition ib (g : fgrid) : V3 Z := gen3 (fun d => - get3 (ibn g) d).
(** mflds.ib() + mflds.im(), fields3d.hxx:343-344 *)
Definition ie (g : fgrid) : V3 Z := gen3 (fun d => get3 (ldims g) d + get3 (ibn g) d).

(** [for (Int3 i3 : VecRange(start, stop)) F(m, i3) = val], 231-233 *)
Definition set_points (g : fgrid) (q : qty) (m : dim3) (v : R) (start stop : V3 Z) (f : pf) : pf :=
  fold_left (fun f i => fset (invar g) f q m i v) (vec_range start stop) f.

(** set_lower_ghosts, 221-256 *)
Definition set_lower_ghosts (g : fgrid) (d : dim3) (q : qty) (val : V3 R) (include_edge : bool) (f : pf) : pf :=
  let f1 := fold_left (fun f m => set_points g q m (get3 val m) (ib g) (set3 (ie g) d 0) f) dims3 f in
  if negb include_edge then f1
  else fold_left (fun f m =>
         if (qty_eqb q QE && negb (dim3_eqb m d)) || (qty_eqb q QH && dim3_eqb m d)
         then set_points g q m (get3 val m) (set3 (ib g) d 0) (set3 (ie g) d 1) f else f) dims3 f1.

(** set_upper_ghosts, 269-299 *)
Definition set_upper_ghosts (g : fgrid) (d : dim3) (q : qty) (val : V3 R) (include_edge : bool) (f : pf) : pf :=
  let n := get3 (ldims g) d in
  let f1 := fold_left (fun f m => set_points g q m (get3 val m) (set3 (ib g) d (n + 1)) (ie g) f) dims3 f in
  fold_left (fun f m =>
    if (qty_eqb q QE && dim3_eqb m d) || (qty_eqb q QH && negb (dim3_eqb m d)) || include_edge
    then set_points g q m (get3 val m) (set3 (ib g) d n) (set3 (ie g) d (n + 1)) f else f) dims3 f1.

(** the loops over lo and hi sides of one patch, 33-74, 88-135, 148-186: what is done on a side is [None] for [assert(0)] *)
Definition sides (at_lo at_hi : V3 bool) (fld_lo fld_hi : V3 bnd_fld) (lo hi : bnd_fld -> dim3 -> pf -> option pf) (f : pf) : option pf :=
  let half (at_ : V3 bool) (bc : V3 bnd_fld) (op : bnd_fld -> dim3 -> pf -> option pf) (o : option pf) :=
    fold_left (fun o d => match o with Some f => if get3 at_ d then op (get3 bc d) d f else Some f | None => None end) dims3 o in
  half at_hi fld_hi hi (half at_lo fld_lo lo (Some f)).

(** fill_ghosts_E, 27-76, for one patch; at_lo, at_hi: grid.atBoundaryLo(p, d), grid.atBoundaryHi(p, d) *)
Definition fill_ghosts_E (g : fgrid) (at_lo at_hi : V3 bool) (fld_lo fld_hi : V3 bnd_fld) (background_e : V3 R) : pf -> option pf :=
  sides at_lo at_hi fld_lo fld_hi
    (fun bc d f => match bc with BND_FLD_PERIODIC => Some f | BND_FLD_CONDUCTING_WALL => conducting_wall_E_lo g d f
                   | BND_FLD_OPEN => Some (set_lower_ghosts g d QE background_e false f) | _ => None end)
    (fun bc d f => match bc with BND_FLD_PERIODIC => Some f | BND_FLD_CONDUCTING_WALL => conducting_wall_E_hi g d f
                   | BND_FLD_OPEN => Some (set_upper_ghosts g d QE background_e false f) | _ => None end).

(** add_ghosts_J, 142-188, for one patch *)
Definition add_ghosts_J (g : fgrid) (at_lo at_hi : V3 bool) (fld_lo fld_hi : V3 bnd_fld) : pf -> option pf :=
  sides at_lo at_hi fld_lo fld_hi
    (fun bc d f => match bc with BND_FLD_PERIODIC | BND_FLD_OPEN => Some f | BND_FLD_CONDUCTING_WALL => conducting_wall_J_lo g d f | _ => None end)
    (fun bc d f => match bc with BND_FLD_PERIODIC | BND_FLD_OPEN => Some f | BND_FLD_CONDUCTING_WALL => conducting_wall_J_hi g d f | _ => None end).

(** (d + 1) % 3, 544 *)
Definition d_1 (d : dim3) : dim3 := match d with D0 => D1 | D1 => D2 | D2 => D0 end.
(** (d + 2) % 3, 544 *)
Definition d_2 (d : dim3) : dim3 := d_1 (d_1 d).

(** pulse_s_lower(t, d, p, x3) etc. at the time t of the call, radiating_bnd.hxx:8-12: by direction, patch and position; without
    radiation (555-556) the pulses are 0 *)
Record pulses := Pulses { pulse_s : dim3 -> Z -> V3 R -> R; pulse_p : dim3 -> Z -> V3 R -> R }.

(** x3_s and x3_p, 558-561: (edge_idx + unit(e) / 2) dx; there is no offset of the patch in it *)
Definition x3 (g : fgrid) (edge_idx : V3 Z) (e : dim3) : V3 R :=
  gen3 (fun a => ((IZR (get3 edge_idx a) + (if dim3_eqb a e then 1 / 2 else 0)) * get3 (dx g) a)%R).

(** dtdx, 542 *)
Definition dtdx (g : fgrid) (d : dim3) : R := (dt g * (1 / get3 (dx g) d))%R.

(** one point of radiative_H_lo, 553-582.  The argument for the patch is a local variable of the same name, which is 0 (556) when
    it is passed (562, 563).  A read with an index outside of the storage is not detected here; see property C33. *)
Definition radiate_lo (g : fgrid) (be bh : V3 R) (ps : pulses) (d : dim3) (f : pf) (i3 : V3 Z) : pf :=
  let F := fget (invar g) f in
  let d1 := d_1 d in let d2 := d_2 d in
  let e := shift i3 d 1 in
  let s := pulse_s ps d 0 (x3 g e d1) in
  let p := pulse_p ps d 0 (x3 g e d2) in
  let f1 := fset (invar g) f QH d2 i3
    ((4 * s - 2 * (F QE d1 e - get3 be d1) - dtdx g d2 * (F QH d e - F QH d (shift e d2 (-1)))
      - (1 - dtdx g d) * (F QH d2 e - get3 bh d2) + dt g * F QJ d1 e) / (1 + dtdx g d) + get3 bh d2)%R in
  let F := fget (invar g) f1 in
  fset (invar g) f1 QH d1 i3
    ((- (4) * p + 2 * (F QE d2 e - get3 be d2) - dtdx g d1 * (F QH d e - F QH d (shift e d1 (-1)))
      - (1 - dtdx g d) * (F QH d1 e - get3 bh d1) + dt g * F QJ d2 e) / (1 + dtdx g d) + get3 bh d1)%R.

(** radiative_H_lo, 535-583 *)
Definition radiative_H_lo (g : fgrid) (be bh : V3 R) (ps : pulses) (d : dim3) (f : pf) : pf :=
  fold_left (radiate_lo g be bh ps d) (vec_range (set3 (ib g) d (-1)) (set3 (ie g) d 0)) f.

(** one point of radiative_H_hi, 604-631 *)
Definition radiate_hi (g : fgrid) (be bh : V3 R) (ps : pulses) (d : dim3) (f : pf) (i3 : V3 Z) : pf :=
  let F := fget (invar g) f in
  let d1 := d_1 d in let d2 := d_2 d in
  let e := shift i3 d (-1) in
  let s := pulse_s ps d 0 (x3 g e d1) in
  let p := pulse_p ps d 0 (x3 g e d2) in
  let f1 := fset (invar g) f QH d2 i3
    ((- (4) * s + 2 * (F QE d1 i3 - get3 be d1) + dtdx g d2 * (F QH d i3 - F QH d (shift i3 d2 (-1)))
      - (1 - dtdx g d) * (F QH d2 e - get3 bh d2) - dt g * F QJ d1 i3) / (1 + dtdx g d) + get3 bh d2)%R in
  let F := fget (invar g) f1 in
  fset (invar g) f1 QH d1 i3
    ((4 * p - 2 * (F QE d2 i3 - get3 be d2) + dtdx g d1 * (F QH d i3 - F QH d (shift i3 d1 (-1)))
      - (1 - dtdx g d) * (F QH d1 e - get3 bh d1) - dt g * F QJ d2 i3) / (1 + dtdx g d) + get3 bh d1)%R.

(** radiative_H_hi, 585-632 *)
Definition radiative_H_hi (g : fgrid) (be bh : V3 R) (ps : pulses) (d : dim3) (f : pf) : pf :=
  fold_left (radiate_hi g be bh ps d) (vec_range (set3 (ib g) d (get3 (ldims g) d)) (set3 (ie g) d (get3 (ldims g) d + 1))) f.

(** fill_ghosts_H, 81-137, for one patch; update_cache_lower and update_cache_upper (89, 115) do nothing unless overridden *)
Definition fill_ghosts_H (g : fgrid) (at_lo at_hi : V3 bool) (fld_lo fld_hi : V3 bnd_fld) (be bh : V3 R) (lower upper : pulses) : pf -> option pf :=
  sides at_lo at_hi fld_lo fld_hi
    (fun bc d f => match bc with BND_FLD_PERIODIC => Some f | BND_FLD_CONDUCTING_WALL => conducting_wall_H_lo g d f
                   | BND_FLD_OPEN => Some (radiative_H_lo g be bh lower d f) | _ => None end)
    (fun bc d f => match bc with BND_FLD_PERIODIC => Some f | BND_FLD_CONDUCTING_WALL => conducting_wall_H_hi g d f
                   | BND_FLD_OPEN => Some (radiative_H_hi g be bh upper d f) | _ => None end).
