(** Energy diagnostics: src/include/DiagEnergiesField.h, DiagEnergiesParticle.h and write_one of DiagEnergies.inl.
    Real numbers for floating point numbers.  Not modelled: the file that is written, and the choice of the steps (which is
    in OutputModel.v). *)
From Coq Require Import Reals.
From Verif Require Import Base StorageModel GhostModel.
Local Open Scope R_scope.

(** ** DiagEnergiesField *)

(** gtensor (outside of the repository): a slice [_s(a, b)] of a direction of extent n starts at a, or, if a is negative,
    at n + a, as in numpy.  src/include/fields3d.hxx:497-498, [_s(bnd, -bnd)] for what is without ghost points, relies on the
    same for the end. *)
Definition slice_start (n a : Z) : Z := (if a <? 0 then n + a else a)%Z.

(** [flds(i, j, k, m)] with [flds = h_gt_mflds.view(_s(first[0], ..), _s(first[1], ..), _s(first[2], ..), _all, p)], DiagEnergiesField.h:30-31;
    views do not check indices.  mem: what the storage has by position; None: an access outside of the storage *)
Definition view_read (f : mfields) (mem : Z -> R) (first : V3 Z) (p m : Z) (x : V3 Z) : option R :=
  let s d := slice_start (get3 (im f) d) (get3 first d) in
  let pos := storage_pos f (s D0 + c0 x) (s D1 + c1 x) (s D2 + c2 x) m p in
  if ((0 <=? pos) && (pos <? storage_size f))%Z then Some (mem pos) else None.

(** EX, EY, EZ, HX, HY, HZ of psc.h:28-38 *)
Definition EH_comps : list Z := [3; 4; 5; 6; 7; 8]%Z.

(** the six additions for one cell, 34-40 *)
Definition add_cell (f : mfields) (mem : Z -> R) (first : V3 Z) (fac : R) (p : Z) (x : V3 Z) (EH2 : list R) : option (list R) :=
  fold_right (fun '(e, m) o => match o, view_read f mem first p m x with Some l, Some v => Some (e + v * v * fac :: l) | _, _ => None end)
             (Some []) (combine EH2 EH_comps).

(** the cells in the order of grid.Foreach_3d(0, 0, ..), src/include/grid.hxx:125-139: [loop4] of GhostModel.v is the same loop *)
Definition cells (ldims : V3 Z) : list (V3 Z) := map snd (loop4 0 1 (v3 0 0 0)%Z ldims).

(** DiagEnergiesField::operator(), 18-43, up to where the slices start *)
Definition field_energies (ldims : V3 Z) (f : mfields) (mem : Z -> R) (first : V3 Z) (dx : V3 R) : option (list R) :=
  let fac := c0 dx * c1 dx * c2 dx in
  fold_left (fun o p => fold_left (fun o x => match o with Some EH2 => add_cell f mem first fac p x EH2 | None => None end) (cells ldims) o)
            (zrange 0 (n_patches f)) (Some (repeat 0 6)).

(** DiagEnergiesField::operator(), 18-43: the slices are [_s(-bnd[d], bnd[d])], 30-31 *)
Definition DiagEnergiesField (ldims ibn : V3 Z) (n_fields n_patches : Z) (mem : Z -> R) (dx : V3 R) : option (list R) :=
  field_energies ldims (make_mfields ldims ibn n_fields n_patches) mem (gen3 (fun d => - get3 ibn d)%Z) dx.

(** ** DiagEnergiesParticle *)

(** what the accessor has: u(), and w() = qni_wni / q, q() and m() of the kind (src/include/const_accessor_simple.hxx:22-29) *)
Record prt := mkPrt { prt_u : V3 R; prt_qni_wni : R; prt_q : R; prt_m : R }.

(** one particle, DiagEnergiesParticle.h:26-37; None: [assert(0)] *)
Definition add_prt (fnqs fac : R) (pt : prt) (vals : R * R) : option (R * R) :=
  let gamma := sqrt (1 + c0 (prt_u pt) * c0 (prt_u pt) + c1 (prt_u pt) * c1 (prt_u pt) + c2 (prt_u pt) * c2 (prt_u pt)) in
  let Ekin := (gamma - 1) * prt_m pt * (prt_qni_wni pt / prt_q pt) * fnqs in
  let q := prt_q pt in
  if Rlt_dec q 0 then Some (fst vals + Ekin * fac, snd vals)
  else if Rlt_dec 0 q then Some (fst vals, snd vals + Ekin * fac)
  else None.

(** DiagEnergiesParticle::operator(), 15-42; the particles by patch *)
Definition DiagEnergiesParticle (fnqs : R) (dx : V3 R) (mprts : list (list prt)) : option (list R) :=
  let fac := c0 dx * c1 dx * c2 dx in
  match fold_left (fun o prts => fold_left (fun o pt => match o with Some vals => add_prt fnqs fac pt vals | None => None end) prts o) mprts (Some (0, 0)) with
  | Some (a, b) => Some [a; b]
  | None => None
  end.

(** ** write_one *)

(** element-wise sum of two vectors (MPI_SUM in DiagEnergies.inl:80-86) *)
Definition vsum (a b : list R) : list R := map (fun '(x, y) => x + y) (combine a b).

(** what process 0 writes: MPI_Reduce over all processes, DiagEnergies.inl:74-93.  Exact sums do not depend on the order, so
    processes are added one after the other *)
Definition write_one (n : nat) (size : Z) (vals : Z -> option (list R)) : option (list R) :=
  fold_left (fun o r => match o, vals r with Some a, Some b => Some (vsum a b) | _, _ => None end) (zrange 0 size) (Some (repeat 0 n)).
