(** The coordinates of cells and nodes of a domain: src/libmrc/src/mrc_crds.c and mrc_crds_gen_uniform.c, and those written to a file, mrc_io_xdmf.c.
    Real numbers in place of doubles and floats; integers are unbounded.  An access outside of an array is [None]. One direction at a time. *)
From Coq Require Import ZArith Reals List Bool.
Import ListNotations.
Local Open Scope bool_scope.
Local Open Scope Z_scope.

(** mrc_crds_gen_uniform_run, mrc_crds_gen_uniform.c:15-24: xx[i] *)
Definition gen_uniform (xl xh : R) (n i : Z) : R :=
  let h := ((xh - xl) / IZR n)%R in (xl + (IZR i + / 2) * h)%R.

(** an access MRC_D2(x, i, 0) to the array of mrc_crds_setup_alloc_global_array, mrc_crds.c:200-213, filled by the generator with x;
    the bounds are those asserted by mrc_ndarray.h:51-63 when they are checked *)
Definition rd (n sw : Z) (x : Z -> R) (i : Z) : option R :=
  if (- sw <=? i) && (i <? n + sw) then Some (x i) else None.

(** the three formulas of mrc_crds.c:264-275 read two values; simplification: read in one order *)
Definition rd2 (f : R -> R -> R) (a b : option R) : option R :=
  match a, b with Some a, Some b => Some (f a b) | _, _ => None end.

(** extrapolation below the first point a, with its upper neighbour b, mrc_crds.c:265-267 and mrc_io_xdmf.c:765-767 *)
Definition ext_lo (a b : R) : R := (a - / 2 * (b - a))%R.

(** extrapolation above the last point a, with its lower neighbour b, mrc_crds.c:269-271 and mrc_io_xdmf.c:768-770 *)
Definition ext_hi (a b : R) : R := (a + / 2 * (a - b))%R.

(** the middle between two points, mrc_crds.c:273-274 and mrc_io_xdmf.c:758 *)
Definition mid (a b : R) : R := (/ 2 * (a + b))%R.

(** _mrc_crds_setup, mrc_crds.c:255-259: the coordinate of cell i of a patch at off *)
Definition cell_crd (n sw : Z) (x : Z -> R) (off i : Z) : option R := rd n sw x (i + off).

(** _mrc_crds_setup, mrc_crds.c:262-277: the coordinate of node i of a patch at off *)
Definition node_crd (n sw : Z) (x : Z -> R) (off i : Z) : option R :=
  if i + off =? - sw then rd2 ext_lo (rd n sw x (i + off)) (rd n sw x (i + 1 + off))
  else if i + off =? n + sw then rd2 ext_hi (rd n sw x (i - 1 + off)) (rd n sw x (i - 2 + off))
  else rd2 mid (rd n sw x (i - 1 + off)) (rd n sw x (i + off)).

(** a loop of mrc_m1_foreach, mrc_fld.h:285-288, from lo on over m points, collecting what its body stores *)
Fixpoint loop (f : Z -> option R) (lo : Z) (m : nat) : option (list R) :=
  match m with
  | O => Some []
  | S m => match f lo with
           | Some v => match loop f (lo + 1) m with Some l => Some (v :: l) | None => None end
           | None => None
           end
  end.

(** _mrc_crds_setup, mrc_crds.c:250-279: cells and nodes, ghost points included, of a patch of ldims cells at off *)
Definition setup_patch (n sw : Z) (x : Z -> R) (off ldims : Z) : option (list R * list R) :=
  match loop (cell_crd n sw x off) (- sw) (Z.to_nat (ldims + 2 * sw)),
        loop (node_crd n sw x off) (- sw) (Z.to_nat (ldims + 2 * sw + 1)) with
  | Some c, Some nd => Some (c, nd)
  | _, _ => None
  end.

(** _mrc_crds_setup, mrc_crds.c:224-247, of uniform coordinates from l to h in units of norm_length / norm_length_scale *)
Definition setup_uniform (norm scale l h : R) (n sw off ldims : Z) : option (list R * list R) :=
  let xnorm := (norm / scale)%R in
  setup_patch n sw (gen_uniform (l / xnorm) (h / xnorm) n) off ldims.

(** an access to the cells of a patch, MRC_M1(mcrd, 0, i, p), mrc_fld.h:280, of a field with sw ghost points, mrc_crds.c:165 *)
Definition at_cell (sw : Z) (cells : list R) (i : Z) : option R :=
  if - sw <=? i then nth_error cells (Z.to_nat (i + sw)) else None.

(** mrc_crds_get_dx, mrc_crds.c:138-144, one direction *)
Definition get_dx (sw : Z) (cells : list R) : option R :=
  rd2 Rminus (at_cell sw cells 1) (at_cell sw cells 0).

(** hdf5_write_mcrds, mrc_io_xdmf.c:754-771: the value of node i written with bnd ghost cells; of two assignments to one node the last counts *)
Definition file_node (im sw bnd : Z) (cells : list R) (i : Z) : option R :=
  let c := at_cell sw cells in
  if bnd <? sw then rd2 mid (c (i - 1)) (c i)
  else if i =? im + bnd then rd2 ext_hi (c (im + bnd - 1)) (c (im + bnd - 2))
  else if i =? - bnd then rd2 ext_lo (c (- bnd)) (c (- bnd + 1))
  else rd2 mid (c (i - 1)) (c i).

(** hdf5_write_mcrds, mrc_io_xdmf.c:751-776: the nodes of one patch with im cells *)
Definition file_nodes (im sw bnd : Z) (cells : list R) : option (list R) :=
  loop (file_node im sw bnd cells) (- bnd) (Z.to_nat (im + 2 * bnd + 1)).
