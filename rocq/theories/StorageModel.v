(** Where field values are stored: src/include/fields3d.hxx, src/include/fields.hxx.
    Storage positions are unbounded integers (gtensor uses [int] strides: fields
    beyond 2^31 values per process are not covered).  The gtensor library itself
    is outside /repo; taken from it: a [gtensor<R, 5>] is column-major, i.e. the
    first index varies fastest, and a span reads [data + sum of index * stride]. *)
From Verif Require Import Base.
Local Open Scope Z_scope.

(** MfieldsCRTP (fields3d.hxx:253-316): box (lower bounds and extents), number of
    components, number of patches *)
Record mfields := Mfields { ib : V3 Z; im : V3 Z; n_comps : Z; n_patches : Z }.

(** fields3d.hxx:340-348: the box includes the ghost points *)
Definition make_mfields (ldims ibn : V3 Z) (n_fields n_patches : Z) : mfields :=
  Mfields (gen3 (fun d => - get3 ibn d)) (gen3 (fun d => get3 ldims d + 2 * get3 ibn d)) n_fields n_patches.

(** size of the allocation: gt::shape(im0, im1, im2, n_fields, n_patches),
    fields3d.hxx:343-344 *)
Definition storage_size (f : mfields) : Z :=
  c0 (im f) * c1 (im f) * c2 (im f) * n_comps f * n_patches f.

(** column-major position in the 5-d storage *)
Definition storage_pos (f : mfields) (i j k m p : Z) : Z :=
  i + c0 (im f) * j + c0 (im f) * c1 (im f) * k + c0 (im f) * c1 (im f) * c2 (im f) * m
  + c0 (im f) * c1 (im f) * c2 (im f) * n_comps f * p.

(** fields3d.hxx:292-300: operator()(m, i, j, k, p) *)
Definition mf_pos (f : mfields) (m i j k p : Z) : Z :=
  storage_pos f (i - c0 (ib f)) (j - c1 (ib f)) (k - c2 (ib f)) m p.

(** detail::strides, fields3d.hxx:29-32 *)
Definition strides (im : V3 Z) : Z * Z * Z * Z := (1, c0 im, c0 im * c1 im, c0 im * c1 im * c2 im).

(** kg::detail::strides<LayoutAOS>, src/kg/include/kg/SArrayView.h:30-35 *)
Definition strides_aos (im : V3 Z) (n_comps : Z) : Z * Z * Z * Z :=
  (n_comps, n_comps * c0 im, n_comps * c0 im * c1 im, 1).

(** a read through a span (fields3d.hxx:283-290) *)
Definition span_pos (st : Z * Z * Z * Z) (i j k m : Z) : Z :=
  let '(s0, s1, s2, s3) := st in i * s0 + j * s1 + k * s2 + m * s3.

(** the view of one patch: operator[](p), fields3d.hxx:283-290 *)
Definition view_pos (f : mfields) (p : Z) (i j k m : Z) : Z :=
  storage_pos f 0 0 0 0 p + span_pos (strides (im f)) i j k m.

(** Fields3d<F, dim>::operator()(m, i, j, k), fields.hxx:47-64, on the view of
    patch p; [invar] are dim::InvarX etc. *)
Definition fields3d_pos (invar : V3 bool) (f : mfields) (p : Z) (m i j k : Z) : Z :=
  view_pos f p (if c0 invar then 0 else i - c0 (ib f)) (if c1 invar then 0 else j - c1 (ib f))
           (if c2 invar then 0 else k - c2 (ib f)) m.
