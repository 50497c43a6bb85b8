(** Bit field of active patches: src/libmrc/src/bitfield3d.c on a 64-bit machine
    (BITFIELD64, src/libmrc/include/bitfield3d.h:5-10: bitfield3d_type has 64 bits,
    unsigned int and int have 32). *)
From Verif Require Import Base Arr.
Local Open Scope Z_scope.

(** unsigned int arithmetic (bitfield3d.c:6-45) *)
Definition u32 (x : Z) : Z := x mod 2 ^ 32.

(** struct bitfield3d, bitfield3d.h:12-17 *)
Record bitfield := Bitfield { bf_values : list Z; bf_ystride : Z; bf_zstride : Z; bf_length : Z }.

(** bitfield3d.c:6-15; unsigned arithmetic; sizeof makes the sum a size_t, whose
    quotient is small again *)
Definition bf_create (size : V3 Z) : bitfield :=
  let len := (u32 (u32 (c0 size * c1 size) * c2 size) + (8 * 8 - 1)) / (8 * 8) in
  Bitfield (repeat 0 (Z.to_nat len)) (c0 size) (u32 (c0 size * c1 size)) len.

(** bitfield3d.c:19 and 30 *)
Definition bf_index (f : bitfield) (idx : V3 Z) : Z :=
  u32 (c0 idx + c1 idx * bf_ystride f + c2 idx * bf_zstride f).

(** bitfield3d.c:23 and 36: [bitfield3d_type mask = 1 << pi] -- the shift is done in
    [int], the result is sign-extended to 64 bits.  (Shifting into the sign bit is
    undefined in C99; this is what compilers do.) *)
Definition bf_mask (pi : Z) : Z := if pi =? 31 then 2 ^ 64 - 2 ^ 31 else 2 ^ pi.

(** bitfield3d.c:17-26: sizeof(unsigned int) * 8 = 32; None is an access outside
    the allocation *)
Definition bf_isset (f : bitfield) (idx : V3 Z) : option bool :=
  let i := bf_index f idx in
  match aget (bf_values f) (i / 32) with
  | Some v => Some (negb (Z.land v (bf_mask (i mod 32)) =? 0))
  | None => None
  end.

(** bitfield3d.c:28-45; the assert in line 33 admits i = length *)
Definition bf_set (f : bitfield) (idx : V3 Z) (value : bool) : option bitfield :=
  let i := bf_index f idx in
  let mask := bf_mask (i mod 32) in
  if i / 32 <=? bf_length f then
    match aget (bf_values f) (i / 32) with
    | Some v =>
        match aset (bf_values f) (i / 32)
                (if value then Z.lor v mask else Z.land v (Z.lxor (Z.ones 64) mask)) with
        | Some l => Some (Bitfield l (bf_ystride f) (bf_zstride f) (bf_length f))
        | None => None
        end
    | None => None
    end
  else None.

(** bitfield3d.c:47-56: ~0 is the [int] -1 *)
Definition bf_fill (f : bitfield) (value : bool) : bitfield :=
  Bitfield (map (fun _ => if value then Z.ones 64 else 0) (bf_values f)) (bf_ystride f) (bf_zstride f) (bf_length f).

(** bitfield3d.c:58-65 *)
Definition bf_compare (f g : bitfield) : Z :=
  if forallb (fun vw => fst vw =? snd vw) (combine (bf_values f) (bf_values g)) then 0 else 1.

(** bitfield3d.c:67-76 *)
Definition bf_merge (out f2 : bitfield) : option bitfield :=
  if bf_length out =? bf_length f2 then
    Some (Bitfield (map (fun vw => Z.lor (fst vw) (snd vw)) (combine (bf_values out) (bf_values f2)))
                   (bf_ystride out) (bf_zstride out) (bf_length out))
  else None.

(** __builtin_popcountll (bitfield3d.c:93) *)
Definition popcount (v : Z) : Z := alen (filter (Z.testbit v) (zrange 0 64)).

(** bitfield3d.c:83-102 (with USE_SSE2; without it the function asserts) *)
Definition bf_count (f : bitfield) : Z := zsum (map popcount (bf_values f)).

(** bitfield3d.c:104-111 *)
Definition bf_copy (src : bitfield) : bitfield := src.

(** a sequence of calls of bitfield3d_set *)
Fixpoint bf_sets (f : bitfield) (ops : list (V3 Z * bool)) : option bitfield :=
  match ops with
  | [] => Some f
  | (idx, b) :: ops => match bf_set f idx b with Some f => bf_sets f ops | None => None end
  end.
