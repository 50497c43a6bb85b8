(** Model of src/libmrc/src/hilbert.c (index <-> coordinate conversion) and of
    the Hilbert part of src/libmrc/src/mrc_domain_lib.c.

    [bitmask_t] is [unsigned long long] and [halfmask_t] is [unsigned long]
    (src/libmrc/src/hilbert.h:10-12); both are taken to be 64 bit wide (LP64).
    Values are [N]; every left shift is truncated to 64 bit as in C. *)
From Coq Require Import NArith List.
From Verif Require Import Base.
Local Open Scope N_scope.

(** 64-bit mask. *)
Definition mask64 : N := N.ones 64.

(** C: [x << k] on a 64-bit unsigned type. *)
Definition shl64 (x k : N) : N := N.land (N.shiftl x k) mask64.

(** C: [-x] on a 64-bit unsigned type. *)
Definition neg64 (x : N) : N := N.land (2 ^ 64 - x) mask64.

(** C: [a - b] on a 64-bit unsigned type. *)
Definition sub64 (a b : N) : N := N.land (2 ^ 64 + a - b) mask64.

(** src/libmrc/src/hilbert.c:40  [ones(T,k) ((((T)2) << (k-1)) - 1)] *)
Definition ones_ (k : N) : N := sub64 (shl64 2 (k - 1)) 1.

(** src/libmrc/src/hilbert.c:34-35  [while (bits) bits >>= 1, ++rotation;]
    64 iterations suffice for a 64-bit value; the fuel is never exhausted. *)
Fixpoint shift_count (fuel : nat) (bits rotation : N) : N :=
  match fuel with
  | O => rotation
  | S f => if bits =? 0 then rotation
           else shift_count f (N.shiftr bits 1) (rotation + 1)
  end.

(** src/libmrc/src/hilbert.c:30-38 macro [adjust_rotation]; result is the new
    value of [rotation] ([bits] is dead afterwards). *)
Definition adjust_rotation (rotation nDims nd1Ones bits : N) : N :=
  let bits := N.land bits (N.land (neg64 bits) nd1Ones) in
  let rotation := shift_count 64 bits rotation in
  let rotation := rotation + 1 in
  if nDims <=? rotation then rotation - nDims else rotation.

(** src/libmrc/src/hilbert.c:44-45 macro [rotateRight] *)
Definition rotateRight (arg nRots nDims : N) : N :=
  N.land (N.lor (N.shiftr arg nRots) (shl64 arg (nDims - nRots))) (ones_ nDims).

(** src/libmrc/src/hilbert.c:47-48 macro [rotateLeft] *)
Definition rotateLeft (arg nRots nDims : N) : N :=
  N.land (N.lor (shl64 arg nRots) (N.shiftr arg (nDims - nRots))) (ones_ nDims).

(** src/libmrc/src/hilbert.c:75-83, the [for (d...)] loop for odd [inB];
    state: (inCoords, coords, utCoords); [n] iterations left, [d] and
    [oddShift] count up. *)
Fixpoint bt_odd (n : nat) (d oddShift inB utB shiftAmt inMask inFieldStarts utMask : N)
  (inCoords coords utCoords : N) : N * N :=
  match n with
  | O => (coords, utCoords)
  | S n' =>
      let in_ := N.land inCoords inMask in
      let inCoords := N.shiftr inCoords inB in
      let coords := N.lor coords (shl64 (N.land in_ inFieldStarts) oddShift) in
      let in_ := N.ldiff in_ inFieldStarts in
      let in_ := N.land (N.lor in_ (shl64 in_ shiftAmt)) utMask in
      let utCoords := N.lor utCoords (shl64 in_ (d * utB)) in
      bt_odd n' (d + 1) (oddShift + 1) inB utB shiftAmt inMask inFieldStarts utMask
             inCoords coords utCoords
  end.

(** src/libmrc/src/hilbert.c:87-93, the [for (d...)] loop for even [inB]. *)
Fixpoint bt_even (n : nat) (d inB utB shiftAmt inMask utMask : N)
  (inCoords utCoords : N) : N :=
  match n with
  | O => utCoords
  | S n' =>
      let in_ := N.land inCoords inMask in
      let inCoords := N.shiftr inCoords inB in
      let in_ := N.land (N.lor in_ (shl64 in_ shiftAmt)) utMask in
      let utCoords := N.lor utCoords (shl64 in_ (d * utB)) in
      bt_even n' (d + 1) inB utB shiftAmt inMask utMask inCoords utCoords
  end.

(** src/libmrc/src/hilbert.c:62-101, [while ((utB = inB / 2))] loop and the
    final [coords |= inCoords].  [inB] is halved every iteration, so the fuel
    (64 in [bitTranspose]) is never exhausted for [inB < 2^64]. *)
Fixpoint bt_loop (fuel : nat) (nDims inB inFieldEnds inMask : N)
  (inCoords coords : N) : N :=
  match fuel with
  | O => N.lor coords inCoords
  | S f =>
      let utB := inB / 2 in
      if utB =? 0 then N.lor coords inCoords
      else
        let shiftAmt := (nDims - 1) * utB in
        let utFieldEnds := N.lor inFieldEnds (shl64 inFieldEnds (shiftAmt + utB)) in
        let utMask := sub64 (shl64 utFieldEnds utB) utFieldEnds in
        if N.odd inB then
          let inFieldStarts := shl64 inFieldEnds (inB - 1) in
          let '(coords, utCoords) :=
            bt_odd (N.to_nat nDims) 0 (2 * shiftAmt) inB utB shiftAmt inMask
                   inFieldStarts utMask inCoords coords 0 in
          bt_loop f nDims utB utFieldEnds utMask utCoords coords
        else
          let utCoords :=
            bt_even (N.to_nat nDims) 0 inB utB shiftAmt inMask utMask inCoords 0 in
          bt_loop f nDims utB utFieldEnds utMask utCoords coords
  end.

(** src/libmrc/src/hilbert.c:50-102 [bitTranspose] (DLOGB variant, the one
    compiled). *)
Definition bitTranspose (nDims nBits inCoords : N) : N :=
  bt_loop 64 nDims nBits 1 (ones_ nBits) inCoords 0.

(** src/libmrc/src/hilbert.c:158-165, the do-while loop of i2c.  [n] is the
    number of iterations left, so that C's [b] is [n * nDims] before the
    decrement (the loop runs exactly nBits times because b starts at
    nDims*nBits and is decremented by nDims). *)
Fixpoint i2c_loop (n : nat) (nDims ndOnes nd1Ones index rotation flipBit coords : N) : N :=
  match n with
  | O => coords
  | S n' =>
      let b := N.of_nat n' * nDims in
      let bits := N.land (N.shiftr index b) ndOnes in
      let coords := shl64 coords nDims in
      let coords := N.lor coords (N.lxor (rotateLeft bits rotation nDims) flipBit) in
      let flipBit := shl64 1 rotation in
      let rotation := adjust_rotation rotation nDims nd1Ones bits in
      i2c_loop n' nDims ndOnes nd1Ones index rotation flipBit coords
  end.

(** src/libmrc/src/hilbert.c:166-167 and 235-236,
    [for (b = b0; b < lim; b *= 2) x ^= x >> b;].  [b0 >= 1] doubles each
    time: 64 iterations suffice for [lim <= 64]. *)
Fixpoint xor_fold (fuel : nat) (b lim x : N) : N :=
  match fuel with
  | O => x
  | S f => if b <? lim then xor_fold f (b * 2) lim (N.lxor x (N.shiftr x b)) else x
  end.

(** src/libmrc/src/hilbert.c:173-177, split [coords] into [nDims] coordinates. *)
Fixpoint split_coords (n : nat) (nBits nbOnes coords : N) : list N :=
  match n with
  | O => []
  | S n' => N.land coords nbOnes :: split_coords n' nBits nbOnes (N.shiftr coords nBits)
  end.

(** src/libmrc/src/hilbert.c:205-209, join coordinates (highest index first). *)
Definition join_coords (nBits : N) (coord : list N) : N :=
  fold_right (fun c acc => N.lor (shl64 acc nBits) c) 0 coord.

(** src/libmrc/src/hilbert.c:138-181 [mrc_hilbert_i2c]; the list of coordinates
    written.  For nDims <= 1 only coord[0] is written. *)
Definition hilbert_i2c (nDims nBits index : N) : list N :=
  if 1 <? nDims then
    let nbOnes := ones_ nBits in
    let coords :=
      if 1 <? nBits then
        let nDimsBits := nDims * nBits in
        let ndOnes := ones_ nDims in
        let nd1Ones := N.shiftr ndOnes 1 in
        let nthbits := ones_ nDimsBits / ndOnes in
        let index := N.lxor index (N.shiftr (N.lxor index nthbits) 1) in
        let coords := i2c_loop (N.to_nat nBits) nDims ndOnes nd1Ones index 0 0 0 in
        let coords := xor_fold 64 nDims nDimsBits coords in
        bitTranspose nBits nDims coords
      else N.lxor index (N.shiftr index 1) in
    split_coords (N.to_nat nDims) nBits nbOnes coords
  else [index].

(** src/libmrc/src/hilbert.c:222-230, the do-while loop of c2i. *)
Fixpoint c2i_loop (n : nat) (nDims ndOnes nd1Ones coords rotation flipBit index : N) : N :=
  match n with
  | O => index
  | S n' =>
      let b := N.of_nat n' * nDims in
      let bits := N.land (N.shiftr coords b) ndOnes in
      let bits := rotateRight (N.lxor flipBit bits) rotation nDims in
      let index := shl64 index nDims in
      let index := N.lor index bits in
      let flipBit := shl64 1 rotation in
      let rotation := adjust_rotation rotation nDims nd1Ones bits in
      c2i_loop n' nDims ndOnes nd1Ones coords rotation flipBit index
  end.

(** src/libmrc/src/hilbert.c:196-241 [mrc_hilbert_c2i].  [None]: the array of
    coordinates is shorter than the code reads. *)
Definition hilbert_c2i (nDims nBits : N) (coord : list N) : option N :=
  if 1 <? nDims then
    if negb (N.of_nat (length coord) =? nDims) then None else
    let nDimsBits := nDims * nBits in
    let coords := join_coords nBits coord in
    let index :=
      if 1 <? nBits then
        let ndOnes := ones_ nDims in
        let nd1Ones := N.shiftr ndOnes 1 in
        let nthbits := ones_ nDimsBits / ndOnes in
        let coords := bitTranspose nDims nBits coords in
        let coords := N.lxor coords (N.shiftr coords nDims) in
        let index := c2i_loop (N.to_nat nBits) nDims ndOnes nd1Ones coords 0 0 0 in
        N.lxor index (N.shiftr nthbits 1)
      else coords in
    Some (xor_fold 64 1 nDimsBits index)
  else match coord with c :: _ => Some c | [] => None end.
