(** Sampling from a tabulated distribution: InvertedCdf and findPdfSupport of src/include/rng.hxx.
    Numbers are real numbers; NaN and infinities, which can arise in the logarithm of line 153, are
    represented by the outcome of the comparison that uses them.  None: an access out of bounds or
    a loop that does not end within the number of rounds allowed here. *)
From Coq Require Import Reals.
From Verif Require Import Base Arr.
Local Open Scope R_scope.

(** comparison of Real, rng.hxx:116-206 *)
Definition ltb (a b : R) : bool := if Rlt_dec a b then true else false.
(** rng.hxx:206 *)
Definition eqb (a b : R) : bool := if Req_EM_T a b then true else false.

(** the loops of rng.hxx:114-119 (dir 1), 122-127 (dir -1), 132-137 (-1) and 140-145 (1): max_n_iter
    rounds at most *)
Fixpoint search (more : R -> bool) (dir : R) (max_n_iter : nat) (sf x : R) : R :=
  match max_n_iter with
  | O => x
  | S n => if more x then search more dir n (sf * (3 / 2)) (x + dir * (sf * (3 / 2))) else x
  end.

(** [n_iter + logDiff < 10] with logDiff = log2(diff / width), rng.hxx:152-156.  diff / width < 0: NaN,
    false; diff = 0: minus infinity, true (both 0: NaN, false); width = 0: infinity, false *)
Definition precise (n_iter : nat) (diff width : R) : bool :=
  if eqb width 0 then false
  else if ltb (diff / width) 0 then false
  else ltb (2 ^ n_iter * (diff / width)) (2 ^ 10).

(** the bounds of xmin and xmax, rng.hxx:109 and 129 *)
Record bounds := Bounds { xmin_lb : R; xmin_ub : R; xmax_lb : R; xmax_ub : R }.
(** rng.hxx:149 and 167 *)
Definition mid_min (b : bounds) : R := (xmin_lb b + xmin_ub b) / 2.
(** rng.hxx:150 and 168 *)
Definition mid_max (b : bounds) : R := (xmax_lb b + xmax_ub b) / 2.

(** rng.hxx:156-170; n_left + n_iter = max_n_iter *)
Fixpoint bisect (cdf : R -> R) (tolerance diff width : R) (n_left n_iter : nat) (b : bounds) : bounds :=
  match n_left with
  | O => b
  | S n =>
      if precise n_iter diff width then
        let xmin := mid_min b in
        let xmax := mid_max b in
        let (l, u) := if ltb (cdf xmin) tolerance then (xmin, xmin_ub b) else (xmin_lb b, xmin) in
        let (l', u') := if ltb (1 - tolerance) (cdf xmax) then (xmax_lb b, xmax) else (xmax, xmax_ub b) in
        bisect cdf tolerance diff width n (S n_iter) (Bounds l u l' u')
      else b
  end.

(** findPdfSupport, rng.hxx:105-171: (xmin, xmax) *)
Definition findPdfSupport (cdf : R -> R) (tolerance : R) (max_n_iter : nat) : R * R :=
  let xmin_ub := search (fun x => ltb (cdf x) tolerance) 1 max_n_iter 1 0 in
  let xmax_lb := search (fun x => ltb (1 - tolerance) (cdf x)) (-1) max_n_iter 1 0 in
  let xmin_lb := search (fun x => ltb tolerance (cdf x)) (-1) max_n_iter 1 xmin_ub in
  let xmax_ub := search (fun x => ltb (cdf x) (1 - tolerance)) 1 max_n_iter 1 xmax_lb in
  let b := Bounds xmin_lb xmin_ub xmax_lb xmax_ub in
  let b' := bisect cdf tolerance (mid_max b - mid_min b) (Rmax (xmax_ub - xmax_lb) (xmin_ub - xmin_lb)) max_n_iter 0 b in
  (mid_min b', mid_max b').

(** the vectors of InvertedCdf, rng.hxx:182-190: x and cdf *)
Definition tabulate (cdf : R -> R) (xmin xmax : R) (n_points : Z) : list R * list R :=
  let dx := (xmax - xmin) / IZR (n_points - 1) in
  let is := zrange 1 (n_points - 1) in
  (xmin :: map (fun i => xmin + IZR i * dx) is ++ [xmax], 0 :: map (fun i => cdf (xmin + IZR i * dx)) is ++ [1]).

(** the constructor, rng.hxx:176-191 *)
Definition inverted_cdf (cdf : R -> R) (n_points : Z) (tolerance : R) (max_n_iter : nat) : list R * list R :=
  let (xmin, xmax) := findPdfSupport cdf tolerance max_n_iter in tabulate cdf xmin xmax n_points.

(** a loop over guess_idx, rng.hxx:198-200 (dir -1) and 201-203 (dir 1) *)
Fixpoint walk (cdf : list R) (more : R -> bool) (dir : Z) (fuel : nat) (g : Z) : option Z :=
  match aget cdf g with
  | None => None
  | Some c => if more c then match fuel with O => None | S fuel => walk cdf more dir fuel (g + dir)%Z end else Some g
  end.

(** rng.hxx:196-203; both loops have at most as many rounds as there are points *)
Definition locate (cdf : list R) (u : R) : option Z :=
  match walk cdf (fun c => ltb u c) (-1) (length cdf) (Int_part (IZR (alen cdf) * u)) with
  | Some g => walk cdf (fun c => ltb c u) 1 (length cdf) g
  | None => None
  end.

(** get, rng.hxx:193-216, for the random number u *)
Definition get (x cdf : list R) (u : R) : option R :=
  match locate cdf u with
  | None => None
  | Some g =>
      match aget cdf g, aget cdf (g - 1), aget x g, aget x (g - 1) with
      | Some c1, Some c0, Some x1, Some x0 =>
          let d_cdf := c1 - c0 in
          if eqb d_cdf 0 then Some x1
          else Some ((c1 - u) / d_cdf * x0 + (u - c0) / d_cdf * x1)
      | _, _, _, _ => None
      end
  end.
