(** What heating is to do. *)
From Coq Require Import Reals.
From Verif Require Import Base Arr RSum MomentModel HeatModel.
Local Open Scope Z_scope.

(** parameters that make sense: fewer than ten kinds, temperatures that are not negative, a foil of
    positive thickness *)
Definition spot_ok (s : spot) : Prop :=
  alen (h_T s) < 10 /\ (forall T, In T (h_T s) -> (0 <= T)%R) /\ (h_zl s < h_zh s)%R /\ (0 < h_Mi s)%R.

(** the strength of the heating in the centre of the spot *)
Definition strength (s : spot) (k : Z) : R :=
  match aget (h_T s) k with Some T => (8 * (T * sqrt T) / (sqrt (h_Mi s) * (h_zh s - h_zl s)))%R | None => 0%R end.

(** a Gaussian around a centre, in the plane or (yz) along y *)
Definition gauss (s : spot) (x y : R) : R :=
  exp (- (((if h_yz s then 0 else Rsqr x) + Rsqr y) / Rsqr (h_rH s)))%R.

(** the rate: within the foil, the spot and its nearest images in the directions it varies in *)
Definition rate (s : spot) (x y z : R) (k : Z) : R :=
  if Rlt_dec (h_zl s) z then if Rlt_dec z (h_zh s) then
    if Req_EM_T (h_rH s) 0 then strength s k
    else (strength s k * rsum (flat_map (fun i => map (fun j =>
           gauss s (x - (h_xc s + IZR i * h_Lx s)) (y - (h_yc s + IZR j * h_Ly s))) [-1; 0; 1]%Z)
         (if h_yz s then [0] else [-1; 0; 1])%Z))%R
  else 0%R else 0%R.

(** what a particle in patch with corner [xb] becomes when the normals [r] are drawn: only its momentum
    changes, by sqrt(rate * time) times the normals *)
Definition heated (s : spot) (hdt : R) (xb : V3 R) (r : V3 R) (x x' : mprt) : Prop :=
  mp_x x' = mp_x x /\ mp_kind x' = mp_kind x /\ mp_qw x' = mp_qw x /\
  forall d, get3 (mp_u x') d =
    (get3 (mp_u x) d + sqrt (rate s (c0 (mp_x x) + c0 xb) (c1 (mp_x x) + c1 xb) (c2 (mp_x x) + c2 xb) (mp_kind x) * hdt) * get3 r d)%R.

(** the normals that Box and Muller's formula gives for six numbers between 0 and 1 *)
Definition box_muller (a : Z -> R) : V3 R :=
  gen3 (fun d => let k := match d with D0 => 0 | D1 => 2 | D2 => 4 end in
    (sqrt (2 * ln (/ (1 - a k))) * cos (2 * PI * a (k + 1)%Z))%R).

(** the rate at the place of a particle *)
Definition rate_at (s : spot) (xb : V3 R) (x : mprt) : R :=
  rate s (c0 (mp_x x) + c0 xb) (c1 (mp_x x) + c1 xb) (c2 (mp_x x) + c2 xb) (mp_kind x).
