(** One binary collision: src/include/binary_collision.hxx, in real arithmetic.  Divisions
    by zero and square roots of negative numbers (which give inf or nan in the code) are None.
    Vectors of three are written as such. *)
From Coq Require Import Reals.
From Verif Require Import Base Arr CollisionModel.
Local Open Scope R_scope.

(** division and square root, as used all over binary_collision.hxx:113-285 *)
Definition rdiv (x y : R) : option R := if Req_EM_T y 0 then None else Some (x / y).
(** std::sqrt, binary_collision.hxx:113 and others *)
Definition rsqrt (x : R) : option R := if Rlt_dec x 0 then None else Some (sqrt x).
(** sequencing of partial operations, for the statements of binary_collision.hxx:57-295 *)
Definition bind {A B} (o : option A) (f : A -> option B) : option B := match o with Some a => f a | None => None end.
Notation "'let!' x ':=' a 'in' b" := (bind a (fun x => b)) (at level 200, x pattern, a at level 100, b at level 200).

(** the products written out in binary_collision.hxx:113-115, 147-148 and others *)
Definition dot (a b : V3 R) : R := c0 a * c0 b + c1 a * c1 b + c2 a * c2 b.
(** vectors written out by components in binary_collision.hxx:104-109 and others *)
Definition scal (s : R) (a : V3 R) : V3 R := v3 (s * c0 a) (s * c1 a) (s * c2 a).
(** division of the three components, binary_collision.hxx:128-130 and others *)
Definition vdiv (a : V3 R) (s : R) : option (V3 R) :=
  let! x := rdiv (c0 a) s in let! y := rdiv (c1 a) s in let! z := rdiv (c2 a) s in Some (v3 x y z).

(** binary_collision.hxx:150-152: momentum p with energy e, seen from the frame moving with velocity vc in
    direction n *)
Definition to_cm (gam pn e : R) (n vc p : V3 R) : V3 R :=
  v3 (c0 p + (gam - 1) * pn * c0 n - gam * c0 vc * e)
     (c1 p + (gam - 1) * pn * c1 n - gam * c1 vc * e)
     (c2 p + (gam - 1) * pn * c2 n - gam * c2 vc * e).

(** binary_collision.hxx:272-274: and back *)
Definition to_lab (gam pn e : R) (n vc p : V3 R) : V3 R :=
  v3 (c0 p + (gam - 1) * pn * c0 n + gam * c0 vc * e)
     (c1 p + (gam - 1) * pn * c1 n + gam * c1 vc * e)
     (c2 p + (gam - 1) * pn * c2 n + gam * c2 vc * e).

(** binary_collision.hxx:160-188: the coordinate system with first axis along pc *)
Definition axes (pc : V3 R) : option (V3 R * V3 R * V3 R) :=
  let! nn1 := rsqrt (dot pc pc) in
  let! nn2 := rsqrt (c0 pc * c0 pc + c1 pc * c1 pc) in
  let nn3 := nn1 * nn2 in
  if Req_EM_T nn2 0 then Some (v3 0 0 1, v3 0 1 0, v3 1 0 0)
  else
    let! n1 := vdiv pc nn1 in
    let! nx2 := rdiv (c1 pc) nn2 in
    let! ny2 := rdiv (- c0 pc) nn2 in
    let! nx3 := rdiv (- c0 pc * c2 pc) nn3 in
    let! ny3 := rdiv (- c1 pc * c2 pc) nn3 in
    let! nz3 := rdiv (nn2 * nn2) nn3 in
    Some (n1, v3 nx2 ny2 0, v3 nx3 ny3 nz3).

(** binary_collision.hxx:192-206: the relative velocity in the center of mass frame, at least 1e-20 *)
Definition relative (pc1 pc2 : V3 R) (pc01 pc02 : R) : option R :=
  let! v1 := vdiv pc1 pc01 in
  let! v2 := vdiv pc2 pc02 in
  let! vcn := rdiv 1 (1 - dot v1 v2) in
  let vr := v3 (vcn * (c0 v1 - c0 v2)) (vcn * (c1 v1 - c1 v2)) (vcn * (c2 v1 - c2 v2)) in
  let! vcr := rsqrt (dot vr vr) in
  Some (if Rlt_dec vcr (/ 100000000000000000000) then / 100000000000000000000 else vcr).

(** binary_collision.hxx:235-245: the angle psi.  std::log(0) is minus infinity, and then psi = 2 atan(inf) = pi,
    unless nudt = 0, where 0 * inf is nan *)
Definition scatter_angle (nudt ran2 : R) : option R :=
  let ran2 := if Rlt_dec ran2 (/ 100000000000000000000) then / 100000000000000000000 else ran2 in
  if Rlt_dec nudt 1 then
    if Req_EM_T ran2 1 then (if Rlt_dec 0 nudt then Some PI else None)
    else if Rlt_dec 1 ran2 then None
    else let! s := rsqrt (- / 2 * nudt * ln (1 - ran2)) in Some (2 * atan s)
  else if Rlt_dec 1 ran2 then None else Some (acos (1 - 2 * ran2)).

(** operator(), binary_collision.hxx:57-295: momenta afterwards and what is returned; ran1 and ran2 are the two
    numbers drawn in lines 233-234 *)
Definition collide (m1 m2 q1 q2 : R) (u1 u2 : V3 R) (nudt1 ran1 ran2 : R) : option (V3 R * V3 R * R) :=
  if Req_EM_T (q1 * q2) 0 then Some (u1, u2, 0)
  else
    let p1 := scal m1 u1 in
    let p2 := scal m2 u2 in
    let! p01 := rsqrt (m1 * m1 + c0 p1 * c0 p1 + c1 p1 * c1 p1 + c2 p1 * c2 p1) in
    let! p02 := rsqrt (m2 * m2 + c0 p2 * c0 p2 + c1 p2 * c1 p2 + c2 p2 * c2 p2) in
    let h1 := p01 * p02 - c0 p1 * c0 p2 - c1 p1 * c1 p2 - c2 p1 * c2 p2 in
    let ss := m1 * m1 + m2 * m2 + 2 * h1 in
    let h2 := ss - m1 * m1 - m2 * m2 in
    let! h3 := rdiv (h2 * h2 - 4 * m1 * m1 * m2 * m2) (4 * ss) in
    if Rlt_dec h3 0 then Some (u1, u2, 0)
    else
      let! ppc := rsqrt h3 in
      let! vc := vdiv (v3 (c0 p1 + c0 p2) (c1 p1 + c1 p2) (c2 p1 + c2 p2)) (p01 + p02) in
      let! nnorm := rsqrt (dot vc vc) in
      let! n := (if Rlt_dec 0 nnorm then vdiv vc nnorm else Some (v3 0 0 0)) in
      let bet := nnorm in
      let! rt := rsqrt (1 - bet * bet) in
      let! gam := rdiv 1 rt in
      let! pc01 := rsqrt (m1 * m1 + ppc * ppc) in
      let pc1 := to_cm gam (dot p1 n) p01 n vc p1 in
      let! pc02 := rsqrt (m2 * m2 + ppc * ppc) in
      let pc2 := to_cm gam (dot p2 n) p02 n vc p2 in
      let! (n1, n2, n3) := axes pc1 in
      let! vcr := relative pc1 pc2 pc01 pc02 in
      let! qqc := rsqrt h3 in
      let! m12 := rdiv (m1 * m2) (m1 + m2) in
      let q12 := q1 * q2 in
      let! nudt := rdiv (nudt1 * q12 * q12) (m12 * m12 * vcr * vcr * vcr) in
      let nu := 2 * PI * ran1 in
      let! psi := scatter_angle nudt ran2 in
      let! pc03 := rsqrt (m1 * m1 + qqc * qqc) in
      let pc3 := v3 (qqc * (cos psi * c0 n1 + sin psi * sin nu * c0 n2 + sin psi * cos nu * c0 n3))
                    (qqc * (cos psi * c1 n1 + sin psi * sin nu * c1 n2 + sin psi * cos nu * c1 n3))
                    (qqc * (cos psi * c2 n1 + sin psi * sin nu * c2 n2 + sin psi * cos nu * c2 n3)) in
      let! pc04 := rsqrt (m2 * m2 + qqc * qqc) in
      let pc4 := v3 (- c0 pc3) (- c1 pc3) (- c2 pc3) in
      let p3 := to_lab gam (dot pc3 n) pc03 n vc pc3 in
      let p4 := to_lab gam (dot pc4 n) pc04 n vc pc4 in
      let! u3 := vdiv p3 m1 in
      let! u4 := vdiv p4 m2 in
      Some (u3, u4, nudt).

(** a particle as far as collisions go: mass and charge of its kind, and momentum *)
(** particle_simple.hxx:38-41, prt_q and prt_m *)
Record cprt := mkC { cp_m : R; cp_q : R; cp_u : V3 R }.

(** do_bc, psc_collision_impl.hxx:250-255, on the particles of a patch *)
Definition collide_at (prts : list cprt) (n1 n2 : Z) (nudt1 ran1 ran2 : R) : option (list cprt) :=
  match aget prts n1, aget prts n2 with
  | Some a, Some b =>
      let! (u1, u2, _) := collide (cp_m a) (cp_m b) (cp_q a) (cp_q b) (cp_u a) (cp_u b) nudt1 ran1 ran2 in
      let! prts := aset prts n1 (mkC (cp_m a) (cp_q a) u1) in
      aset prts n2 (mkC (cp_m b) (cp_q b) u2)
  | _, _ => None
  end.

(** the collisions of a patch one after the other (psc_collision_impl.hxx:217-248 for all cells);
    an event of CollisionModel is (first particle, second particle, weight in halves);
    rnd gives the nudt1 of the cell and the two random numbers of the k-th call *)
Fixpoint run_events (evs : list event) (rnd : nat -> R * R * R) (k : nat) (prts : list cprt) : option (list cprt) :=
  match evs with
  | [] => Some prts
  | (n1, n2, h) :: evs =>
      let '(nudt1, ran1, ran2) := rnd k in
      let! prts := collide_at prts n1 n2 (IZR h * / 2 * nudt1) ran1 ran2 in
      run_events evs rnd (S k) prts
  end.
