(** What a relativistic particle push should do, in vector notation. *)
From Coq Require Import Reals.
From Verif Require Import Base.
Local Open Scope R_scope.

Definition vplus (a b : V3 R) : V3 R := gen3 (fun d => get3 a d + get3 b d).
Definition vscale (c : R) (a : V3 R) : V3 R := gen3 (fun d => c * get3 a d).
Definition dot (a b : V3 R) : R := c0 a * c0 b + c1 a * c1 b + c2 a * c2 b.
Definition cross (a b : V3 R) : V3 R :=
  v3 (c1 a * c2 b - c2 a * c1 b) (c2 a * c0 b - c0 a * c2 b) (c0 a * c1 b - c1 a * c0 b).
Definition gamma (p : V3 R) : R := sqrt (1 + dot p p).

(** the Boris scheme: half the electric impulse, a rotation about H with the gamma
    factor of the momentum between, half the electric impulse *)
Definition boris (p E H p' : V3 R) (dq : R) : Prop :=
  let pm := vplus p (vscale dq E) in
  let pp := vplus p' (vscale (- dq) E) in
  vplus pp (vscale (-1) pm) = vscale (dq / gamma pm) (cross (vplus pp pm) H).
