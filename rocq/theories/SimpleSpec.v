(** Lines of processes. *)
From Verif Require Import Base.
Local Open Scope Z_scope.

(** coordinates of a process *)
Definition inside (np p : V3 Z) : Prop := forall d, 0 <= get3 p d < get3 np d.
(** processes are numbered along x, then y, then z *)
Definition number (np p : V3 Z) : Z := c0 p + c0 np * (c1 p + c1 np * c2 p).
(** f 0 + ... + f (n - 1) *)
Definition upto (f : Z -> Z) (n : Z) : Z := zsum (map f (zrange 0 n)).
(** the cells of the processes before p on its line in direction d *)
Definition before (np : V3 Z) (lm : Z -> V3 Z) (p : V3 Z) (d : dim3) : Z := upto (fun i => get3 (lm (number np (set3 p d i))) d) (get3 p d).
(** how far a process has come when it knows its offset in d *)
Definition knows (d : dim3) (k : Z) : Prop := match d with D0 => 1 <= k | D1 => 3 <= k | D2 => 5 <= k end.
(** the processes of a slab perpendicular to d have as many cells in d: the patches then fit together *)
Definition fits (np : V3 Z) (lm : Z -> V3 Z) (l : dim3 -> Z -> Z) : Prop := forall p d, inside np p -> get3 (lm (number np p)) d = l d (get3 p d) /\ 0 <= l d (get3 p d).
