(** What a round of collisions is to do, said of the particles with the patches they are in. *)
From Coq Require Import Reals Permutation.
From Verif Require Import Base Arr RSum FieldModel BinColModel CudaCollModel.
Local Open Scope Z_scope.

(** The particle is in cell [q] of patch [p]. *)
Definition in_cellb (p : Z) (q : V3 Z) (w : Z * cuprt) : bool := (fst w =? p) && v3_eqb (cu_pos (snd w)) q.

(** How many there are in a cell. *)
Definition count_in (S : list (Z * cuprt)) (p : Z) (q : V3 Z) : Z := alen (filter (in_cellb p q) S).

(** How much of [f] there is in a cell. *)
Definition amount_in (f : cprt -> R) (S : list (Z * cuprt)) (p : Z) (q : V3 Z) : R :=
  rsum (map (fun w => f (cu_c (snd w))) (filter (in_cellb p q) S)).

(** A particle but for its momentum: patch, position, weight, mass, charge. *)
Definition but_u (w : Z * cuprt) : Z * (V3 R * R * R * R) :=
  (fst w, (cu_x (snd w), cu_w (snd w), cp_m (cu_c (snd w)), cp_q (cu_c (snd w)))).

(** The same particle, with momentum [u]. *)
Definition with_u (w : Z * cuprt) (u : V3 R) (w' : Z * cuprt) : Prop := but_u w' = but_u w /\ cp_u (cu_c (snd w')) = u.

(** The two particles have collided, with the strength [nu]: *)
Definition have_collided (nu : R) (w1 w2 w1' w2' : Z * cuprt) : Prop :=
  exists u v nudt r1 r2, (0 < r1 <= 1 /\ 0 < r2 <= 1)%R /\
    collide (cp_m (cu_c (snd w1))) (cp_m (cu_c (snd w2))) (cp_q (cu_c (snd w1))) (cp_q (cu_c (snd w2)))
            (cp_u (cu_c (snd w1))) (cp_u (cu_c (snd w2))) nu r1 r2 = Some (u, v, nudt) /\
    with_u w1 u w1' /\ with_u w2 v w2'.

(** The strength of the collisions in a cell with [k] particles: more than [nudt0 * k] if one is left
    over. *)
Definition strength (nudt0 : R) (k : Z) : R := (nudt0 * IZR k * IZR k / IZR (2 * (k / 2)))%R.

(** The particles [L] have become [L'] by the collisions of the pairs [prs] (of places in the list):
    no particle is in two pairs; those of a pair are in the same cell of the same patch and have
    collided; those in no pair are as they were; and of each cell at most one is in no pair. *)
Record paired (nudt0 : R) (L L' : list (Z * cuprt)) (prs : list (Z * Z)) : Prop := {
  pd_once : NoDup (flat_map (fun ab => [fst ab; snd ab]) prs);
  pd_pair : forall a b, In (a, b) prs -> exists p q w1 w2 w1' w2',
    aget L a = Some w1 /\ aget L b = Some w2 /\ in_cellb p q w1 = true /\ in_cellb p q w2 = true /\
    aget L' a = Some w1' /\ aget L' b = Some w2' /\
    have_collided (strength nudt0 (count_in L p q)) w1 w2 w1' w2';
  pd_rest : forall n, ~ In n (flat_map (fun ab => [fst ab; snd ab]) prs) -> aget L' n = aget L n;
  pd_all : forall p q a b w1 w2, aget L a = Some w1 -> aget L b = Some w2 ->
    in_cellb p q w1 = true -> in_cellb p q w2 = true ->
    ~ In a (flat_map (fun ab => [fst ab; snd ab]) prs) -> ~ In b (flat_map (fun ab => [fst ab; snd ab]) prs) -> a = b
}.

(** The pairs in a cell. *)
Definition pairs_in (L : list (Z * cuprt)) (prs : list (Z * Z)) (p : Z) (q : V3 Z) : list (Z * Z) :=
  filter (fun ab => match aget L (fst ab) with Some w => in_cellb p q w | None => false end) prs.
