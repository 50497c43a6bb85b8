(** Proofs about sampling from a tabulated distribution. *)
From Coq Require Import Reals Lra R_Ifp.
From Verif Require Import Base Arr RngModel RngSpec.
Local Open Scope R_scope.

Lemma ltb_spec' a b : (ltb a b = true /\ a < b) \/ (ltb a b = false /\ b <= a).
Proof. unfold ltb. destruct (Rlt_dec a b); [left|right]; split; try reflexivity; lra. Qed.

Lemma down_ok c u : nondecreasing c -> aget c 0 = Some 0 -> 0 < u ->
  forall fuel g, (0 <= g < alen c)%Z -> (g <= Z.of_nat fuel)%Z ->
  exists g' a, walk c (fun v => ltb u v) (-1) fuel g = Some g' /\ (0 <= g' <= g)%Z /\ aget c g' = Some a /\ a <= u.
Proof.
  intros Hc H0 Hu. induction fuel as [|fuel IH]; intros g Hg Hf.
  - assert (g = 0%Z) as -> by lia. cbn [walk]. rewrite H0. destruct (ltb_spec' u 0) as [[E L]|[E L]]; [lra|]. rewrite E.
    exists 0%Z, 0. repeat split; try lia; try assumption; lra.
  - cbn [walk]. destruct (aget_some c g Hg) as [a Ha]. rewrite Ha. destruct (ltb_spec' u a) as [[E L]|[E L]]; rewrite E.
    + assert (g <> 0%Z) by (intros ->; rewrite H0 in Ha; injection Ha as <-; lra).
      destruct (IH (g + -1)%Z ltac:(lia) ltac:(lia)) as [g' [b [Eg [Bg [Hb Lb]]]]].
      exists g', b. repeat split; try assumption; lia.
    + exists g, a. repeat split; try assumption; lia.
Qed.

Lemma up_ok c u : nondecreasing c -> aget c (alen c - 1) = Some 1 -> u < 1 ->
  forall fuel g a, (0 <= g < alen c)%Z -> (alen c - 1 - g <= Z.of_nat fuel)%Z -> aget c g = Some a ->
  exists g' b, walk c (fun v => ltb v u) 1 fuel g = Some g' /\ (g <= g' < alen c)%Z /\ aget c g' = Some b /\ u <= b /\
    (g' = g \/ exists d, aget c (g' - 1) = Some d /\ d < u).
Proof.
  intros Hc H1 Hu. induction fuel as [|fuel IH]; intros g a Hg Hf Ha.
  - assert (g = alen c - 1)%Z as -> by lia. rewrite H1 in Ha. injection Ha as <-. cbn [walk]. rewrite H1.
    destruct (ltb_spec' 1 u) as [[E L]|[E L]]; [lra|]. rewrite E. exists (alen c - 1)%Z, 1.
    repeat split; try lia; try assumption; try lra; try (left; reflexivity).
  - cbn [walk]. rewrite Ha. destruct (ltb_spec' a u) as [[E L]|[E L]]; rewrite E.
    + assert (g <> alen c - 1)%Z by (intros ->; rewrite H1 in Ha; injection Ha as <-; lra).
      destruct (aget_some c (g + 1) ltac:(lia)) as [a' Ha'].
      destruct (IH (g + 1)%Z a' ltac:(lia) ltac:(lia) Ha') as [g' [b [Eg [Bg [Hb [Lb C]]]]]].
      exists g', b. repeat split; try assumption; try lia. right. destruct C as [->|C]; [|exact C].
      exists a. replace (g + 1 - 1)%Z with g by lia. split; assumption.
    + exists g, a. repeat split; try assumption; try lia; try (left; reflexivity).
Qed.

Lemma guess_range n u : (0 < n)%Z -> 0 <= u < 1 -> (0 <= Int_part (IZR n * u) < n)%Z.
Proof.
  intros Hn Hu. destruct (base_Int_part (IZR n * u)) as [B1 B2]. assert (0 < IZR n) by (apply IZR_lt; lia).
  assert (0 <= IZR n * u) by nra. assert (IZR n * u < IZR n) by nra. split.
  - assert (-1 < IZR (Int_part (IZR n * u))) as L by lra. apply lt_IZR in L. lia.
  - apply lt_IZR. lra.
Qed.

Lemma locate_ok x c xmin xmax u : is_table x c xmin xmax -> 0 < u < 1 ->
  exists g c0 c1, locate c u = Some (g + 1)%Z /\ (0 <= g)%Z /\ (g + 1 < alen c)%Z /\
    aget c g = Some c0 /\ aget c (g + 1) = Some c1 /\ c0 <= u <= c1.
Proof.
  intros (HL & Hx & Hc & X0 & X1 & C0 & C1) Hu.
  pose proof (aget_bounds _ _ _ C0) as Hn.
  pose proof (guess_range (alen c) u ltac:(lia) ltac:(lra)) as Hg.
  destruct (down_ok c u Hc C0 ltac:(lra) (length c) _ Hg ltac:(unfold alen in *; lia)) as [g [a [Eg [Bg [Ha La]]]]].
  destruct (up_ok c u Hc C1 ltac:(lra) (length c) g a ltac:(lia) ltac:(unfold alen in *; lia) Ha) as [g' [b [Eg' [Bg' [Hb [Lb C]]]]]].
  unfold locate. rewrite Eg, Eg'.
  assert (g' <> 0%Z) as N by (intros ->; rewrite C0 in Hb; injection Hb as <-; lra).
  destruct (aget_some c (g' - 1) ltac:(lia)) as [d Hd].
  assert (d <= u).
  { destruct C as [->|[d' [Hd' Ld]]].
    - pose proof (Hc (g - 1)%Z g d a ltac:(lia) Hd Ha). lra.
    - rewrite Hd in Hd'. injection Hd' as ->. lra. }
  exists (g' - 1)%Z, d, b. replace (g' - 1 + 1)%Z with g' by lia.
  repeat split; try assumption; lia.
Qed.

Lemma get_ok x c xmin xmax u : is_table x c xmin xmax -> 0 < u < 1 ->
  exists v g x0 x1 c0 c1, get x c u = Some v /\
    aget x g = Some x0 /\ aget x (g + 1) = Some x1 /\ aget c g = Some c0 /\ aget c (g + 1) = Some c1 /\
    x0 <= v <= x1 /\ c0 <= u <= c1 /\ (v - x0) * (c1 - c0) = (u - c0) * (x1 - x0).
Proof.
  intros HT Hu. destruct (locate_ok x c xmin xmax u HT Hu) as [g [c0 [c1 [E [G0 [G1 [H0 [H1 B]]]]]]]].
  destruct HT as (HL & Hx & Hc & X0 & X1 & C0 & C1).
  destruct (aget_some x g ltac:(lia)) as [x0 Hx0]. destruct (aget_some x (g + 1) ltac:(lia)) as [x1 Hx1].
  pose proof (Hx g (g + 1)%Z x0 x1 ltac:(lia) Hx0 Hx1) as Lx.
  unfold get. rewrite E. replace (g + 1 - 1)%Z with g by lia. rewrite H0, H1, Hx0, Hx1. unfold eqb.
  destruct (Req_EM_T (c1 - c0) 0) as [D|D].
  - exists x1, g, x0, x1, c0, c1. repeat split; try assumption; try lra. replace u with c0 by lra. rewrite D. ring.
  - set (v := (c1 - u) / (c1 - c0) * x0 + (u - c0) / (c1 - c0) * x1).
    assert (v - x0 = (u - c0) / (c1 - c0) * (x1 - x0)) as V0 by (unfold v; field; exact D).
    assert (x1 - v = (c1 - u) / (c1 - c0) * (x1 - x0)) as V1 by (unfold v; field; exact D).
    assert (0 < / (c1 - c0)) by (apply Rinv_0_lt_compat; lra).
    assert (0 <= (u - c0) / (c1 - c0)) by (unfold Rdiv; apply Rmult_le_pos; lra).
    assert (0 <= (c1 - u) / (c1 - c0)) by (unfold Rdiv; apply Rmult_le_pos; lra).
    exists v, g, x0, x1, c0, c1. repeat split; try assumption; try lra.
    + assert (0 <= v - x0) by (rewrite V0; apply Rmult_le_pos; lra). lra.
    + assert (0 <= x1 - v) by (rewrite V1; apply Rmult_le_pos; lra). lra.
    + rewrite V0. field. exact D.
Qed.

Lemma get_full x c xmin xmax : is_table x c xmin xmax ->
  (forall u, 0 < u < 1 -> exists v, get x c u = Some v /\ xmin <= v <= xmax /\ on_line x c v u) /\
  (forall u u' v v', 0 < u -> u <= u' -> u' < 1 -> get x c u = Some v -> get x c u' = Some v' -> v <= v').
Proof.
  intros HT. pose proof HT as (HL & Hx & Hc & X0 & X1 & C0 & C1). split.
  - intros u Hu. destruct (get_ok x c xmin xmax u HT Hu) as (v & g & x0 & x1 & c0 & c1 & E & G0 & G1 & G2 & G3 & B & B' & L).
    exists v. split; [exact E|]. split; [|exists g, x0, x1, c0, c1; tauto].
    pose proof (aget_bounds _ _ _ G0). pose proof (aget_bounds _ _ _ G1).
    pose proof (Hx 0%Z g _ _ ltac:(lia) X0 G0). pose proof (Hx (g + 1)%Z (alen x - 1)%Z _ _ ltac:(lia) G1 X1). lra.
  - intros u u' v v' Hu Hl Hu' E E'.
    destruct (Req_EM_T u u') as [<-|N]; [rewrite E in E'; injection E' as ->; lra|].
    destruct (get_ok x c xmin xmax u HT ltac:(lra)) as (w & g & x0 & x1 & c0 & c1 & Ew & G0 & G1 & G2 & G3 & B & B' & L).
    rewrite E in Ew. injection Ew as <-.
    destruct (get_ok x c xmin xmax u' HT ltac:(lra)) as (w' & h & y0 & y1 & d0 & d1 & Ew' & K0 & K1 & K2 & K3 & D & D' & L').
    rewrite E' in Ew'. injection Ew' as <-.
    destruct (Z_lt_le_dec g h) as [GH|GH].
    + pose proof (Hx (g + 1)%Z h _ _ ltac:(lia) G1 K0). lra.
    + destruct (Z_lt_le_dec h g) as [GH'|GH'].
      * pose proof (Hc (h + 1)%Z g _ _ ltac:(lia) K3 G2). lra.
      * assert (h = g) as -> by lia. rewrite G0 in K0. rewrite G1 in K1. rewrite G2 in K2. rewrite G3 in K3.
        injection K0 as <-. injection K1 as <-. injection K2 as <-. injection K3 as <-.
        apply Rnot_lt_le. intros Lt. nra.
Qed.

Lemma zero_unguarded x c xmin xmax : is_table x c xmin xmax -> get x c 0 = None /\ locate c 0 = Some 0%Z.
Proof.
  intros (HL & Hx & Hc & X0 & X1 & C0 & C1).
  assert (locate c 0 = Some 0%Z) as E.
  { unfold locate. pose proof (guess_range 1 0 ltac:(lia) ltac:(lra)) as G. rewrite Rmult_0_r in *.
    replace (Int_part 0) with 0%Z by lia.
    destruct c as [|a c]; [discriminate|]. cbn [length walk]. rewrite C0.
    destruct (ltb_spec' 0 0) as [[E L]|[E L]]; [lra|]. rewrite E. cbn [walk]. rewrite C0, E. reflexivity. }
  split; [|exact E]. unfold get. rewrite E, C0. change (0 - 1)%Z with (-1)%Z. rewrite aget_none by lia. reflexivity.
Qed.

(** ** The table *)

Lemma aget_tab (a b : R) f n i : (2 <= n)%Z ->
  aget (a :: map f (zrange 1 (n - 1)) ++ [b]) i =
  if (i =? 0)%Z then Some a else if (i =? n - 1)%Z then Some b else if (0 <? i)%Z && (i <? n)%Z then Some (f i) else None.
Proof.
  intros Hn. rewrite aget_cons. destruct (Z.eqb_spec i 0) as [->|N]; [reflexivity|].
  rewrite aget_app, alen_map, alen_zrange by lia. rewrite aget_map, aget_zrange.
  destruct (Z.ltb_spec (i - 1) (n - 1 - 1)); destruct (Z.eqb_spec i (n - 1)); try lia.
  - destruct (Z.leb_spec 0 (i - 1)), (Z.ltb_spec (i - 1) (n - 1 - 1)), (Z.ltb_spec 0 i), (Z.ltb_spec i n);
      try lia; cbn [andb option_map]; try reflexivity. do 2 f_equal. lia.
  - rewrite aget_cons. destruct (Z.eqb_spec (i - 1 - (n - 1 - 1)) 0); [reflexivity|lia].
  - destruct (Z.ltb_spec 0 i), (Z.ltb_spec i n); try lia; cbn [andb]; apply aget_none; unfold alen; cbn [length]; lia.
Qed.

Lemma alen_tab (a b : R) f n : (2 <= n)%Z -> alen (a :: map f (zrange 1 (n - 1)) ++ [b]) = n.
Proof. intros Hn. rewrite alen_cons, alen_app, alen_map, alen_zrange by lia. unfold alen. cbn [length]. lia. Qed.

Lemma nondecreasing_tab a b f n : (2 <= n)%Z -> a <= b ->
  (forall i j, (0 < i <= j)%Z -> (j < n - 1)%Z -> a <= f i /\ f i <= f j /\ f j <= b) ->
  nondecreasing (a :: map f (zrange 1 (n - 1)) ++ [b]).
Proof.
  intros Hn Hab Hf i j v w Hij. rewrite !aget_tab by lia.
  destruct (Z.eqb_spec i 0) as [Ei|Ei], (Z.eqb_spec j 0) as [Ej|Ej], (Z.eqb_spec i (n - 1)) as [Ni|Ni], (Z.eqb_spec j (n - 1)) as [Nj|Nj];
    try lia; destruct (Z.ltb_spec 0 i), (Z.ltb_spec i n), (Z.ltb_spec 0 j), (Z.ltb_spec j n); try lia; cbn [andb]; intros E1 E2;
    try discriminate; injection E1 as <-; injection E2 as <-; try lra.
  - apply (Hf j j); lia.
  - apply (Hf i i); lia.
  - apply (Hf i j); lia.
Qed.

Lemma tabulate_ok F xmin xmax n : is_cdf F -> xmin <= xmax -> (2 <= n)%Z ->
  is_table (fst (tabulate F xmin xmax n)) (snd (tabulate F xmin xmax n)) xmin xmax.
Proof.
  intros [FB FM] Hx Hn. unfold tabulate. cbn [fst snd]. set (dx := (xmax - xmin) / IZR (n - 1)).
  assert (0 < IZR (n - 1)) as P by (apply IZR_lt; lia).
  assert (0 <= dx) as D by (unfold dx, Rdiv; apply Rmult_le_pos; [lra|apply Rlt_le, Rinv_0_lt_compat, P]).
  assert (IZR (n - 1) * dx = xmax - xmin) as T by (unfold dx; field; lra).
  assert (forall i j, (i <= j)%Z -> xmin + IZR i * dx <= xmin + IZR j * dx) as M.
  { intros i j H. apply IZR_le in H. nra. }
  unfold is_table. rewrite !alen_tab by lia. repeat split.
  - apply nondecreasing_tab; [lia|lra|]. intros i j H1 H2.
    pose proof (M i j ltac:(lia)). pose proof (M 0%Z i ltac:(lia)). pose proof (M j (n - 1)%Z ltac:(lia)).
    rewrite T in *. lra.
  - apply nondecreasing_tab; [lia|lra|]. intros i j H1 H2. pose proof (FB (xmin + IZR i * dx)). pose proof (FB (xmin + IZR j * dx)).
    pose proof (FM _ _ (M i j ltac:(lia))). lra.
  - rewrite aget_tab by lia. destruct (Z.eqb_spec (n - 1) 0), (Z.eqb_spec (n - 1) (n - 1)); try lia. reflexivity.
  - rewrite aget_tab by lia. destruct (Z.eqb_spec (n - 1) 0), (Z.eqb_spec (n - 1) (n - 1)); try lia. reflexivity.
Qed.

(** ** The support *)

Lemma search_up more max sf x : 0 < sf -> x <= search more 1 max sf x.
Proof.
  revert sf x. induction max as [|n IH]; intros sf x H; cbn [search]; [lra|]. destruct (more x); [|lra].
  pose proof (IH (sf * (3 / 2)) (x + 1 * (sf * (3 / 2))) ltac:(lra)). lra.
Qed.
Lemma search_down more max sf x : 0 < sf -> search more (-1) max sf x <= x.
Proof.
  revert sf x. induction max as [|n IH]; intros sf x H; cbn [search]; [lra|]. destruct (more x); [|lra].
  pose proof (IH (sf * (3 / 2)) (x + -1 * (sf * (3 / 2))) ltac:(lra)). lra.
Qed.
Lemma search_stop more dir max sf x : more x = false -> search more dir max sf x = x.
Proof. intros H. destruct max; cbn [search]; [reflexivity|]. rewrite H. reflexivity. Qed.

Definition sound (b : bounds) : Prop := xmin_lb b <= xmin_ub b /\ xmax_lb b <= xmax_ub b.

Lemma bisect_inv F tol d w : forall n k b z, sound b -> xmin_ub b <= z -> z <= xmax_lb b ->
  sound (bisect F tol d w n k b) /\ xmin_ub (bisect F tol d w n k b) <= z /\ z <= xmax_lb (bisect F tol d w n k b).
Proof.
  induction n as [|n IH]; intros k b z [S1 S2] H1 H2; cbn [bisect]; [repeat split; assumption|].
  destruct (precise k d w); [|repeat split; assumption].
  assert (xmin_lb b <= mid_min b <= xmin_ub b) by (unfold mid_min; lra).
  assert (xmax_lb b <= mid_max b <= xmax_ub b) by (unfold mid_max; lra).
  destruct (ltb (F (mid_min b)) tol), (ltb (1 - tol) (F (mid_max b)));
    apply IH; unfold sound; cbn [xmin_lb xmin_ub xmax_lb xmax_ub]; lra.
Qed.

Lemma support_ok F tol max : tol <= F 0 <= 1 - tol ->
  fst (findPdfSupport F tol max) <= 0 <= snd (findPdfSupport F tol max).
Proof.
  intros H. unfold findPdfSupport.
  rewrite (search_stop (fun x => ltb (F x) tol)) by (destruct (ltb_spec' (F 0) tol) as [[E L]|[E L]]; [lra|exact E]).
  rewrite (search_stop (fun x => ltb (1 - tol) (F x))) by (destruct (ltb_spec' (1 - tol) (F 0)) as [[E L]|[E L]]; [lra|exact E]).
  set (lb := search _ (-1) max 1 0). set (ub := search _ 1 max 1 0). cbv zeta.
  assert (lb <= 0) by (apply search_down; lra). assert (0 <= ub) by (apply search_up; lra).
  set (b' := bisect _ _ _ _ _ _ _).
  destruct (bisect_inv F tol (mid_max (Bounds lb 0 0 ub) - mid_min (Bounds lb 0 0 ub)) (Rmax (ub - 0) (0 - lb)) max 0 (Bounds lb 0 0 ub) 0) as [[B1 B2] [B3 B4]];
    [split; cbn; lra|cbn; lra|cbn; lra|]. fold b' in B1, B2, B3, B4. unfold mid_min, mid_max. cbn [fst snd]. lra.
Qed.

(** the uniform distribution on [7/2, 37/10] *)
Definition cdf_far (x : R) : R := Rmax 0 (Rmin 1 (5 * (x - 7 / 2))).

Lemma cdf_far_ok : is_cdf cdf_far.
Proof.
  unfold cdf_far. split.
  - intros x. unfold Rmax, Rmin. repeat destruct (Rle_dec _ _); lra.
  - intros x y H. unfold Rmax, Rmin. repeat destruct (Rle_dec _ _); lra.
Qed.

Lemma cdf_far_0 x : x <= 7 / 2 -> cdf_far x = 0.
Proof. intros H. unfold cdf_far, Rmax, Rmin. repeat destruct (Rle_dec _ _); lra. Qed.
Lemma cdf_far_1 x : 37 / 10 <= x -> cdf_far x = 1.
Proof. intros H. unfold cdf_far, Rmax, Rmin. repeat destruct (Rle_dec _ _); lra. Qed.

Lemma ltb_true a b : a < b -> ltb a b = true.
Proof. intros. destruct (ltb_spec' a b) as [[E L]|[E L]]; [exact E|lra]. Qed.
Lemma ltb_false a b : b <= a -> ltb a b = false.
Proof. intros. destruct (ltb_spec' a b) as [[E L]|[E L]]; [lra|exact E]. Qed.

Lemma support_far : findPdfSupport cdf_far (1 / 10000) 50 = (3, 15 / 8).
Proof.
  unfold findPdfSupport.
  assert (search (fun x => ltb (cdf_far x) (1 / 10000)) 1 50 1 0 = 15 / 4) as ->.
  { cbn [search]. rewrite (cdf_far_0 0), ltb_true by lra.
    rewrite (cdf_far_0 (0 + 1 * (1 * (3 / 2)))), ltb_true by lra.
    rewrite (cdf_far_1 (0 + 1 * (1 * (3 / 2)) + 1 * (1 * (3 / 2) * (3 / 2)))), ltb_false by lra. lra. }
  rewrite (search_stop (fun x => ltb (1 - 1 / 10000) (cdf_far x))) by (rewrite cdf_far_0, ltb_false by lra; reflexivity).
  assert (search (fun x => ltb (1 / 10000) (cdf_far x)) (-1) 50 1 (15 / 4) = 9 / 4) as ->.
  { cbn [search]. rewrite (cdf_far_1 (15 / 4)), ltb_true by lra.
    rewrite (cdf_far_0 (15 / 4 + -1 * (1 * (3 / 2)))), ltb_false by lra. lra. }
  assert (search (fun x => ltb (cdf_far x) (1 - 1 / 10000)) 1 50 1 0 = 15 / 4) as ->.
  { cbn [search]. rewrite (cdf_far_0 0), ltb_true by lra.
    rewrite (cdf_far_0 (0 + 1 * (1 * (3 / 2)))), ltb_true by lra.
    rewrite (cdf_far_1 (0 + 1 * (1 * (3 / 2)) + 1 * (1 * (3 / 2) * (3 / 2)))), ltb_false by lra. lra. }
  cbv zeta. replace (Rmax (15 / 4 - 0) (15 / 4 - 9 / 4)) with (15 / 4) by (rewrite Rmax_left; lra).
  assert (precise 0 (mid_max (Bounds (9 / 4) (15 / 4) 0 (15 / 4)) - mid_min (Bounds (9 / 4) (15 / 4) 0 (15 / 4))) (15 / 4) = false) as P.
  { unfold precise, mid_max, mid_min, eqb. cbn [xmin_lb xmin_ub xmax_lb xmax_ub]. destruct (Req_EM_T _ _); [reflexivity|].
    rewrite ltb_true by lra. reflexivity. }
  cbn [bisect]. rewrite P. unfold mid_min, mid_max. cbn [xmin_lb xmin_ub xmax_lb xmax_ub]. f_equal; lra.
Qed.

Lemma far_table_x i v : aget (fst (tabulate cdf_far 3 (15 / 8) 100)) i = Some v -> 15 / 8 <= v <= 3.
Proof.
  unfold tabulate. cbn [fst]. rewrite aget_tab by lia. change (100 - 1)%Z with 99%Z.
  destruct (Z.eqb_spec i 0), (Z.eqb_spec i 99); [intros E; injection E as <-; lra..|].
  destruct (Z.ltb_spec 0 i), (Z.ltb_spec i 100); cbn [andb]; intros E; try discriminate. injection E as <-.
  assert (0 <= IZR i <= 99) by (split; apply IZR_le; lia). lra.
Qed.

Lemma far_table_c : snd (tabulate cdf_far 3 (15 / 8) 100) = snd (tabulate (fun _ => 0) 0 0 100).
Proof.
  unfold tabulate. cbn [snd]. f_equal. f_equal. apply map_ext_in. intros i Hi. apply in_zrange in Hi.
  change (100 - 1)%Z with 99%Z in *. assert (0 <= IZR i <= 99) by (split; apply IZR_le; lia). apply cdf_far_0. lra.
Qed.

Lemma far_sample u : 0 < u < 1 ->
  exists v, get (fst (inverted_cdf cdf_far 100 (1 / 10000) 50)) (snd (inverted_cdf cdf_far 100 (1 / 10000) 50)) u = Some v /\
    15 / 8 <= v <= 3.
Proof.
  intros Hu. unfold inverted_cdf. rewrite support_far. cbv beta iota.
  assert (is_cdf (fun _ => 0)) as C0 by (split; intros; lra).
  pose proof (tabulate_ok (fun _ => 0) 0 0 100 C0 ltac:(lra) ltac:(lia)) as T. rewrite <- far_table_c in T.
  destruct (locate_ok _ _ 0 0 u T Hu) as [g [c0 [c1 [E [G0 [G1 [H0 [H1 B]]]]]]]].
  assert (alen (fst (tabulate cdf_far 3 (15 / 8) 100)) = 100%Z) as LX by (unfold tabulate; cbn [fst]; rewrite alen_tab; lia).
  assert (alen (snd (tabulate cdf_far 3 (15 / 8) 100)) = 100%Z) as LC by (unfold tabulate; cbn [snd]; rewrite alen_tab; lia).
  destruct (aget_some (fst (tabulate cdf_far 3 (15 / 8) 100)) g ltac:(lia)) as [x0 Hx0].
  destruct (aget_some (fst (tabulate cdf_far 3 (15 / 8) 100)) (g + 1) ltac:(lia)) as [x1 Hx1].
  pose proof (far_table_x _ _ Hx0). pose proof (far_table_x _ _ Hx1).
  unfold get. rewrite E. replace (g + 1 - 1)%Z with g by lia. rewrite H0, H1, Hx0, Hx1. unfold eqb.
  destruct (Req_EM_T (c1 - c0) 0) as [D|D]; [exists x1; split; [reflexivity|lra]|].
  eexists. split; [reflexivity|]. assert (0 < / (c1 - c0)) by (apply Rinv_0_lt_compat; lra).
  set (a := (c1 - u) / (c1 - c0)). set (b := (u - c0) / (c1 - c0)).
  assert (0 <= b) by (unfold b, Rdiv; apply Rmult_le_pos; lra).
  assert (0 <= a) by (unfold a, Rdiv; apply Rmult_le_pos; lra).
  assert (a + b = 1) by (unfold a, b; field; exact D). nra.
Qed.
