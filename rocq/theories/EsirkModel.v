(** Current deposition after Esirkepov: psc_push_particles/pushp_current_esirkepov.hxx.
    Positions are in units of the grid spacing.  Real numbers stand for the floating
    point numbers of the code. *)
From Coq Require Import Reals.
From Verif Require Import Base DepositModel CurrentModel.
Local Open Scope R_scope.

(** opt_order_1st and opt_order_2nd, pushp_current_esirkepov.hxx:17 and 32 *)
Inductive order := o1st | o2nd.

(** find_l_minmax, pushp_current_esirkepov.hxx:17-45 *)
Definition find_l_minmax (o : order) (k1 lg1 : Z) : Z * Z :=
  match o with
  | o1st => if (k1 =? lg1)%Z then (0, 1)%Z else if (k1 =? lg1 - 1)%Z then (-1, 1)%Z else (0, 2)%Z
  | o2nd => if (k1 =? lg1)%Z then (-1, 1)%Z else if (k1 =? lg1 - 1)%Z then (-2, 1)%Z else (-1, 2)%Z
  end.

(** N_RHO and S_OFF, pushp_current_esirkepov.hxx:57-58 and 84-85 *)
Definition n_rho (o : order) : Z := match o with o1st => 4 | o2nd => 5 end.
(** pushp_current_esirkepov.hxx:58 and 85 *)
Definition s_off (o : order) : Z := match o with o1st => 1 | o2nd => 2 end.

(** the array s_, by the index given to operator[], pushp_current_esirkepov.hxx:60-61 *)
Definition rho1d := Z -> R.

(** is s_[i + S_OFF] an element of the array?  pushp_current_esirkepov.hxx:60-61, 77 *)
Definition rho_in (o : order) (i : Z) : bool := ((0 <=? i + s_off o) && (i + s_off o <? n_rho o))%Z.

(** assignment to an element, None outside the array, pushp_current_esirkepov.hxx:61 *)
Definition rho_put (o : order) (s : rho1d) (i : Z) (v : R) : option rho1d :=
  if rho_in o i then Some (fun j => if (j =? i)%Z then v else s j) else None.

(** zero(), pushp_current_esirkepov.hxx:63-68 and 90-95 *)
Definition rho_zero : rho1d := fun _ => 0.

(** the integer part l of ip_coeff_1st / ip_coeff_2nd, interpolate.hxx:48-55 and 67-73 *)
Definition coeff_l (o : order) (u : R) : Z := match o with o1st => fint u | o2nd => nint u end.

(** set, pushp_current_esirkepov.hxx:70-74 and 97-107, for the coefficients set for u
    (interpolate.hxx:52-54 and 69) *)
Definition rho_set (o : order) (s : rho1d) (shift : Z) (u : R) : option rho1d :=
  match o with
  | o1st =>
      let h := u - IZR (fint u) in
      match rho_put o s shift (1 - h) with
      | Some s => rho_put o s (shift + 1) h
      | None => None
      end
  | o2nd =>
      let h := IZR (nint u) - u in
      match rho_put o s (shift - 1) (/ 2 * (3 / 2 - Rabs (h - 1)) * (3 / 2 - Rabs (h - 1))) with
      | Some s =>
          match rho_put o s shift (3 / 4 - Rabs h * Rabs h) with
          | Some s => rho_put o s (shift + 1) (/ 2 * (3 / 2 - Rabs (h + 1)) * (3 / 2 - Rabs (h + 1)))
          | None => None
          end
      | None => None
      end
  end.

(** CurrentDir, pushp_current_esirkepov.hxx:113-148 *)
Record cdir := { cd_s0 : rho1d; cd_s1 : rho1d; cd_lg : Z; cd_lmin : Z; cd_lmax : Z }.

(** the loop [s1[i] -= s0[i]] of prep, pushp_current_esirkepov.hxx:137-139 *)
Definition rho_sub (o : order) (s1 s0 : rho1d) : rho1d :=
  fun i => if ((- s_off o + 1 <=? i) && (i <=? 1))%Z then s1 i - s0 i else s1 i.

(** charge_before, charge_after and prep for one direction,
    pushp_current_esirkepov.hxx:120-142; um and up are the positions before and after.
    s0 starts as zero (line 144) and only ever has the elements set(0, .) sets changed. *)
Definition current_dir (o : order) (um up : R) : option cdir :=
  let lg := coeff_l o um in
  match rho_set o rho_zero 0 um with
  | Some s0 =>
      let k := coeff_l o up in
      match rho_set o rho_zero (k - lg) up with
      | Some s1 =>
          let '(lmin, lmax) := find_l_minmax o k lg in
          Some {| cd_s0 := s0; cd_s1 := rho_sub o s1 s0; cd_lg := lg; cd_lmin := lmin; cd_lmax := lmax |}
      | None => None
      end
  | None => None
  end.

(** fnqxs_ etc., pushp_current_esirkepov.hxx:182-184; the fnq of a direction, line 141 *)
Definition es_fnq (g : cgrid) (qni_wni : R) (e : dim3) : R := qni_wni * (get3 (cg_dx g) e * cg_fnqs g / cg_dt g).

(** fnqv of an invariant direction, pushp_current_esirkepov.hxx:163 *)
Definition es_fnqv (g : cgrid) (qni_wni : R) (v : V3 R) (e : dim3) : R := get3 v e * qni_wni * cg_fnqs g.

(** a loop that subtracts w(l) from an accumulator and stores it, e.g.
    pushp_current_esirkepov.hxx:451-459; [put] are the adds of one iteration *)
Fixpoint jloop (acc : R) (w : Z -> R) (put : Z -> R -> list entry) (ls : list Z) : list entry :=
  match ls with
  | [] => []
  | l :: ls => let acc := acc - w l in put l acc ++ jloop acc w put ls
  end.

(** lmin <= l <= lmax and lmin <= l < lmax, pushp_current_esirkepov.hxx:323 and 325 *)
Definition full (c : cdir) : list Z := zrange (cd_lmin c) (cd_lmax c + 1).
(** pushp_current_esirkepov.hxx:325 *)
Definition short (c : cdir) : list Z := zrange (cd_lmin c) (cd_lmax c).

(** s0 + .5 s1, pushp_current_esirkepov.hxx:257 *)
Definition avg1 (c : cdir) (l : Z) : R := cd_s0 c l + / 2 * cd_s1 c l.

(** the weight in two directions, pushp_current_esirkepov.hxx:299-300 *)
Definition avg2 (a b : cdir) (i j : Z) : R :=
  cd_s0 a i * cd_s0 b j + / 2 * cd_s1 a i * cd_s0 b j + / 2 * cd_s0 a i * cd_s1 b j + (1 / 3) * cd_s1 a i * cd_s1 b j.

(** dim_1, pushp_current_esirkepov.hxx:237-248 *)
Definition calc_1 (fx fy fz : R) : list entry := [add D0 0 0 0 fx; add D1 0 0 0 fy; add D2 0 0 0 fz].

(** dim_y, pushp_current_esirkepov.hxx:250-269 *)
Definition calc_y (y : cdir) (fx fy fz : R) : list entry :=
  jloop 0 (fun l2 => fy * cd_s1 y l2)
    (fun l2 jyh => [ add D0 0 (cd_lg y + l2) 0 (fx * avg1 y l2); add D1 0 (cd_lg y + l2) 0 jyh; add D2 0 (cd_lg y + l2) 0 (fz * avg1 y l2) ]) (full y).

(** dim_z, pushp_current_esirkepov.hxx:271-289 *)
Definition calc_z (z : cdir) (fx fy fz : R) : list entry :=
  jloop 0 (fun l3 => fz * cd_s1 z l3)
    (fun l3 jzh => [ add D0 0 0 (cd_lg z + l3) (fx * avg1 z l3); add D1 0 0 (cd_lg z + l3) (fy * avg1 z l3); add D2 0 0 (cd_lg z + l3) jzh ]) (full z).

(** dim_xy, pushp_current_esirkepov.hxx:291-316 *)
Definition calc_xy (x y : cdir) (fx fy fz : R) : list entry :=
  flat_map (fun l2 =>
    jloop 0 (fun l1 => fx * (cd_s1 x l1 * avg1 y l2))
      (fun l1 jxh => [ add D0 (cd_lg x + l1) (cd_lg y + l2) 0 jxh; add D2 (cd_lg x + l1) (cd_lg y + l2) 0 (fz * avg2 x y l1 l2) ]) (full x)) (full y) ++
  flat_map (fun l1 =>
    jloop 0 (fun l2 => fy * (cd_s1 y l2 * avg1 x l1)) (fun l2 jyh => [ add D1 (cd_lg x + l1) (cd_lg y + l2) 0 jyh ]) (full y)) (full x).

(** dim_xz, pushp_current_esirkepov.hxx:318-379 (1st and 2nd order alike) *)
Definition calc_xz (x z : cdir) (fx fy fz : R) : list entry :=
  flat_map (fun l3 =>
    jloop 0 (fun l1 => fx * (cd_s1 x l1 * avg1 z l3)) (fun l1 jxh => [ add D0 (cd_lg x + l1) 0 (cd_lg z + l3) jxh ]) (short x)) (full z) ++
  flat_map (fun l3 => flat_map (fun l1 => [ add D1 (cd_lg x + l1) 0 (cd_lg z + l3) (fy * avg2 x z l1 l3) ]) (full x)) (full z) ++
  flat_map (fun l1 =>
    jloop 0 (fun l3 => fz * (cd_s1 z l3 * avg1 x l1)) (fun l3 jzh => [ add D2 (cd_lg x + l1) 0 (cd_lg z + l3) jzh ]) (short z)) (full x).

(** dim_yz, 1st order, pushp_current_esirkepov.hxx:381-411 *)
Definition calc_yz_1st (y z : cdir) (fx fy fz : R) : list entry :=
  flat_map (fun l3 => flat_map (fun l2 => [ add D0 0 (cd_lg y + l2) (cd_lg z + l3) (fx * avg2 y z l2 l3) ]) (full y)) (full z) ++
  flat_map (fun l3 =>
    jloop 0 (fun l2 => fy * (cd_s1 y l2 * avg1 z l3)) (fun l2 jyh => [ add D1 0 (cd_lg y + l2) (cd_lg z + l3) jyh ]) (short y)) (full z) ++
  flat_map (fun l2 =>
    jloop 0 (fun l3 => fz * (cd_s1 z l3 * avg1 y l2)) (fun l3 jzh => [ add D2 0 (cd_lg y + l2) (cd_lg z + l3) jzh ]) (short z)) (full y).

(** dim_yz, 2nd order: the inner loop, with the accumulators jyh and jzh[.],
    pushp_current_esirkepov.hxx:427-440 *)
Fixpoint calc_yz_inner (y z : cdir) (fx fy fz : R) (l3 : Z) (jyh : R) (jzh : Z -> R) (l2s : list Z) : list entry * (Z -> R) :=
  match l2s with
  | [] => ([], jzh)
  | l2 :: l2s =>
      let jyh := jyh - fy * (cd_s1 y l2 * avg1 z l3) in
      let jz := jzh l2 - fz * (cd_s1 z l3 * avg1 y l2) in
      let jzh := fun l => if (l =? l2)%Z then jz else jzh l in
      let '(r, jzh) := calc_yz_inner y z fx fy fz l3 jyh jzh l2s in
      ([ add D0 0 (cd_lg y + l2) (cd_lg z + l3) (fx * avg2 y z l2 l3);
         add D1 0 (cd_lg y + l2) (cd_lg z + l3) jyh;
         add D2 0 (cd_lg y + l2) (cd_lg z + l3) jz ] ++ r, jzh)
  end.

(** the outer loop, pushp_current_esirkepov.hxx:425-441 *)
Fixpoint calc_yz_outer (y z : cdir) (fx fy fz : R) (jzh : Z -> R) (l3s : list Z) : list entry :=
  match l3s with
  | [] => []
  | l3 :: l3s => let '(r, jzh) := calc_yz_inner y z fx fy fz l3 0 jzh (full y) in r ++ calc_yz_outer y z fx fy fz jzh l3s
  end.

(** dim_yz, 2nd order, pushp_current_esirkepov.hxx:413-442; the elements of jzh that are
    used are set to zero first *)
Definition calc_yz_2nd (y z : cdir) (fx fy fz : R) : list entry := calc_yz_outer y z fx fy fz (fun _ => 0) (full z).

(** dim_xyz, pushp_current_esirkepov.hxx:444-492 *)
Definition calc_xyz (x y z : cdir) (fx fy fz : R) : list entry :=
  flat_map (fun l3 => flat_map (fun l2 =>
    jloop 0 (fun l1 => fx * (cd_s1 x l1 * avg2 y z l2 l3)) (fun l1 jxh => [ add D0 (cd_lg x + l1) (cd_lg y + l2) (cd_lg z + l3) jxh ]) (full x)) (full y)) (full z) ++
  flat_map (fun l3 => flat_map (fun l1 =>
    jloop 0 (fun l2 => fy * (cd_s1 y l2 * avg2 x z l1 l3)) (fun l2 jyh => [ add D1 (cd_lg x + l1) (cd_lg y + l2) (cd_lg z + l3) jyh ]) (full y)) (full x)) (full z) ++
  flat_map (fun l2 => flat_map (fun l1 =>
    jloop 0 (fun l3 => fz * (cd_s1 z l3 * avg2 x y l1 l2)) (fun l3 jzh => [ add D2 (cd_lg x + l1) (cd_lg y + l2) (cd_lg z + l3) jzh ]) (full z)) (full x)) (full y).

(** all of push_particles_esirkepov.hxx:92-112 that concerns the current: charge_before,
    charge_after, prep and calc (pushp_current_esirkepov.hxx:187-223); None if there is no
    such calc, or an array is indexed out of range *)
Definition calc_esirk (o : order) (d : dim_t) (g : cgrid) (qni_wni : R) (xm xp v : V3 R) : option (list entry) :=
  let dir := fun e => current_dir o (get3 xm e) (get3 xp e) in
  let f := es_fnq g qni_wni in
  let fv := es_fnqv g qni_wni v in
  match o, d with
  | o2nd, dim_1 => Some (calc_1 (fv D0) (fv D1) (fv D2))
  | o2nd, dim_y => match dir D1 with Some y => Some (calc_y y (fv D0) (f D1) (fv D2)) | None => None end
  | o2nd, dim_z => match dir D2 with Some z => Some (calc_z z (fv D0) (fv D1) (f D2)) | None => None end
  | o2nd, dim_xy => match dir D0, dir D1 with Some x, Some y => Some (calc_xy x y (f D0) (f D1) (fv D2)) | _, _ => None end
  | _, dim_xz => match dir D0, dir D2 with Some x, Some z => Some (calc_xz x z (f D0) (fv D1) (f D2)) | _, _ => None end
  | o1st, dim_yz => match dir D1, dir D2 with Some y, Some z => Some (calc_yz_1st y z (fv D0) (f D1) (f D2)) | _, _ => None end
  | o2nd, dim_yz => match dir D1, dir D2 with Some y, Some z => Some (calc_yz_2nd y z (fv D0) (f D1) (f D2)) | _, _ => None end
  | o2nd, dim_xyz => match dir D0, dir D1, dir D2 with Some x, Some y, Some z => Some (calc_xyz x y z (f D0) (f D1) (f D2)) | _, _, _ => None end
  | _, _ => None
  end.
