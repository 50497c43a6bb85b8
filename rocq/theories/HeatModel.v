(** Heating of particles: the spot (src/include/heating_spot_foil.hxx), the CPU code
    (src/libpsc/psc_heating/psc_heating_impl.hxx) and the GPU code
    (src/libpsc/cuda/cuda_heating.cxx).  Real arithmetic but for the conversion of random
    integers to float.  None: an assert fails, an array is accessed outside, or (for the
    loops that draw) what is drawn is used up. *)
From Coq Require Import Reals Permutation.
From Flocq Require Import Core.
From Verif Require Import Base Arr MomentModel CudaPrtModel CudaLaunchModel CudaMomModel.
Local Open Scope Z_scope.

(** ** The spot *)

(** HeatingSpotFoilParams and what HeatingSpotFoil adds (heating_spot_foil.hxx:7-17, 28-31, 87-88);
    [h_T] has the elements that are set, n_kinds of them; [h_yz] is the dimension (22, 26) *)
Record spot := Spot { h_zl : R; h_zh : R; h_xc : R; h_yc : R; h_rH : R; h_T : list R; h_Mi : R;
                      h_Lx : R; h_Ly : R; h_yz : bool }.

(** heating_spot_foil.hxx:6 *)
Definition heating_max_n_kinds : Z := 10.

(** heating_spot_foil.hxx:33-38; outside of what is set: None.  [pow(T, 1.5)] is written T sqrt(T) *)
Definition spot_fac (s : spot) (k : Z) : option R :=
  if alen (h_T s) <? heating_max_n_kinds
  then option_map (fun T => (8 * (T * sqrt T) / (sqrt (h_Mi s) * (h_zh s - h_zl s)))%R) (aget (h_T s) k)
  else None.

(** [sqr] of heating_spot_foil.hxx:65 *)
Definition sq (x : R) : R := (x * x)%R.

(** heating_spot_foil.hxx:59-74 *)
Definition shape_xyz (s : spot) (f : R) (crd : V3 R) : R :=
  let x := c0 crd in let y := c1 crd in
  let xc := h_xc s in let yc := h_yc s in let Lx := h_Lx s in let Ly := h_Ly s in let rH := h_rH s in
  (f * (exp (- (sq (x - xc) + sq (y - yc)) / sq rH) +
        exp (- (sq (x - xc) + sq (y - (yc + Ly))) / sq rH) +
        exp (- (sq (x - xc) + sq (y - (yc - Ly))) / sq rH) +
        exp (- (sq (x - (xc + Lx)) + sq (y - yc)) / sq rH) +
        exp (- (sq (x - (xc + Lx)) + sq (y - (yc + Ly))) / sq rH) +
        exp (- (sq (x - (xc + Lx)) + sq (y - (yc - Ly))) / sq rH) +
        exp (- (sq (x - (xc - Lx)) + sq (y - yc)) / sq rH) +
        exp (- (sq (x - (xc - Lx)) + sq (y - (yc + Ly))) / sq rH) +
        exp (- (sq (x - (xc - Lx)) + sq (y - (yc - Ly))) / sq rH)))%R.

(** heating_spot_foil.hxx:76-84 *)
Definition shape_yz (s : spot) (f : R) (crd : V3 R) : R :=
  let y := c1 crd in let yc := h_yc s in let Ly := h_Ly s in let rH := h_rH s in
  (f * (exp (- sq (y - yc) / sq rH) + exp (- sq (y - (yc + Ly)) / sq rH) + exp (- sq (y - (yc - Ly)) / sq rH)))%R.

(** heating_spot_foil.hxx:41-57 *)
Definition spot_H (s : spot) (crd : V3 R) (k : Z) : option R :=
  match spot_fac s k with
  | None => None
  | Some f =>
      Some (if Req_EM_T f 0 then 0%R
            else if Rle_dec (c2 crd) (h_zl s) then 0%R
            else if Rle_dec (h_zh s) (c2 crd) then 0%R
            else if Req_EM_T (h_rH s) 0 then f
            else if h_yz s then shape_yz s f crd else shape_xyz s f crd)
  end.

(** ** The CPU *)

(** rounding to float, as of a value of random() (psc_heating_impl.hxx:33) *)
Definition to_float (x : R) : R := round radix2 (FLT_exp (-149) 24) ZnearestE x.

(** psc_heating_impl.hxx:33: [random() / ((float)RAND_MAX + 1)]; RAND_MAX is 2^31 - 1 (glibc),
    which as a float is 2^31, as is that plus 1; the division is exact *)
Definition ran (n : Z) : R := (to_float (IZR n) / IZR (2 ^ 31))%R.

(** psc_heating_impl.hxx:39-40: the condition of the loop is false; [d] are the six values of random() *)
Definition ran_ok (d : Z -> Z) : bool :=
  forallb (fun k => if Rlt_dec (ran (d k)) 1 then true else false) (zrange 0 6).

(** psc_heating_impl.hxx:32-40: the loop; [rounds] are the values drawn *)
Fixpoint draw_loop (rounds : list (Z -> Z)) : option (Z -> Z) :=
  match rounds with
  | [] => None
  | d :: r => if ran_ok d then Some d else draw_loop r
  end.

(** psc_heating_impl.hxx:42-44 *)
Definition ran_normal (a b : R) : R := (sqrt (- 2 * ln (1 - a)) * cos (2 * PI * b))%R.

(** psc_heating_impl.hxx:29-53; also cuda_heating.cxx:49-53 for the normals [r] *)
Definition add_u (x : mprt) (Dp : R) (r : V3 R) : mprt :=
  MPrt (mp_x x) (gen3 (fun d => (get3 (mp_u x) d + Dp * get3 r d)%R)) (mp_kind x) (mp_qw x).

(** psc_heating_impl.hxx:29-53 *)
Definition kick_particle (hdt H : R) (rounds : list (Z -> Z)) (x : mprt) : option mprt :=
  option_map (fun d =>
    add_u x (sqrt (H * hdt)) (v3 (ran_normal (ran (d 0)) (ran (d 1))) (ran_normal (ran (d 2)) (ran (d 3)))
                                 (ran_normal (ran (d 4)) (ran (d 5))))) (draw_loop rounds).

(** psc_heating_impl.hxx:61-65, cuda_heating.cxx:89-93 *)
Definition heat_pos (x : mprt) (xb : V3 R) : V3 R := gen3 (fun d => (get3 (mp_x x) d + get3 xb d)%R).

(** psc_heating_impl.hxx:61-69, one particle *)
Definition heat_prt (s : spot) (hdt : R) (xb : V3 R) (rounds : list (Z -> Z)) (x : mprt) : option mprt :=
  match spot_H s (heat_pos x xb) (mp_kind x) with
  | None => None
  | Some H => if Rlt_dec 0 H then kick_particle hdt H rounds x else Some x
  end.

(** psc_heating_impl.hxx:55-72; [rnd p n] is drawn for particle [n] of patch [p].  Simplified: that
    random() goes on where it was left is not modelled. *)
Definition cpu_heating (s : spot) (hdt : R) (xbs : list (V3 R)) (rnd : Z -> Z -> list (Z -> Z)) (mprts : list (list mprt)) :
  option (list (list mprt)) :=
  all_some (map (fun p =>
    match aget xbs p, aget mprts p with
    | Some xb, Some b =>
        all_some (map (fun n => match aget b n with Some x => heat_prt s hdt xb (rnd p n) x | None => None end) (zrange 0 (alen b)))
    | _, _ => None
    end) (zrange 0 (alen mprts))).

(** psc_heating_impl.hxx:23, cuda_heating.cxx:232 *)
Definition heating_dt (interval : Z) (dt : R) : R := (IZR interval * dt)%R.

(** ** The GPU *)

(** the members of HeatingCuda and cuda_heating_foil that change (heating_cuda_impl.hxx:28,
    cuda_heating.cxx:166-170) *)
Record hstate := HState { hs_first : bool; hs_gen : Z; hs_xb : list (V3 R) }.

(** cuda_heating.cxx:111-117, 230-234 *)
Definition heat_init : hstate := HState true (-1) [].

(** THREADS_PER_BLOCK, cuda_heating.cxx:17 *)
Definition heat_tpb : Z := 128.

(** the grid of the launch, cuda_heating.cxx:140 with cuda_mparticles_indexer.h:309-317 and 351-358 *)
Definition heat_grid (g : geom) : Z := if g_yz g then simple2_yz_grid g else simple2_grid g.

(** the blocks of the launch, cuda_heating.cxx:65-74 *)
Definition heat_blocks (g : geom) : list blk := if g_yz g then simple2_yz_blocks g else simple2_blocks g.

(** cuda_heating.cxx:76-98 for slot [n] of a block: what is stored.  [r n] are the normals that are
    drawn for it (43-54); which generator they come from is not modelled. *)
Definition heat_slot (s : spot) (hdt : R) (xbs : list (V3 R)) (r : Z -> V3 R) (c : cm mprt) (b : blk) (n : Z) :
  option (list (Z * mprt)) :=
  match aget xbs (k_p b), aget (c_st c) n with
  | Some xb, Some x =>
      match spot_H s (heat_pos x xb) (mp_kind x) with
      | None => None
      | Some H => Some (if Rlt_dec 0 H then [(n, add_u x (sqrt (H * hdt)) (r n))] else [])
      end
  | _, _ => None
  end.

(** HeatingCuda::operator(), cuda_heating.cxx:248-257, and cuda_heating_foil::operator(), 131-163: what may
    come of the store, the state, and the number of generators.  [cnt] is
    psc_balance_generation_cnt, [rng] the size of the array of generators (rng_state.hxx:97, 116-130),
    which the threads access with ids up to the size of the grid times that of the blocks
    (68-71); [nk] kinds of the grid (the assert of cuda_mparticles.hxx:346); [r] what is drawn.  The
    stores in any order. *)
Definition heating_runs (g : geom) (nk : Z) (s : spot) (hdt : R) (xbs : list (V3 R)) (cnt rng : Z) (hs : hstate) (r : Z -> V3 R) (c : cm mprt)
  (o : option (cm mprt * hstate * Z)) : Prop :=
  let hs := if hs_gen hs <? cnt then HState true cnt (hs_xb hs) else hs in
  if c_n c =? 0 then o = Some (c, hs, rng)
  else
    let need := heat_grid g * heat_tpb in
    let '(hs, rng) := if hs_first hs then (HState false (hs_gen hs) xbs, Z.max rng need) else (hs, rng) in
    match reorder mp_zero c with
    | None => o = None
    | Some c1 =>
        if (4 <? nk) || (rng <? need) then o = None
        else
          match launch_slots (heat_blocks g) heat_tpb c1 (heat_slot s hdt (hs_xb hs) r c1) with
          | None => o = None
          | Some ws => exists ws', Permutation ws ws' /\
              o = option_map (fun st => (mkcm st (c_alt c1) (c_idx c1) (c_id c1) (c_off c1) (c_n c1) (c_re c1), hs, rng))
                             (run_writes ws' (c_st c1))
          end
    end.

(** what there is besides the particles: patches, positions of their corners, how often was
    rebalanced (psc_balance_impl.hxx:1016), the number of generators, the state of the heating *)
Record hworld := HWorld { w_g : geom; w_xb : list (V3 R); w_cnt : Z; w_rng : Z; w_hs : hstate }.

(** what may happen between steps: rebalancing, which increases the count when it changes the
    patches (psc_balance_impl.hxx:873-876, 1016); other users of the generators, which never shrink the array
    (rng_state.hxx:116-118); a call of the heating *)
Inductive hstep (nk : Z) (s : spot) (hdt : R) : hworld -> hworld -> Prop :=
| hs_balance g xb cnt rng hs g' xb' : hstep nk s hdt (HWorld g xb cnt rng hs) (HWorld g' xb' (cnt + 1) rng hs)
| hs_rng g xb cnt rng hs rng' : rng <= rng' -> hstep nk s hdt (HWorld g xb cnt rng hs) (HWorld g xb cnt rng' hs)
| hs_heat g xb cnt rng hs r c c' hs' rng' : heating_runs g nk s hdt xb cnt rng hs r c (Some (c', hs', rng')) ->
    hstep nk s hdt (HWorld g xb cnt rng hs) (HWorld g xb cnt rng' hs').

(** a run that begins with the construction of the heating (cuda_heating.cxx:230-234); the generators are
    set up before (cuda_base.cxx:114) *)
Inductive hreach (nk : Z) (s : spot) (hdt : R) : hworld -> Prop :=
| hr_start g xb cnt : 0 <= cnt -> hreach nk s hdt (HWorld g xb cnt 131072 heat_init)
| hr_step w w' : hreach nk s hdt w -> hstep nk s hdt w w' -> hreach nk s hdt w'.
