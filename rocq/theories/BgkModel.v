(** The case src/psc_bgk.cxx and its parameters, src/psc_bgk_util/bgk_params.hxx: the radius of the spike, the size of the box, the number of patches,
    the distribution function of the azimuthal velocity, the momenta made from drawn velocities.  Arithmetic is exact; the error function std::erf
    is a parameter. *)
From Coq Require Import Reals Ascii String.
From Verif Require Import Base InputModel TableModel.
Local Open Scope R_scope.

(** std::cbrt, as called in bgk_params.hxx:35 *)
Definition cbrt (x : R) : R :=
  if Rlt_dec 0 x then Rpower x (/ 3) else if Rlt_dec x 0 then - Rpower (- x) (/ 3) else 0.

(** getSpikeSize, bgk_params.hxx:22-37; [None]: division by zero or the root of a negative number, that is, infinity or NaN *)
Definition getSpikeSize (B k beta : R) : option R :=
  let max_v := 45 / 10 in
  let a := 4 * k * B in
  let b := - 8 * max_v * k in
  let d := - max_v in
  if Req_EM_T a 0 then None else
  let p := - b / (3 * a) in
  let t := - d / (2 * a) in
  let q := p * p * p + t in
  if Rlt_dec (t * (2 * q - t)) 0 then None else
  let s := sqrt (t * (2 * q - t)) in
  Some ((cbrt (q + s) + cbrt (q - s) + p) * beta).

(** getCalculatedBoxSize, bgk_params.hxx:54-60, of the two sizes *)
Definition getCalculatedBoxSize (spike_size hole_size : R) : R := 2 * Rmax spike_size hole_size.

(** box_size of loadParams, bgk_params.hxx:113-114, 166-167 (168-169 for the third dimension): as given, unless it is not positive (its default is -1) *)
Definition box_size (given rel calculated : R) : R := if Rle_dec given 0 then rel * calculated else given.

(** n_patches of loadParams, bgk_params.hxx:122-124; int / int truncates; [None]: division by zero *)
Definition n_patches (n_grid given n_cells_per_patch : Z) : option Z :=
  if (given <=? 0)%Z then if (n_cells_per_patch =? 0)%Z then None else Some (Z.quot n_grid n_cells_per_patch) else Some given.
(** n_patches_3 of loadParams, bgk_params.hxx:158-164 *)
Definition n_patches_3 (n_grid_3 given n_cells_per_patch : Z) : option Z :=
  if (n_grid_3 <? n_cells_per_patch)%Z then Some 1%Z else n_patches n_grid_3 given n_cells_per_patch.

(** one dimension of the constructor of Domain, src/include/grid/domain.hxx:27-44: the cells of a patch; [None]: LOG_ERROR aborts, or % by zero *)
Definition domain_ldims (gdims np : Z) : option Z :=
  if (gdims <=? 0)%Z then None else if (np =? 0)%Z then None else if (Z.rem gdims np =? 0)%Z then Some (Z.quot gdims np) else None.

(** the parameters that are used here: PscBgkParams, bgk_params.hxx:65-110 *)
Record params := Params { g_k : R; g_h0 : R; g_beta : R; g_Hx : R; g_m_e : R; g_v_e_coef : R; g_reverse_v : bool; g_reverse_v_half : bool; g_box_size : R }.

(** getCoord, psc_bgk.cxx:166-173 *)
Definition getCoord (g : params) (crd : R) : R :=
  if Rlt_dec crd (- g_box_size g / 2) then crd + g_box_size g
  else if Rlt_dec (g_box_size g / 2) crd then crd - g_box_size g else crd.

(** psc_bgk.cxx:196-198 (what get_interpolated adds to the header if there is no column rho is left out) *)
Definition A_phi (g : params) (t : table) (rho : R) : outcome R :=
  if has_column t (lit "A_phi"%string) then bind (get_interpolated (fun x => x) t (lit "A_phi"%string) (lit "rho"%string) rho) (fun r => Done (fst r))
  else Done (5 / 10 * g_Hx g * rho).

(** gamma of v_phi_cdf, psc_bgk.cxx:205 *)
Definition gamma (k rho : R) : R := 1 + 8 * k * (rho * rho).
(** alpha, psc_bgk.cxx:206-207 *)
Definition alpha (k h0 A rho : R) : R := 1 - h0 / sqrt (gamma k rho) * exp (- 4 * k * ((A * rho) * (A * rho)) / gamma k rho).
(** mean1, psc_bgk.cxx:212 *)
Definition mean1 (k A rho : R) : R := 8 * k * A * (rho * rho) / gamma k rho.

(** v_phi_cdf, psc_bgk.cxx:194-219 *)
Definition v_phi_cdf (erf : R -> R) (g : params) (t : table) (v_phi rho : R) : outcome R :=
  bind (A_phi g t rho) (fun A =>
  let v_phi := v_phi / g_beta g in
  let rho := rho / g_beta g in
  let A := A / g_beta g in
  let alpha := alpha (g_k g) (g_h0 g) A rho in
  let mean0 := 0 in
  let stdev0 := 1 in
  let mean1 := mean1 (g_k g) A rho in
  let stdev1 := 1 / sqrt (gamma (g_k g) rho) in
  let m0 := (1 + erf ((v_phi - mean0) / (stdev0 * sqrt 2))) / 2 in
  let m1 := (1 + erf ((v_phi - mean1) / (stdev1 * sqrt 2))) / 2 in
  Done (m0 / alpha + m1 * (1 - 1 / alpha))).

(** the call of pdist, psc_bgk.cxx:232-245, for drawn velocities (300-303 are the same lines for pdist_case4) *)
Definition pdist_p (g : params) (y z rho v_phi v_rho v_x : R) : R * R * R :=
  let coef := g_v_e_coef g * (if g_reverse_v g then -1 else 1) * (if g_reverse_v_half g then if Rlt_dec y 0 then -1 else 1 else 1) in
  (coef * g_m_e g * v_x,
   coef * g_m_e g * (v_phi * - z + v_rho * y) / rho,
   coef * g_m_e g * (v_phi * y + v_rho * z) / rho).
