(** Moments of the particles, src/include/psc/moment.hxx, and the output items made of them,
    src/include/fields_item.hxx:22-33 and 92-134, for a periodic domain (maybe_add_ghosts_boundary,
    fields_item.hxx:38-69, does nothing then; it is the subject of C48).
    Real numbers stand for the floating point numbers of the code.  moment_T (moment.hxx:237-267) is not modelled: it
    does not compile when it is used, its lambda has no parameter deposit_one. *)
From Coq Require Import Reals String.
From Verif Require Import Base Arr DomainModel DdcPrtSpec GhostModel FieldModel DepositModel GaussModel.
Local Open Scope R_scope.

(** a kind of particles, include/grid.hxx:313-323 *)
Record kind := Kind { k_q : R; k_m : R; k_name : string }.
(** a particle, include/particle_simple.hxx:37-42; mp_qw is qni_wni *)
Record mprt := MPrt { mp_x : V3 R; mp_u : V3 R; mp_kind : Z; mp_qw : R }.

(** grid().kinds[kind()], include/const_accessor_simple.hxx:63-65; outside of the vector None *)
Definition kind_of (ks : list kind) (p : mprt) : option kind := aget ks (mp_kind p).

(** w(), include/const_accessor_simple.hxx:61: None is what is not a (finite) number, the quotient by zero *)
Definition prt_w (k : kind) (p : mprt) : option R := if Req_EM_T (k_q k) 0 then None else Some (mp_qw p / k_q k).

(** _particle_calc_vxi, moment.hxx:107-116 *)
Definition calc_vxi (u : V3 R) : V3 R :=
  let root := 1 / sqrt (1 + c0 u * c0 u + c1 u * c1 u + c2 u * c2 u) in
  v3 (c0 u * root) (c1 u * root) (c2 u * root).

(** the moments, moment.hxx:121-312 *)
Inductive moment := mom_n | mom_rho | mom_v | mom_p | mom_all.

(** addKindSuffix, fields_item.hxx:22-33 *)
Definition add_kind_suffix (names : list string) (ks : list kind) : list string :=
  flat_map (fun k => map (fun n => (n ++ "_" ++ k_name k)%string) names) ks.

(** comp_names, moment.hxx:130-133, 158-161, 185-188, 217-220 and 281-286 *)
Definition comp_names (t : moment) (ks : list kind) : list string :=
  match t with
  | mom_n => add_kind_suffix ["n"]%string ks
  | mom_rho => ["rho"]%string
  | mom_v => add_kind_suffix ["vx"; "vy"; "vz"]%string ks
  | mom_p => add_kind_suffix ["px"; "py"; "pz"]%string ks
  | mom_all => add_kind_suffix ["rho"; "jx"; "jy"; "jz"; "px"; "py"; "pz"; "txx"; "tyy"; "tzz"; "txy"; "tyz"; "tzx"]%string ks
  end.

(** n_comps, fields_item.hxx:110 *)
Definition n_comps (t : moment) (ks : list kind) : Z := alen (comp_names t ks).

(** the calls of deposit_one for one particle, in order: component and value
    (the lambdas of moment.hxx:139-142, 167-169, 195-201, 226-230 and 293-310) *)
Definition calls (t : moment) (ks : list kind) (p : mprt) : option (list (Z * R)) :=
  match kind_of ks p with
  | None => None
  | Some k =>
    match prt_w k p with
    | None => None
    | Some w =>
      let q := k_q k in
      let m := k_m k in
      let u := mp_u p in
      let v := calc_vxi u in
      let three := zrange 0 3 in
      let ax := fun j => if (j =? 0)%Z then D0 else if (j =? 1)%Z then D1 else D2 in
      Some match t with
      | mom_n => [(mp_kind p, w)]
      | mom_rho => [(0%Z, w * q)]
      | mom_v => map (fun j => ((j + 3 * mp_kind p)%Z, w * get3 v (ax j))) three
      | mom_p => map (fun j => ((j + 3 * mp_kind p)%Z, w * m * get3 u (ax j))) three
      | mom_all =>
          let mm := (mp_kind p * 13)%Z in
          [ ((mm + 0)%Z, w * q);
            ((mm + 1)%Z, w * q * c0 v);
            ((mm + 2)%Z, w * q * c1 v);
            ((mm + 3)%Z, w * q * c2 v);
            ((mm + 4)%Z, w * m * c0 u);
            ((mm + 5)%Z, w * m * c1 u);
            ((mm + 6)%Z, w * m * c2 u);
            ((mm + 7)%Z, w * m * c0 u * c0 v);
            ((mm + 8)%Z, w * m * c1 u * c1 v);
            ((mm + 9)%Z, w * m * c2 u * c2 v);
            ((mm + 10)%Z, w * m * c0 u * c1 v);
            ((mm + 11)%Z, w * m * c1 u * c2 v);
            ((mm + 12)%Z, w * m * c2 u * c0 v) ]
      end
    end
  end.

Section Moments.
  Variables (S : setting) (s : dep_scheme) (nc : Z).
  (** ib, fields_item.hxx:120 *)
  Definition item_ib : V3 Z := gen3 (fun d => - get3 (s_ibn S) d)%Z.

  (** deposit_one, moment.hxx:30-33: adds to the view of component m, which has to be one of the nc there are *)
  Definition deposit_one (x : V3 R) (e : Z * R) (f : Z -> rfield) : option (Z -> rfield) :=
    let '(m, v) := e in
    if (0 <=? m)%Z && (m <? nc)%Z then
      match code_dep s (s_dim S) (spacing S) (s_fnqs S) item_ib x v (f m) with
      | Some g => Some (fun m' => if (m' =? m)%Z then g else f m')
      | None => None
      end
    else None.

  (** the calls of func for one particle, moment.hxx:62-63 *)
  Fixpoint deposit_calls (x : V3 R) (l : list (Z * R)) (f : Z -> rfield) : option (Z -> rfield) :=
    match l with
    | [] => Some f
    | e :: l => match deposit_one x e f with Some f => deposit_calls x l f | None => None end
    end.

  (** the particles of one patch, moment.hxx:61-64 *)
  Fixpoint moment_patch (t : moment) (ks : list kind) (b : list mprt) (f : Z -> rfield) : option (Z -> rfield) :=
    match b with
    | [] => Some f
    | p :: b =>
        match calls t ks p with
        | Some l => match deposit_calls (mp_x p) l f with Some f => moment_patch t ks b f | None => None end
        | None => None
        end
    end.
End Moments.

(** ItemMoment::operator() on all processes, fields_item.hxx:117-129: zeros, the moment, and the ghost points added
    (psc_bnd_impl.hxx, C11).  D' r p m x is component m at the point x of patch p of process r. *)
Definition item_moment (S : setting) (s : dep_scheme) (t : moment) (ks : list kind) (P : Z -> list (list mprt)) (D' : Z -> flds R) : Prop :=
  let nc := n_comps t ks in
  exists D : Z -> flds R,
    (forall r p b, (0 <= r < s_size S)%Z -> aget (P r) p = Some b -> exists f,
       moment_patch S s nc t ks b (fun _ _ => 0) = Some f /\
       forall m i, D r p m i = f m (gen3 (fun d => get3 i d - get3 (item_ib S) d)%Z)) /\
    added S nc 0 nc D D'.
