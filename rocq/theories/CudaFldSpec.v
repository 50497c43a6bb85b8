(** What the push on the GPU is to do: to every particle what the push on the CPU does. *)
From Coq Require Import Reals.
From Flocq Require Import Core.
From Verif Require Import Base Arr FieldModel DepositModel InterpModel PushModel MomentModel CudaPrtModel.
Local Open Scope Z_scope.

(** The cell of its patch a particle is in, for cells of size [dx]. *)
Definition cell_by (dx : V3 R) (x : mprt) : V3 Z := gen3 (fun d => Zfloor (get3 (mp_x x) d / get3 dx d)%R).

(** In two dimensions x is the one left out. *)
Definition dim_of (g : geom) : dim_t := if g_yz g then dim_yz else dim_xyz.

(** [y] is [x] after the push of the CPU (push_particles_1vb.hxx:27-64) in the fields [EM] of its patch:
    interpolated to where the particle is they accelerate it, then it moves; its kind and its weight
    stay. *)
Definition pushed_by (d : dim_t) (dx : V3 R) (dt eta : R) (ks : list kind) (EM : qty -> dim3 -> V3 Z -> R) (x y : mprt) : Prop :=
  exists k E H, aget ks (mp_kind x) = Some k /\
    (forall c, interp ip_1st_ec d (gen3 (fun d => get3 (mp_x x) d / get3 dx d)%R) EM QE c = Some (get3 E c)) /\
    (forall c, interp ip_1st_ec d (gen3 (fun d => get3 (mp_x x) d / get3 dx d)%R) EM QH c = Some (get3 H c)) /\
    (mp_x y, mp_u y) = advance (invar_of d) dt (mp_x x) (mp_u x) E H (dq_kind eta dt (k_q k) (k_m k)) /\
    mp_kind y = mp_kind x /\ mp_qw y = mp_qw x.

(** A grid point kept in the cache of the block whose first cell is [ci0]: up to two points beyond the
    block's cells; in two dimensions there is one plane of points. *)
Definition cached (g : geom) (ci0 n : V3 Z) : Prop :=
  forall d, if get3 (invar_of (dim_of g)) d then get3 n d = 0
            else get3 ci0 d - 2 <= get3 n d < get3 ci0 d + get3 (g_bs g) d + 2.

(** What the code asks of the setup: ghost points enough for the cache, and in two dimensions blocks of
    one cell along x (cuda/cuda_fld_cache.hxx:104). *)
Record setup_ok (g : geom) (ibn : V3 Z) : Prop := {
  so_ibn : forall d, 0 <= get3 ibn d /\ (get3 (invar_of (dim_of g)) d = false -> 2 <= get3 ibn d);
  so_bs : g_yz g = true -> c0 (g_bs g) = 1
}.

(** Steps small enough that no particle crosses more than one cell (C46). *)
Definition step_ok (g : geom) (dx : V3 R) (dt : R) : Prop :=
  (0 <= dt)%R /\ forall d, (0 < get3 dx d)%R /\ (get3 (invar_of (dim_of g)) d = false -> (dt <= get3 dx d)%R).
