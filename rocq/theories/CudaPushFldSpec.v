(** What the field updates on the GPU have to do: what those of the CPU do, on every patch,
    whatever the order. *)
From Coq Require Import Reals Permutation.
From Verif Require Import Base FieldModel FieldSpec CudaPushFldModel.
Local Open Scope Z_scope.

(** whatever the order in which the launches run their tasks, none makes a faulty access,
    and in the end [Q] holds *)
Fixpoint gt_always (sh : V3 Z) (stages : list (list gtask)) (f : gtf) (Q : gtf -> Prop) : Prop :=
  match stages with
  | [] => Q f
  | ts :: r => forall ord, Permutation ts ord -> exists f1, gt_run sh ord f = Some f1 /\ gt_always sh r f1 Q
  end.

(** patch [p] as the CPU code sees it: index 0 is the first interior point *)
Definition patch_of (g : fgrid) (f : gtf) (p : Z) : pf :=
  fun q d i => f p (Comp q d) (gen3 (fun e => get3 i e + get3 (ibn g) e)).
(** the same for the residual *)
Definition res_of (g : fgrid) (f : gtf) (p : Z) : V3 Z -> R :=
  fun i => f p Res (gen3 (fun e => get3 i e + get3 (ibn g) e)).

(** every patch of [f'] is what [upd] makes of that of [f], at all points with storage *)
Definition updated (g : fgrid) (np : Z) (upd : Z -> pf -> pf) (f f' : gtf) : Prop :=
  forall p, 0 <= p < np ->
    (forall q d i, stored g i -> patch_of g f' p q d i = upd p (patch_of g f p) q d i) /\
    (forall i, res_of g f' p i = res_of g f p i).

(** the grids for which the two variants of the GPU code are meant *)
Definition grid_yz (g : fgrid) : Prop := wf_grid g /\ invar g = v3 true false false /\ ibn g = v3 0 2 2.
Definition grid_xyz (g : fgrid) : Prop := wf_grid g /\ invar g = v3 false false false /\ ibn g = v3 2 2 2.
