(** What the launches of the CUDA kernels are to do, said of the blocks of cells of the patches and
    of the particles in them. *)
From Coq Require Import Reals Permutation.
From Verif Require Import Base Arr RSum FieldModel CurrentModel CudaPrtModel CudaPrtSpec CudaLaunchModel.
Local Open Scope Z_scope.

(** A block position of a patch. *)
Definition is_pos (g : geom) (p : Z) (pos : V3 Z) : Prop := 0 <= p < g_np g /\ forall d, 0 <= get3 pos d < nblk g d.

(** What a kernel is to know of the block at a position: its number, its patch, its first cell. *)
Definition block_at (g : geom) (p : Z) (pos : V3 Z) : blk :=
  mkblk (block_no g p pos) p (gen3 (fun d => get3 pos d * get3 (g_bs g) d)).

(** [l] has just what satisfies [Q], each once. *)
Definition each_once {A} (Q : A -> Prop) (l : list A) : Prop := NoDup l /\ forall a, In a l <-> Q a.

(** All blocks of all patches. *)
Definition all_blocks (g : geom) (b : blk) : Prop := exists p pos, is_pos g p pos /\ b = block_at g p pos.

(** The blocks of a launch of four: one position in two, along y and along z. *)
Definition blocks_of_start (g : geom) (start : Z) (b : blk) : Prop :=
  exists p pos, is_pos g p pos /\ c1 pos mod 2 = start mod 2 /\ c2 pos mod 2 = start / 2 /\ b = block_at g p pos.

(** The current of the particles of patch [p]: that of each, summed up. *)
Definition current_of {P} (jof : Z -> P -> list entry) (S : list (Z * P)) (p : Z) (d : dim3) (n : V3 Z) : R :=
  rsum (map (fun w => if fst w =? p then cadd_all (fun _ _ => 0%R) (jof p (snd w)) d n else 0%R) S).
