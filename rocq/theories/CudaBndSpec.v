(** What the exchange of ghost points on the GPU is compared to: where a value of a field is in
    memory, and the maps a call would make if none were kept. *)
From Verif Require Import Base Arr DomainModel DomainSpec DdcPrtSpec GhostModel GhostSpec CudaBndModel.
Local Open Scope Z_scope.

(** the memory of process [rank] holds the field F: the patches one after the other, in a patch the
    components, in a component the points with their ghost points, the first direction fastest *)
Definition holds {T} (dm : domain) (ibn : V3 Z) (n_comps rank : Z) (mem : list T) (F : Z -> Z -> V3 Z -> T) : Prop :=
  let s d := get3 (grid_ldims dm) d + 2 * get3 ibn d in
  alen mem = patches_of dm rank * n_comps * s D2 * s D1 * s D0 /\
  forall p m i, 0 <= p < patches_of dm rank -> 0 <= m < n_comps -> (forall d, - get3 ibn d <= get3 i d < get3 (grid_ldims dm) d + get3 ibn d) ->
    aget mem ((((p * n_comps + m) * s D2 + (c2 i + c2 ibn)) * s D1 + (c1 i + c1 ibn)) * s D0 + (c0 i + c0 ibn)) = Some (F p m i).

(** the threads get to the elements in some order *)
Definition orders {T} (ord : list (Z * T) -> list (Z * T)) : Prop := forall l, Permutation (ord l) l.

(** a call with nothing kept *)
Definition fresh_maps (send : bool) (dm : domain) (ibn : V3 Z) (size rank n_comps mb me : Z) : option cmaps :=
  match pattern send dm ibn size rank with
  | Some ri => make_maps ri dm ibn n_comps rank mb me
  | None => None
  end.

(** the maps every call of a run should use: those of its own field range and of the domain at the time *)
Fixpoint expected (ibn : V3 Z) (size rank : Z) (dm : domain) (es : list bnd_event) : list (option cmaps) :=
  match es with
  | [] => []
  | ECall send n_comps mb me :: es => fresh_maps send dm ibn size rank n_comps mb me :: expected ibn size rank dm es
  | EBalance dm' :: es => None :: expected ibn size rank dm' es
  end.

(** a domain made by the domain code for [size] processes, with patches that the ghost points fit in *)
Definition domain_ok (ibn : V3 Z) (size : Z) (dm : domain) : Prop :=
  exists c np gdims per pr, all_pos np /\ domain_setup c np gdims per pr size = Some dm /\ counts_valid pr (volume np) size /\ processes pr size /\
    forall d, 0 <= get3 ibn d <= get3 gdims d / get3 np d.

(** the calls are for ranges of at most [max] components, and every domain is all right *)
Definition event_ok (max : Z) (ibn : V3 Z) (size : Z) (e : bnd_event) : Prop :=
  match e with
  | ECall _ n_comps mb me => 0 <= mb /\ mb <= me /\ me <= n_comps /\ n_comps <= max
  | EBalance dm => domain_ok ibn size dm
  end.
