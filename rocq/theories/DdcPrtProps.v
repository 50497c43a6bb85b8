(** C16, C17: exchange of particles between patches, on all processes. *)
From Coq Require Import Reals Lra Psatz.
From Flocq Require Import Core.
From Verif Require Import Base Arr DomainModel DomainSpec MpiModel BalanceModel BndPrtModel BndPrtSpec DdcPrtModel DdcPrtSpec DdcPrtProofs DdcPrtGlobalSpec DdcPrtGlobal.
Local Open Scope Z_scope.

(** ** C16 *)

(** Every message sent is received and every receive is answered ([balanced]); in whatever
    order the messages arrive, no assertion fails, and every patch ends with what it kept and,
    once each, the buffers meant for it. *)
Theorem C16_delivery : forall P c np gdims per pr size dm (kept : Z -> list (list P)) (sb : Z -> list (Z -> list P)),
  all_pos np -> domain_setup c np gdims per pr size = Some dm -> counts_valid pr (volume np) size -> processes pr size ->
  per_patch dm size kept -> per_patch dm size sb ->
  exists em cm pm re rc,
    all_entry_posts dm size = Some em /\ all_count_posts dm size sb = Some cm /\ all_data_posts dm size sb = Some pm /\
    all_recv_chans dm size 111 = Some re /\ all_recv_chans dm size 222 = Some rc /\ balanced em re /\ balanced cm rc /\
    forall epool cpool dpool, Permutation epool em -> Permutation cpool cm -> Permutation dpool pm ->
      (exists rd, all_recv_data_chans dm size cpool = Some rd /\ balanced pm rd) /\
      exists res : Z -> list (list P),
        per_patch dm size res /\
        (forall r, 0 <= r < size -> comm dm size epool cpool dpool (kept r) (sb r) r = Some (res r) /\
           forall p k, aget (kept r) p = Some k -> exists new, aget (res r) p = Some (k ++ new) /\
             Permutation new (flat_map (contents sb) (filter (meant_for dm r p) (buffers dm size)))) /\
        Permutation (flat_map (fun r => concat (res r)) (zrange 0 size))
          (flat_map (fun r => concat (kept r)) (zrange 0 size) ++ flat_map (contents sb) (filter (delivered dm) (buffers dm size))).
Proof. intros P. exact exchange_full. Qed.
Print Assumptions C16_delivery.

(** the opposite direction *)
Definition opposite (dir : V3 Z) : V3 Z := v3 (- c0 dir) (- c1 dir) (- c2 dir).

(** the 26 directions, and (0, 0, 0) *)
Definition directions : list (V3 Z) :=
  flat_map (fun k => flat_map (fun j => map (fun i => v3 i j k) (zrange (-1) 2)) (zrange (-1) 2)) (zrange (-1) 2).

(** the buffers meant for a patch are those of its neighbours for the opposite directions *)
Theorem C16_sources : forall c np gdims per pr size dm r p,
  all_pos np -> domain_setup c np gdims per pr size = Some dm -> counts_valid pr (volume np) size -> processes pr size ->
  0 <= r < size -> 0 <= p < patches_of dm r ->
  Permutation (filter (meant_for dm r p) (buffers dm size))
    (flat_map (fun dir => match dest dm (r, p, dir) with Some (r', q) => [(r', q, opposite dir)] | None => [] end) directions).
Proof.
  intros c np gdims per pr size dm r p H1 H2 H3 H4 Hr Hp. symmetry. exact (keys_meant c np gdims per pr size dm H1 H2 H3 H4 r p (conj Hr Hp)).
Qed.
Print Assumptions C16_sources.

(** nothing is lost if nothing is put in the buffers without a neighbour *)
Theorem C16_conserved : forall P c np gdims per pr size dm (kept : Z -> list (list P)) (sb : Z -> list (Z -> list P)),
  all_pos np -> domain_setup c np gdims per pr size = Some dm -> counts_valid pr (volume np) size -> processes pr size ->
  per_patch dm size kept -> per_patch dm size sb ->
  (forall s, In s (buffers dm size) -> dest dm s = None -> contents sb s = []) ->
  exists em cm pm, all_entry_posts dm size = Some em /\ all_count_posts dm size sb = Some cm /\ all_data_posts dm size sb = Some pm /\
    forall epool cpool dpool, Permutation epool em -> Permutation cpool cm -> Permutation dpool pm ->
      exists res : Z -> list (list P), (forall r, 0 <= r < size -> comm dm size epool cpool dpool (kept r) (sb r) r = Some (res r)) /\
        Permutation (flat_map (fun r => concat (res r)) (zrange 0 size))
          (flat_map (fun r => concat (kept r)) (zrange 0 size) ++ flat_map (contents sb) (buffers dm size)).
Proof.
  intros P c np gdims per pr size dm kept sb H1 H2 H3 H4 Hk Hs HE.
  destruct (exchange_full c np gdims per pr size dm kept sb H1 H2 H3 H4 Hk Hs) as [em [cm [pm [re [rc [E1 [E2 [E3 [_ [_ [_ [_ HX]]]]]]]]]]]].
  exists em, cm, pm. split; [exact E1|]. split; [exact E2|]. split; [exact E3|]. intros epool cpool dpool P1 P2 P3.
  destruct (HX epool cpool dpool P1 P2 P3) as [_ [res [_ [HR HP]]]]. exists res. split; [intros r Hr; apply (HR r Hr)|].
  rewrite HP. apply Permutation_app_head. match goal with |- Permutation ?u ?v => replace u with v; [apply Permutation_refl|] end.
  clear - HE. induction (buffers dm size) as [|s l IH]; [reflexivity|]. cbn [filter flat_map].
  rewrite IH by (intros s' Hs'; apply HE; now right). unfold delivered at 2. destruct (dest dm s) eqn:E; [reflexivity|]. rewrite (HE s (or_introl eq_refl) E). reflexivity.
Qed.
Print Assumptions C16_conserved.

(** ** C17 *)
Local Open Scope R_scope.

(** Boundary processing on all processes and exchange, in exact arithmetic: the particles of all
    patches, as global position modulo the domain, momentum and identity, are the same before
    and after; afterwards every particle is within its patch. *)
Theorem C17_positions : forall T c np gdims per pr size dm len corner lo hi (bufs : Z -> list (list (particle T))),
  all_pos np -> domain_setup c np gdims per pr size = Some dm -> counts_valid pr (volume np) size -> processes pr size ->
  (forall d, 0 < get3 len d) -> all_pos gdims -> (forall d, get3 gdims d / get3 np d <= 2 ^ 30)%Z ->
  (c0 gdims / c0 np * (c1 gdims / c1 np) * (c2 gdims / c2 np) < 2 ^ 31)%Z ->
  per_patch dm size bufs ->
  (forall r p info b q, (0 <= r < size)%Z -> get_local_patch_info dm r p = Some info -> aget (bufs r) p = Some b -> In q b ->
     travels gdims len per lo hi info (p_x q)) ->
  exists kept sb em cm pm,
    (forall r, (0 <= r < size)%Z -> process_all exact dm len corner lo hi r (bufs r) = Some (kept r, sb r)) /\
    all_entry_posts dm size = Some em /\ all_count_posts dm size sb = Some cm /\ all_data_posts dm size sb = Some pm /\
    forall epool cpool dpool, Permutation epool em -> Permutation cpool cm -> Permutation dpool pm ->
      exists res, (forall r, (0 <= r < size)%Z -> comm dm size epool cpool dpool (kept r) (sb r) r = Some (res r)) /\ per_patch dm size res /\
        Permutation (everything dm size len corner per (patches_of dm) res) (everything dm size len corner per (patches_of dm) bufs) /\
        forall r p info b q, (0 <= r < size)%Z -> (0 <= p < patches_of dm r)%Z -> get_local_patch_info dm r p = Some info -> aget (res r) p = Some b -> In q b ->
          forall d, 0 <= get3 (p_x q) d < width gdims len info d.
Proof.
  intros T c np gdims per pr size dm len corner lo hi bufs H1 H2 H3 H4 HL HG HS HV HB HT.
  exists (kepts dm len corner lo hi bufs), (sbs dm len corner lo hi bufs).
  assert (KL : per_patch dm size (kepts dm len corner lo hi bufs)) by (exact (kepts_len np gdims per size dm len corner lo hi bufs HB HT)).
  assert (SL : per_patch dm size (sbs dm len corner lo hi bufs)) by (exact (sbs_len np gdims per size dm len corner lo hi bufs HB HT)).
  destruct (exchange_full c np gdims per pr size dm _ _ H1 H2 H3 H4 KL SL) as [em [cm [pm [re [rc [E1 [E2 [E3 [_ [_ [_ [_ HX]]]]]]]]]]]].
  exists em, cm, pm. split; [intros r Hr; exact (process_all_ok c np gdims per pr size dm H1 H2 H3 H4 len corner lo hi HL HG HS HV bufs HB HT r Hr)|]. split; [exact E1|]. split; [exact E2|]. split; [exact E3|].
  intros epool cpool dpool P1 P2 P3. destruct (HX epool cpool dpool P1 P2 P3) as [_ [res [HPP [HR _]]]].
  exists res. split; [intros r Hr; apply (HR r Hr)|]. split; [exact HPP|].
  destruct (system c np gdims per pr size dm H1 H2 H3 H4 len corner lo hi HL HG HS HV bufs HB HT res) as [S1 S2].
  { intros r Hr. apply (HR r Hr). }
  split; [exact S1|]. intros r p info b q Hr Hp Ei Eb Hq d. pose proof (S2 r p info b q (conj Hr Hp) Ei Eb Hq d) as I.
  replace (width gdims len info d) with (get3 (pg_ps (geom gdims len corner lo hi info)) d); [exact I|].
  unfold geom, patch_geom, width. cbn [pg_ps rnd rndd exact]. rewrite get3_gen3, plus_IZR. ring.
Qed.
Print Assumptions C17_positions.

(** ** examples *)

(** four patches on two processes, periodic in x only; buffers with contents for every
    existing neighbour *)
Definition ex_sb (r : Z) : list (Z -> list Z) := [(fun i => [100 * r + i]); (fun i => [1000 + 100 * r + i])]%Z.
Example ex_C16 : exists dm em cm pm, domain_setup CURVE_BYDIM (v3 2 2 1)%Z (v3 8 8 1)%Z (v3 true false false) None 2 = Some dm /\
  all_pos (v3 2 2 1)%Z /\ counts_valid None (volume (v3 2 2 1)%Z) 2 /\ processes None 2 /\
  per_patch dm 2 (fun r => [[r]; [r + 10]])%Z /\ per_patch dm 2 ex_sb /\
  all_entry_posts dm 2 = Some em /\ all_count_posts dm 2 ex_sb = Some cm /\ all_data_posts dm 2 ex_sb = Some pm /\
  comm dm 2 (rev em) cm (rev pm) [[1]; [11]]%Z (ex_sb 1) 1 = Some [[1; 1114; 1112; 16; 1015; 1017]; [11; 114; 112; 15; 17; 1016]]%Z.
Proof.
  eexists _, _, _, _. split; [vm_compute; reflexivity|]. split; [intros []; cbn; lia|]. split; [cbn; lia|]. split; [exact I|].
  split; [intros r Hr; assert (r = 0 \/ r = 1)%Z as [-> | ->] by lia; vm_compute; reflexivity|].
  split; [intros r Hr; assert (r = 0 \/ r = 1)%Z as [-> | ->] by lia; vm_compute; reflexivity|].
  split; [vm_compute; reflexivity|]. split; [vm_compute; reflexivity|]. split; [vm_compute; reflexivity|]. vm_compute. reflexivity.
Qed.

(** a buffer which has no neighbour is emptied without being delivered: here what patch 0 of
    process 0 has for direction (0, -1, 0) *)
Example ex_lost : exists dm, domain_setup CURVE_BYDIM (v3 2 2 1)%Z (v3 8 8 1)%Z (v3 true false false) None 2 = Some dm /\
  dest dm (0, 0, v3 0 (-1) 0)%Z = None /\ In (0, 0, v3 0 (-1) 0)%Z (buffers dm 2) /\ contents ex_sb (0, 0, v3 0 (-1) 0)%Z = [10]%Z.
Proof.
  eexists. split; [vm_compute; reflexivity|]. split; [vm_compute; reflexivity|]. split; [|reflexivity].
  vm_compute. tauto.
Qed.

(** the same domain, of size 2 x 2 x 1; two particles which leave their patches, one of them through the
    periodic side and the corner *)
Definition ex_bufs (r : Z) : list (list (particle nat)) :=
  if (r =? 0)%Z then [[mkP (v3 (-1 / 4) (5 / 4) 0) (v3 1 2 3) 7%nat]; []] else [[mkP (v3 (1 / 2) (-1 / 8) 0) (v3 1 2 3) 8%nat]; []].
Example ex_C17 : exists dm, domain_setup CURVE_BYDIM (v3 2 2 1)%Z (v3 8 8 1)%Z (v3 true false false) None 2 = Some dm /\
  per_patch dm 2 ex_bufs /\
  forall r p info b q, (0 <= r < 2)%Z -> get_local_patch_info dm r p = Some info -> aget (ex_bufs r) p = Some b -> In q b ->
     travels (v3 8 8 1)%Z (v3 2 2 1) (v3 true false false) (v3 PRT_PERIODIC PRT_REFLECTING PRT_PERIODIC) (v3 PRT_PERIODIC PRT_REFLECTING PRT_PERIODIC) info (p_x q).
Proof.
  eexists. split; [vm_compute; reflexivity|].
  split; [intros r Hr; assert (r = 0 \/ r = 1)%Z as [-> | ->] by lia; vm_compute; reflexivity|].
  intros r p info b q Hr Ei Eb Hq. pose proof (aget_bounds _ _ _ Eb) as B.
  assert (r = 0 \/ r = 1)%Z as [-> | ->] by lia; (assert (p = 0 \/ p = 1)%Z as [-> | ->] by (cbn in B; lia)); cbn in Eb; injection Eb as <-; first [destruct Hq as [<-|[]]|destruct Hq];
    vm_compute in Ei; injection Ei as <-; intros d; unfold only_passes, width; destruct d; cbn; (split; [lra|]).
  - right. left. split; [lra|]. right. auto.
  - right. right. split; [lra|]. left. lia.
  - left. lra.
  - left. lra.
  - right. left. split; [lra|]. left. lia.
  - left. lra.
Qed.
