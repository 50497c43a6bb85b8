(** Proofs about the initial fields. *)
From Coq Require Import Reals Lra Psatz.
From Flocq Require Import Core.
From Verif Require Import Base Arr RSum DomainModel DomainSpec DdcPrtSpec GhostModel GhostSpec GhostProofs GhostProps FieldModel FieldSpec FieldProofs DepositModel GaussModel GaussSpec GaussProofs GaussProps SetupFldModel SetupFldSpec.
Local Open Scope R_scope.

Lemma v3z_dec (a b : V3 Z) : {a = b} + {a <> b}.
Proof. decide equality; apply Z.eq_dec. Qed.

Lemma map_flat {A B} (g : A -> B) l : map g l = flat_map (fun a => [g a]) l.
Proof. induction l as [|a l IH]; [reflexivity|]. cbn. rewrite IH. reflexivity. Qed.

(** ** what the += do *)

Definition hits (m : Z) (x : V3 Z) (e : option fentry) : R :=
  match e with Some (m', i, v) => if (m =? m')%Z && ((c0 x =? c0 i)%Z && (c1 x =? c1 i)%Z && (c2 x =? c2 i)%Z) then v else 0 | None => 0 end.

Section Entries.
  Variables (S : setting) (n_comps n p : Z).
  Definition entry_ok (e : option fentry) : Prop := exists m i v, e = Some (m, i, v) /\ in_store (s_dm S) (s_ibn S) n_comps n p m i = true.

  Lemma add_entries_val es : forall F, (forall e, In e es -> entry_ok e) ->
    exists F', add_entries S n_comps n p es F = Some F' /\
      forall p' m x, F' p' m x = F p' m x + (if (p' =? p)%Z then rsum (map (hits m x) es) else 0).
  Proof.
    induction es as [|e es IH]; intros F H.
    - exists F. split; [reflexivity|]. intros p' m x. cbn. destruct (p' =? p)%Z; ring.
    - destruct (H e (or_introl eq_refl)) as (m0 & i & v & -> & E). cbn [add_entries]. rewrite E.
      destruct (IH (upd F p m0 i (F p m0 i + v)) (fun e He => H e (or_intror He))) as (F' & E' & V). exists F'. split; [exact E'|].
      intros p' m x. rewrite V. cbn [map]. rewrite rsum_cons. cbn [hits]. unfold upd.
      destruct (Z.eqb_spec p' p) as [->|]; cbn [andb]; [|ring]. destruct (Z.eqb_spec m m0) as [->|]; cbn [andb]; [|ring].
      destruct ((c0 x =? c0 i)%Z && (c1 x =? c1 i)%Z && (c2 x =? c2 i)%Z) eqn:EE.
      + assert (x = i) as ->. { destruct x, i. cbn in EE. apply andb_prop in EE. destruct EE as [EE E3]. apply andb_prop in EE. destruct EE as [E1 E2]. apply Z.eqb_eq in E1, E2, E3. congruence. }
        ring.
      + ring.
  Qed.
End Entries.

Section Patches.
  Variables (S : setting) (n_comps r : Z) (entries : V3 Z -> list (option fentry)).
  Let n := patches_of (s_dm S) r.

  Lemma setup_patches_val ps : forall F, NoDup ps ->
    (forall p, In p ps -> exists info, get_local_patch_info (s_dm S) r p = Some info /\ forall e, In e (entries (pi_off info)) -> entry_ok S n_comps n p e) ->
    exists F', setup_patches S entries n_comps r ps F = Some F' /\
      (forall p info m x, In p ps -> get_local_patch_info (s_dm S) r p = Some info -> F' p m x = F p m x + rsum (map (hits m x) (entries (pi_off info)))) /\
      (forall p m x, ~ In p ps -> F' p m x = F p m x).
  Proof.
    induction ps as [|p ps IH]; intros F ND H.
    - exists F. split; [reflexivity|]. split; [intros ? ? ? ? []|reflexivity].
    - inversion ND as [|? ? N1 N2]; subst. destruct (H p (or_introl eq_refl)) as (info & EI & OK). cbn [setup_patches]. rewrite EI.
      destruct (add_entries_val S n_comps n p (entries (pi_off info)) F OK) as (F1 & E1 & V1). fold n. rewrite E1.
      destruct (IH F1 N2 (fun p' Hp' => H p' (or_intror Hp'))) as (F' & E' & A & B). exists F'. split; [exact E'|]. split.
      + intros p' info' m x Hin EI'. destruct Hin as [<-|Hin].
        * rewrite B by exact N1. rewrite V1, Z.eqb_refl. rewrite EI in EI'. injection EI' as <-. reflexivity.
        * rewrite (A p' info' m x Hin EI'), V1. destruct (Z.eqb_spec p' p) as [->|]; [contradiction|]. ring.
      + intros p' m x Hn. rewrite B by (intros Hin; apply Hn; right; exact Hin). rewrite V1.
        destruct (Z.eqb_spec p' p) as [->|]; [exfalso; apply Hn; left; reflexivity|]. ring.
  Qed.
End Patches.

(** ** the points *)

Section Domain.
  Variables (S : setting) (c : curve) (np gdims : V3 Z) (per : V3 bool) (pr : option (list Z)) (n : Z).
  Hypothesis HD : a_domain S c np gdims per pr n.
  Let dm := s_dm S.

  Lemma d_gd : dm_gdims (s_dm S) = gdims.
  Proof. destruct HD as [(_ & H & _) _]. destruct (dm_parts c np gdims per pr _ _ H) as (_ & -> & _). reflexivity. Qed.

  Lemma points_in x : In x (setup_points S (fun x => x)) <-> stored_at S x.
  Proof.
    destruct HD as (_ & Hn & H). pose proof d_gd as GD. unfold setup_points, foreach_bnd, stored_at. cbn [invar dom_grid ldims]. 
    assert (L : forall d, (if get3 (gen3 (fun d => (get3 (dm_gdims (s_dm S)) d =? 1)%Z)) d then 0 else - n_ghosts S)%Z = (- get3 (s_ibn S) d)%Z /\
      (get3 (grid_ldims (s_dm S)) d + (if get3 (gen3 (fun d => (get3 (dm_gdims (s_dm S)) d =? 1)%Z)) d then 0 else n_ghosts S))%Z = (get3 (grid_ldims (s_dm S)) d + get3 (s_ibn S) d)%Z).
    { intros d. rewrite get3_gen3, GD. destruct (get3 gdims d =? 1)%Z eqn:E.
      - rewrite (proj2 (H d)), E. lia.
      - assert (n_ghosts S = get3 (s_ibn S) d) as ->; [|lia]. unfold n_ghosts. pose proof (proj2 (H D0)) as A0. pose proof (proj2 (H D1)) as A1. pose proof (proj2 (H D2)) as A2.
        pose proof (proj2 (H d)) as Ad. rewrite E in Ad. cbn [get3] in A0, A1, A2. rewrite Ad, A0, A1, A2.
        destruct d; cbn [get3] in E; rewrite E; repeat match goal with |- context [if ?b then _ else _] => destruct b end; lia. }
    set (lo := gen3 (fun d => if get3 (gen3 (fun d => (get3 (dm_gdims (s_dm S)) d =? 1)%Z)) d then 0 else - n_ghosts S)%Z).
    set (hi := gen3 (fun d => get3 (grid_ldims (s_dm S)) d + (if get3 (gen3 (fun d => (get3 (dm_gdims (s_dm S)) d =? 1)%Z)) d then 0 else n_ghosts S))%Z).
    assert (Llo : forall d, get3 lo d = (- get3 (s_ibn S) d)%Z) by (intros d; unfold lo; rewrite get3_gen3; apply L).
    assert (Lhi : forall d, get3 hi d = (get3 (grid_ldims (s_dm S)) d + get3 (s_ibn S) d)%Z) by (intros d; unfold hi; rewrite get3_gen3; apply L).
    clearbody lo hi. destruct x as [x0 x1 x2]. rewrite in_flat_map. split.
    - intros (k & Hk & Hx). apply in_flat_map in Hx. destruct Hx as (j & Hj & Hx). apply in_map_iff in Hx. destruct Hx as (i & E & Hi). injection E as -> -> ->.
      apply in_zrange in Hk, Hj, Hi. intros d. rewrite <- Llo, <- Lhi. destruct d; cbn [get3 c0 c1 c2]; assumption.
    - intros Hs. exists x2. split; [apply in_zrange; specialize (Hs D2); rewrite <- Llo, <- Lhi in Hs; exact Hs|]. apply in_flat_map. exists x1.
      split; [apply in_zrange; specialize (Hs D1); rewrite <- Llo, <- Lhi in Hs; exact Hs|]. apply in_map_iff. exists x0. split; [reflexivity|].
      apply in_zrange; specialize (Hs D0); rewrite <- Llo, <- Lhi in Hs; exact Hs.
  Qed.

  (** the points do not depend on the rounding *)
  Lemma points_rnd rnd : setup_points S rnd = setup_points S (fun x => x).
  Proof. reflexivity. Qed.

  Lemma points_nodup rnd : NoDup (setup_points S rnd).
  Proof. apply foreach_bnd_nodup. Qed.

  (** only the entries for the point itself count *)
  Lemma hits_flat (body : V3 Z -> list (option fentry)) rnd m x :
    (forall i e, In e (body i) -> match e with Some (_, i', _) => i' = i | None => True end) ->
    rsum (map (hits m x) (flat_map body (setup_points S rnd))) = if in_dec v3z_dec x (setup_points S rnd) then rsum (map (hits m x) (body x)) else 0.
  Proof.
    intros HB. pose proof (points_nodup rnd) as ND. induction (setup_points S rnd) as [|i l IH]; [reflexivity|].
    inversion ND as [|? ? N1 N2]; subst. cbn [flat_map]. rewrite map_app, rsum_app, (IH N2).
    assert (Z0 : x <> i -> rsum (map (hits m x) (body i)) = 0).
    { intros N. apply rsum_zero. intros e He. specialize (HB i e He). destruct e as [[[m' i'] v]|]; [|reflexivity]. subst i'. cbn.
      destruct ((m =? m')%Z && ((c0 x =? c0 i)%Z && (c1 x =? c1 i)%Z && (c2 x =? c2 i)%Z)) eqn:E; [|reflexivity]. exfalso. apply N.
      apply andb_prop in E. destruct E as [_ E]. apply andb_prop in E. destruct E as [E E3]. apply andb_prop in E. destruct E as [E1 E2]. apply Z.eqb_eq in E1, E2, E3. destruct x, i. cbn in *. congruence. }
    destruct (in_dec v3z_dec x l) as [Hl|Hl]; destruct (in_dec v3z_dec x (i :: l)) as [Hc|Hc].
    - rewrite Z0; [ring|]. intros ->. contradiction.
    - exfalso. apply Hc. right. exact Hl.
    - destruct Hc as [->|Hc]; [ring|contradiction].
    - rewrite Z0; [ring|]. intros ->. apply Hc. left. reflexivity.
  Qed.

  Variable rnd : R -> R.
  Definition pos_of (off x : V3 Z) (q : qty) (d : dim3) : V3 R :=
    gen3 (fun e => if in_the_middle q d e then get_cc S rnd off (get3 x e) e else get_nc S rnd off (get3 x e) e).

  Definition pick (x : V3 Z) (v : R) : R := if in_dec v3z_dec x (setup_points S rnd) then v else 0.

  Lemma hits_self m x m' v : hits m x (Some (m', x, v)) = if (m =? m')%Z then v else 0.
  Proof. cbn. rewrite !Z.eqb_refl. cbn. destruct (m =? m')%Z; reflexivity. Qed.

  Lemma cpu_hits f off q d x : rsum (map (hits (comp q d) x) (cpu_entries S rnd f off)) = pick x (f (comp q d) (pos_of off x q d)).
  Proof.
    unfold cpu_entries. rewrite hits_flat.
    - unfold pick. destruct (in_dec v3z_dec x (setup_points S rnd)); [|reflexivity]. cbn [flat_map dims3 app map get_pos option_map]. unfold rsum. cbn [fold_right]. rewrite !hits_self.
      destruct q, d; cbn [comp Z.add Z.eqb Pos.add Pos.succ Pos.eqb]; unfold pos_of, in_the_middle, gen3; cbn [dim3_eqb negb get3]; ring.
    - intros i e He. cbn [flat_map dims3 app get_pos option_map In] in He. repeat (destruct He as [<-|He]; [reflexivity|]). destruct He.
  Qed.

  Lemma gpu_hits f off q d x : rsum (map (hits (comp q d) x) (gpu_entries S rnd f off)) = pick x (f (comp q d) (pos_of off x q d)).
  Proof.
    unfold gpu_entries. rewrite hits_flat.
    - unfold pick. destruct (in_dec v3z_dec x (setup_points S rnd)); [|reflexivity]. destruct x as [x0 x1 x2]. cbn [map fst snd]. unfold rsum. cbn [fold_right]. rewrite !hits_self.
      destruct q, d; cbn [comp Z.add Z.eqb Pos.add Pos.succ Pos.eqb]; unfold pos_of, in_the_middle, gen3; cbn [dim3_eqb negb get3 c0 c1 c2]; ring.
    - intros [i0 i1 i2] e He. apply in_map_iff in He. destruct He as (y & <- & _). reflexivity.
  Qed.

  Lemma cpu_other f off m x : ~ (0 <= m < 9)%Z -> rsum (map (hits m x) (cpu_entries S rnd f off)) = 0.
  Proof.
    intros Hm. apply rsum_zero. intros e He. unfold cpu_entries in He. apply in_flat_map in He. destruct He as (i & _ & He). cbn [flat_map dims3 app get_pos option_map In] in He.
    repeat (destruct He as [<-|He]; [cbn [hits]; match goal with |- context [(m =? ?k)%Z] => destruct (Z.eqb_spec m k) as [->|]; [exfalso; apply Hm; vm_compute; intuition discriminate|reflexivity] end|]). destruct He.
  Qed.

  Lemma gpu_other f off m x : ~ (0 <= m < 9)%Z -> rsum (map (hits m x) (gpu_entries S rnd f off)) = 0.
  Proof.
    intros Hm. apply rsum_zero. intros e He. unfold gpu_entries in He. apply in_flat_map in He. destruct He as ([i0 i1 i2] & _ & He). apply in_map_iff in He. destruct He as (y & <- & Hy). cbn [In] in Hy.
    repeat (destruct Hy as [<-|Hy]; [cbn [hits fst]; match goal with |- context [(m =? ?k)%Z] => destruct (Z.eqb_spec m k) as [->|]; [exfalso; apply Hm; vm_compute; intuition discriminate|reflexivity] end|]). destruct Hy.
  Qed.

  Lemma scalar_hits k f off x : k = at_NC \/ k = at_CC ->
    rsum (map (hits 0 x) (scalar_entries S rnd k f off)) = pick x (f 0%Z (gen3 (fun e => match k with at_CC => get_cc S rnd off (get3 x e) e | _ => get_nc S rnd off (get3 x e) e end))).
  Proof.
    intros Hk. unfold scalar_entries. rewrite (map_flat (fun i => option_map (fun x => (0%Z, i, f 0%Z x)) (get_pos S rnd off i k None))), hits_flat.
    - unfold pick. destruct (in_dec v3z_dec x (setup_points S rnd)); [|reflexivity]. destruct Hk as [-> | ->]; cbn [get_pos option_map map]; unfold rsum; cbn [fold_right]; rewrite hits_self; cbn [Z.eqb gen3 get3]; ring.
    - intros i e [<-|[]]. destruct Hk as [-> | ->]; reflexivity.
  Qed.

  Lemma scalar_other k f off m x : m <> 0%Z -> rsum (map (hits m x) (scalar_entries S rnd k f off)) = 0.
  Proof.
    intros Hm. apply rsum_zero. intros e He. unfold scalar_entries in He. apply in_map_iff in He. destruct He as (i & <- & _). destruct (get_pos S rnd off i k None); [|reflexivity]. cbn. destruct (Z.eqb_spec m 0) as [->|]; [contradiction|reflexivity].
  Qed.

  Lemma store_ok n_comps r p m x : (0 <= p < patches_of (s_dm S) r)%Z -> (0 <= m < n_comps)%Z -> In x (setup_points S rnd) ->
    in_store (s_dm S) (s_ibn S) n_comps (patches_of (s_dm S) r) p m x = true.
  Proof.
    intros Hp Hm Hx. apply (points_in x) in Hx. unfold in_store. rewrite !andb_true_iff. repeat split; try (apply Z.leb_le || apply Z.ltb_lt; lia).
    apply forallb_forall. intros d _. specialize (Hx d). apply andb_true_iff. split; [apply Z.leb_le|apply Z.ltb_lt]; lia.
  Qed.

  Lemma cpu_ok f off r p : (0 <= p < patches_of (s_dm S) r)%Z -> forall e, In e (cpu_entries S rnd f off) -> entry_ok S NR_FIELDS (patches_of (s_dm S) r) p e.
  Proof.
    intros Hp e He. unfold cpu_entries in He. apply in_flat_map in He. destruct He as (i & Hi & He). cbn [flat_map dims3 app get_pos option_map In] in He.
    repeat (destruct He as [<-|He]; [eexists _, _, _; split; [reflexivity|apply store_ok; [exact Hp|vm_compute; intuition discriminate|exact Hi]]|]). destruct He.
  Qed.

  Lemma gpu_ok f off r p : (0 <= p < patches_of (s_dm S) r)%Z -> forall e, In e (gpu_entries S rnd f off) -> entry_ok S NR_FIELDS (patches_of (s_dm S) r) p e.
  Proof.
    intros Hp e He. unfold gpu_entries in He. apply in_flat_map in He. destruct He as ([i0 i1 i2] & Hi & He). apply in_map_iff in He. destruct He as (y & <- & Hy). cbn [In] in Hy.
    repeat (destruct Hy as [<-|Hy]; [eexists _, _, _; split; [reflexivity|apply store_ok; [exact Hp|vm_compute; intuition discriminate|exact Hi]]|]). destruct Hy.
  Qed.

  Lemma scalar_ok k n_comps f off r p : k = at_NC \/ k = at_CC -> (0 < n_comps)%Z -> (0 <= p < patches_of (s_dm S) r)%Z ->
    forall e, In e (scalar_entries S rnd k f off) -> entry_ok S n_comps (patches_of (s_dm S) r) p e.
  Proof.
    intros Hk Hc Hp e He. unfold scalar_entries in He. apply in_map_iff in He. destruct He as (i & <- & Hi).
    destruct Hk as [-> | ->]; (eexists _, _, _; split; [reflexivity|apply store_ok; [exact Hp|lia|exact Hi]]).
  Qed.

  (** ** the loop over the patches *)
  Lemma infos r : (0 <= r < s_size S)%Z -> forall p, In p (zrange 0 (patches_of (s_dm S) r)) -> exists info, get_local_patch_info (s_dm S) r p = Some info /\ forall x d, global_idx (s_dm S) (r, p, x) d = (get3 (pi_off info) d + get3 x d)%Z.
  Proof.
    intros Hr p Hp. apply in_zrange in Hp. destruct HD as [(H1 & H2 & H3 & H4) _].
    destruct (info_of c np gdims per pr _ _ H1 H2 H3 H4 r p) as (info & E & _); [split; [exact Hr|exact Hp]|]. exists info. split; [exact E|]. intros x d. unfold global_idx. rewrite E. reflexivity.
  Qed.

  Lemma setup_val f r F : (0 <= r < s_size S)%Z -> exists F1 F2, setup_fields S rnd f r F = Some F1 /\ setup_fields_cuda S rnd f r F = Some F2 /\
    (forall p m x, F2 p m x = F1 p m x) /\
    (forall p info x q d, (0 <= p < patches_of (s_dm S) r)%Z -> get_local_patch_info (s_dm S) r p = Some info -> F1 p (comp q d) x = F p (comp q d) x + pick x (f (comp q d) (pos_of (pi_off info) x q d))) /\
    (forall p m x, ~ (0 <= p < patches_of (s_dm S) r)%Z \/ ~ (0 <= m < 9)%Z -> F1 p m x = F p m x).
  Proof.
    intros Hr. pose proof (infos r Hr) as HI.
    destruct (setup_patches_val S NR_FIELDS r (cpu_entries S rnd f) (zrange 0 (patches_of (s_dm S) r)) F (NoDup_zrange _ _)) as (F1 & E1 & A1 & B1).
    { intros p Hp. destruct (HI p Hp) as (info & EI & _). exists info. split; [exact EI|]. apply cpu_ok. apply in_zrange; exact Hp. }
    destruct (setup_patches_val S NR_FIELDS r (gpu_entries S rnd f) (zrange 0 (patches_of (s_dm S) r)) F (NoDup_zrange _ _)) as (F2 & E2 & A2 & B2).
    { intros p Hp. destruct (HI p Hp) as (info & EI & _). exists info. split; [exact EI|]. apply gpu_ok. apply in_zrange; exact Hp. }
    assert (CM : forall m, (0 <= m < 9)%Z -> exists q d, m = comp q d).
    { intros m Hm. exists (qty_of m), (dim_of m). assert (m = 0 \/ m = 1 \/ m = 2 \/ m = 3 \/ m = 4 \/ m = 5 \/ m = 6 \/ m = 7 \/ m = 8)%Z as K by lia. repeat destruct K as [-> | K]; try subst m; vm_compute; reflexivity. }
    exists F1, F2. split; [exact E1|]. split; [exact E2|]. split; [|split].
    - intros p m x. destruct (in_dec Z.eq_dec p (zrange 0 (patches_of (s_dm S) r))) as [Hp|Hp]; [|rewrite A1 || rewrite B1 by exact Hp; rewrite B2 by exact Hp; reflexivity].
      destruct (HI p Hp) as (info & EI & _). rewrite (A1 p info m x Hp EI), (A2 p info m x Hp EI). f_equal.
      assert ((0 <= m < 9)%Z \/ ~ (0 <= m < 9)%Z) as [Hm|Hm] by lia.
      + destruct (CM m Hm) as (q & d & ->). rewrite cpu_hits, gpu_hits. reflexivity.
      + rewrite cpu_other, gpu_other by exact Hm. reflexivity.
    - intros p info x q d Hp EI. rewrite (A1 p info _ x (proj2 (in_zrange _ _ _) Hp) EI), cpu_hits. reflexivity.
    - intros p m x [Hp|Hm].
      + apply B1. intros Hin. apply Hp. apply in_zrange; exact Hin.
      + destruct (in_dec Z.eq_dec p (zrange 0 (patches_of (s_dm S) r))) as [Hp|Hp]; [|apply B1; exact Hp].
        destruct (HI p Hp) as (info & EI & _). rewrite (A1 p info m x Hp EI), cpu_other by exact Hm. ring.
  Qed.

  Lemma scalar_val k n_comps f r F : k = at_NC \/ k = at_CC -> (0 < n_comps)%Z -> (0 <= r < s_size S)%Z -> exists F1, setup_scalar S rnd n_comps k f r F = Some F1 /\
    (forall p info x, (0 <= p < patches_of (s_dm S) r)%Z -> get_local_patch_info (s_dm S) r p = Some info ->
       F1 p 0%Z x = F p 0%Z x + pick x (f 0%Z (gen3 (fun e => match k with at_CC => get_cc S rnd (pi_off info) (get3 x e) e | _ => get_nc S rnd (pi_off info) (get3 x e) e end)))) /\
    (forall p m x, ~ (0 <= p < patches_of (s_dm S) r)%Z \/ m <> 0%Z -> F1 p m x = F p m x).
  Proof.
    intros Hk Hc Hr. pose proof (infos r Hr) as HI.
    destruct (setup_patches_val S n_comps r (scalar_entries S rnd k f) (zrange 0 (patches_of (s_dm S) r)) F (NoDup_zrange _ _)) as (F1 & E1 & A1 & B1).
    { intros p Hp. destruct (HI p Hp) as (info & EI & _). exists info. split; [exact EI|]. apply scalar_ok; [exact Hk|exact Hc|]. apply in_zrange; exact Hp. }
    exists F1. split; [exact E1|]. split.
    - intros p info x Hp EI. rewrite (A1 p info _ x (proj2 (in_zrange _ _ _) Hp) EI), scalar_hits by exact Hk. reflexivity.
    - intros p m x [Hp|Hm].
      + apply B1. intros Hin. apply Hp. apply in_zrange; exact Hin.
      + destruct (in_dec Z.eq_dec p (zrange 0 (patches_of (s_dm S) r))) as [Hp|Hp]; [|apply B1; exact Hp].
        destruct (HI p Hp) as (info & EI & _). rewrite (A1 p info m x Hp EI), scalar_other by exact Hm. ring.
  Qed.

  Lemma pick_in x v : stored_at S x -> pick x v = v.
  Proof. intros H. unfold pick. destruct (in_dec v3z_dec x (setup_points S rnd)) as [_|N]; [reflexivity|]. exfalso. apply N. apply (points_in x). exact H. Qed.
  Lemma pick_out x v : ~ stored_at S x -> pick x v = 0.
  Proof. intros H. unfold pick. destruct (in_dec v3z_dec x (setup_points S rnd)) as [I|_]; [|reflexivity]. exfalso. apply H. apply (points_in x). exact I. Qed.
End Domain.
