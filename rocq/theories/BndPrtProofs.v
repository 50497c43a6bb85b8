From Coq Require Import Reals Lra Psatz.
From Flocq Require Import Core.
From Verif Require Import Base Arr DomainSpec IndexerModel IndexerProofs BndPrtModel BndPrtSpec.
Local Open Scope R_scope.

(** ** the loop over the particles *)
Section Loop.
  Context {T : Type}.
  Variables (a : arith) (g : pgeom).
  Notation prt := (particle T).

  Definition one (p : prt) (f : fate T) : Prop := process_one a g p = Some f.
  Definition kept1 (f : fate T) : list prt := match f with Keep p => [p] | _ => [] end.
  Definition sent1 (i : Z) (f : fate T) : list prt := match f with Send dir p => if (i =? dir2idx dir)%Z then [p] else [] | _ => [] end.
  Definition kept (fs : list (fate T)) : list prt := flat_map kept1 fs.
  Definition sent (i : Z) (fs : list (fate T)) : list prt := flat_map (sent1 i) fs.

  Lemma aset_mid {A} (pre post : list A) x y : aset (pre ++ x :: post) (alen pre) y = Some (pre ++ y :: post).
  Proof.
    unfold aset, alen. destruct (Z.ltb_spec (Z.of_nat (length pre)) 0); [lia|]. rewrite Nat2Z.id.
    clear H. induction pre as [|z pre IH]; [reflexivity|]. cbn [length app nset]. rewrite IH. reflexivity.
  Qed.

  Lemma aget_mid {A} (pre post : list A) x : aget (pre ++ x :: post) (alen pre) = Some x.
  Proof. rewrite aget_app. destruct (Z.ltb_spec (alen pre) (alen pre)); [lia|]. rewrite Z.sub_diag. reflexivity. Qed.

  Lemma fold_none l : fold_left (process_step a g) l (@None (list prt * Z * (Z -> list prt))) = None.
  Proof. induction l; [reflexivity|]. exact IHl. Qed.

  Lemma loop : forall rest pre junk sends n, n = alen (pre ++ junk) ->
    (exists fs junk' sends', Forall2 one rest fs /\ (forall i, sends' i = sends i ++ sent i fs) /\
       fold_left (process_step a g) (zrange n (n + alen rest)) (Some (pre ++ junk ++ rest, alen pre, sends))
       = Some (pre ++ kept fs ++ junk', alen (pre ++ kept fs), sends'))
    \/ ((~ exists fs, Forall2 one rest fs) /\
        fold_left (process_step a g) (zrange n (n + alen rest)) (Some (pre ++ junk ++ rest, alen pre, sends)) = None).
  Proof.
    induction rest as [|p rest IH]; intros pre junk sends n Hn.
    - left. exists [], junk, sends. split; [constructor|]. split; [intros i; cbn; rewrite app_nil_r; reflexivity|].
      rewrite alen_nil, Z.add_0_r, zrange_empty by lia. cbn [fold_left kept flat_map app]. rewrite !app_nil_r. reflexivity.
    - rewrite alen_cons. pose proof (alen_nonneg rest) as HL. rewrite zrange_cons by lia. cbn [fold_left].
      replace (n + (1 + alen rest))%Z with (n + 1 + alen rest)%Z by lia.
      unfold process_step at 2 4. rewrite app_assoc, Hn, aget_mid, <- Hn.
      destruct (process_one a g p) as [[q|dir q|]|] eqn:E.
      + replace (aset ((pre ++ junk) ++ p :: rest) n q) with (Some ((pre ++ junk) ++ q :: rest)) by (rewrite Hn, aset_mid; reflexivity).
        destruct junk as [|j junk].
        * rewrite app_nil_r, aset_mid.
          destruct (IH (pre ++ [q]) [] sends (n + 1)%Z) as [[fs [junk' [sends' [HF [HS E']]]]]|[HN E']].
          { rewrite Hn, !app_nil_r, alen_app. reflexivity. }
          -- left. exists (Keep q :: fs), junk', sends'. split; [constructor; [exact E|exact HF]|]. split; [exact HS|].
             rewrite alen_app in E'. cbn [app] in E'. rewrite <- app_assoc in E'. cbn [app] in E'.
             replace (alen pre + alen [q])%Z with (alen pre + 1)%Z in E' by (rewrite alen_cons, alen_nil; lia). rewrite E'.
             cbn [kept flat_map kept1]. rewrite <- !app_assoc. reflexivity.
          -- right. split.
             { intros [fs HF]. inversion HF as [|? f ? fs' H1 H2]; subst. apply HN. exists fs'. exact H2. }
             rewrite alen_app in E'. cbn [app] in E'. rewrite <- app_assoc in E'. cbn [app] in E'.
             replace (alen pre + alen [q])%Z with (alen pre + 1)%Z in E' by (rewrite alen_cons, alen_nil; lia). exact E'.
        * rewrite <- app_assoc. cbn [app]. rewrite aset_mid.
          destruct (IH (pre ++ [q]) (junk ++ [q]) sends (n + 1)%Z) as [[fs [junk' [sends' [HF [HS E']]]]]|[HN E']].
          { rewrite Hn, !alen_app, !alen_cons, alen_nil. lia. }
          -- left. exists (Keep q :: fs), junk', sends'. split; [constructor; [exact E|exact HF]|]. split; [exact HS|].
             rewrite alen_app in E'. rewrite <- !app_assoc in E'. cbn [app] in E'.
             replace (alen pre + alen [q])%Z with (alen pre + 1)%Z in E' by (rewrite alen_cons, alen_nil; lia). rewrite E'.
             cbn [kept flat_map kept1]. rewrite <- !app_assoc. reflexivity.
          -- right. split.
             { intros [fs HF]. inversion HF as [|? f ? fs' H1 H2]; subst. apply HN. exists fs'. exact H2. }
             rewrite alen_app in E'. rewrite <- !app_assoc in E'. cbn [app] in E'.
             replace (alen pre + alen [q])%Z with (alen pre + 1)%Z in E' by (rewrite alen_cons, alen_nil; lia). exact E'.
      + replace (aset ((pre ++ junk) ++ p :: rest) n q) with (Some ((pre ++ junk) ++ q :: rest)) by (rewrite Hn, aset_mid; reflexivity).
        destruct (IH pre (junk ++ [q]) (push_back sends (dir2idx dir) q) (n + 1)%Z) as [[fs [junk' [sends' [HF [HS E']]]]]|[HN E']].
        { rewrite Hn, !alen_app, alen_cons, alen_nil. lia. }
        -- left. exists (Send dir q :: fs), junk', sends'. split; [constructor; [exact E|exact HF]|]. split.
           { intros i. rewrite HS. unfold push_back. cbn [sent flat_map sent1].
             destruct (Z.eqb_spec i (dir2idx dir)); [rewrite <- app_assoc; reflexivity|reflexivity]. }
           rewrite <- !app_assoc in E'. cbn [app] in E'. rewrite <- app_assoc. rewrite E'. reflexivity.
        -- right. split.
           { intros [fs HF]. inversion HF as [|? f ? fs' H1 H2]; subst. apply HN. exists fs'. exact H2. }
           rewrite <- !app_assoc in E'. cbn [app] in E'. rewrite <- app_assoc. exact E'.
      + destruct (IH pre (junk ++ [p]) sends (n + 1)%Z) as [[fs [junk' [sends' [HF [HS E']]]]]|[HN E']].
        { rewrite Hn, !alen_app, alen_cons, alen_nil. lia. }
        -- left. exists (Drop :: fs), junk', sends'. split; [constructor; [exact E|exact HF]|]. split; [exact HS|].
           rewrite <- !app_assoc in E'. cbn [app] in E'. rewrite <- app_assoc. rewrite E'. reflexivity.
        -- right. split.
           { intros [fs HF]. inversion HF as [|? f ? fs' H1 H2]; subst. apply HN. exists fs'. exact H2. }
           rewrite <- !app_assoc in E'. cbn [app] in E'. rewrite <- app_assoc. exact E'.
      + right. split; [|apply fold_none]. intros [fs HF]. inversion HF as [|? f ? fs' H1 H2]; subst. unfold one in H1. congruence.
  Qed.

  Lemma process_patch_fates buf :
    (exists fs sends, Forall2 one buf fs /\ (forall i, sends i = sent i fs) /\ process_patch a g buf = Some (kept fs, sends)) \/
    ((~ exists fs, Forall2 one buf fs) /\ process_patch a g buf = None).
  Proof.
    unfold process_patch. destruct (loop buf [] [] (fun _ => []) 0%Z eq_refl) as [[fs [junk' [sends' [HF [HS E]]]]]|[HN E]];
      cbn [app] in E; replace (0 + alen buf)%Z with (alen buf) in E by lia; change (@alen (particle T) []) with 0%Z in E; rewrite E.
    - left. exists fs, sends'. split; [exact HF|]. split; [exact HS|]. unfold alen. rewrite Nat2Z.id, firstn_app, Nat.sub_diag.
      rewrite firstn_all. cbn [firstn]. rewrite app_nil_r. reflexivity.
    - right. split; [exact HN|reflexivity].
  Qed.

  Lemma process_patch_some buf k s : process_patch a g buf = Some (k, s) ->
    exists fs, Forall2 one buf fs /\ k = kept fs /\ forall i, s i = sent i fs.
  Proof.
    intros H. destruct (process_patch_fates buf) as [[fs [s' [HF [HS E]]]]|[_ E]]; rewrite E in H; [|discriminate].
    injection H as <- <-. exists fs. split; [exact HF|]. split; [reflexivity|exact HS].
  Qed.
End Loop.

(** ** one particle *)
Section One.
  Context {T : Type}.
  Variables (a : arith) (g : pgeom).

  Lemma int_op_some x y : int_op x = Some y -> y = x.
  Proof. unfold int_op. destruct (is_int x); [|discriminate]. intros [= ->]. reflexivity. Qed.

  Lemma cell_position_some dxi x c : cell_position a dxi x = Some c -> c = cell_of a dxi x.
  Proof. apply int_op_some. Qed.

  Lemma cell_position3_some x pos : cell_position3 a g x = Some pos -> forall d, get3 pos d = cell_of a (get3 (pg_dxi g) d) (get3 x d) /\ (- 2 ^ 31 <= get3 pos d < 2 ^ 31)%Z.
  Proof.
    unfold cell_position3. destruct (cell_position a (c0 (pg_dxi g)) (c0 x)) as [i|] eqn:E0; [|discriminate].
    destruct (cell_position a (c1 (pg_dxi g)) (c1 x)) as [j|] eqn:E1; [|discriminate].
    destruct (cell_position a (c2 (pg_dxi g)) (c2 x)) as [k|] eqn:E2; [|discriminate]. intros [= <-] d.
    assert (B : forall dxi y c, cell_position a dxi y = Some c -> c = cell_of a dxi y /\ (- 2 ^ 31 <= c < 2 ^ 31)%Z).
    { intros dxi y c E. split; [apply cell_position_some; exact E|]. unfold cell_position, int_op, is_int in E.
      destruct (Z.leb_spec (- 2 ^ 31) (Zfloor (rnd a (y * dxi)))), (Z.ltb_spec (Zfloor (rnd a (y * dxi))) (2 ^ 31)); cbn in E; try discriminate.
      injection E as <-. lia. }
    destruct d; cbn [get3 c0 c1 c2]; apply B; assumption.
  Qed.

  (** the three directions do not influence each other *)
  Definition dir_of (pos : V3 Z) (x u : V3 R) (d : dim3) : option moved := bnd_dir a g d (get3 pos d) (get3 x d) (get3 u d).

  Lemma bnd_fold_some pos x u x' u' dir' drop :
    fold_left (bnd_step a g pos) dims3 (Some (x, u, v3 0 0 0, false)%Z) = Some (x', u', dir', drop) ->
    if drop then (exists d, dir_of pos x u d = Some Dropped)
    else forall d, exists y, dir_of pos x u d = Some (Moved y (get3 u' d) (get3 dir' d)) /\ bnd_check a (get3 (pg_ps g) d) y = Some (get3 x' d).
  Proof.
    unfold dims3, dir_of. cbn [fold_left bnd_step]. destruct x as [x0 x1 x2], u as [u0 u1 u2].
    cbn [get3 c0 c1 c2].
    destruct (bnd_dir a g D0 (c0 pos) x0 u0) as [[y0 w0 k0|]|] eqn:E0; [|
      |intros HH; discriminate HH].
    - destruct (bnd_check a (c0 (pg_ps g)) y0) as [z0|] eqn:K0; [|intros HH; discriminate HH]. cbn [bnd_step get3 set3 c0 c1 c2].
      destruct (bnd_dir a g D1 (c1 pos) x1 u1) as [[y1 w1 k1|]|] eqn:E1; [| |intros HH; discriminate HH].
      + destruct (bnd_check a (c1 (pg_ps g)) y1) as [z1|] eqn:K1; [|intros HH; discriminate HH]. cbn [bnd_step get3 set3 c0 c1 c2].
        destruct (bnd_dir a g D2 (c2 pos) x2 u2) as [[y2 w2 k2|]|] eqn:E2; [| |intros HH; discriminate HH].
        * destruct (bnd_check a (c2 (pg_ps g)) y2) as [z2|] eqn:K2; [|intros HH; discriminate HH]. intros [= <- <- <- <-] d.
          destruct d; cbn [get3 c0 c1 c2]; eexists; (split; [eassumption|]); assumption.
        * intros [= <- <- <- <-]. exists D2. exact E2.
      + cbn [bnd_step get3 set3 c0 c1 c2]. destruct (bnd_dir a g D2 (c2 pos) x2 u2) as [[y2 w2 k2|]|] eqn:E2; [| |intros HH; discriminate HH];
          intros [= <- <- <- <-]; exists D1; exact E1.
    - cbn [bnd_step get3 set3 c0 c1 c2].
      destruct (bnd_dir a g D1 (c1 pos) x1 u1) as [[y1 w1 k1|]|] eqn:E1; [| |intros HH; discriminate HH];
      cbn [bnd_step get3 set3 c0 c1 c2]; (destruct (bnd_dir a g D2 (c2 pos) x2 u2) as [[y2 w2 k2|]|] eqn:E2; [| |intros HH; discriminate HH]);
          intros [= <- <- <- <-]; exists D0; exact E0.
  Qed.

  Lemma bnd_fold_ok pos x u : (forall d, exists m, dir_of pos x u d = Some m /\
      match m with Moved y _ _ => bnd_check a (get3 (pg_ps g) d) y <> None | Dropped => True end) ->
    exists r, fold_left (bnd_step a g pos) dims3 (Some (x, u, v3 0 0 0, false)%Z) = Some r.
  Proof.
    intros H. destruct (H D0) as [m0 [E0 K0]], (H D1) as [m1 [E1 K1]], (H D2) as [m2 [E2 K2]].
    unfold dims3, dir_of in *. cbn [fold_left bnd_step]. destruct x as [x0 x1 x2], u as [u0 u1 u2]. cbn [get3 c0 c1 c2] in *.
    rewrite E0. destruct m0 as [y0 w0 k0|].
    - destruct (bnd_check a (c0 (pg_ps g)) y0) as [z0|]; [|congruence]. cbn [bnd_step get3 set3 c0 c1 c2]. rewrite E1. destruct m1 as [y1 w1 k1|].
      + destruct (bnd_check a (c1 (pg_ps g)) y1) as [z1|]; [|congruence]. cbn [bnd_step get3 set3 c0 c1 c2]. rewrite E2. destruct m2 as [y2 w2 k2|].
        * destruct (bnd_check a (c2 (pg_ps g)) y2) as [z2|]; [|congruence]. eexists; reflexivity.
        * eexists; reflexivity.
      + cbn [bnd_step get3 set3 c0 c1 c2]. rewrite E2. destruct m2; eexists; reflexivity.
    - cbn [bnd_step get3 set3 c0 c1 c2]. rewrite E1. destruct m1; cbn [bnd_step get3 set3 c0 c1 c2]; rewrite E2; destruct m2; eexists; reflexivity.
  Qed.

  Lemma bnd_dir_dropped d pos x u : bnd_dir a g d pos x u = Some Dropped <->
    ((pos < 0)%Z /\ get3 (pg_at_lo g) d = true /\ removing (get3 (pg_lo g) d)) \/
    ((0 <= pos)%Z /\ (get3 (pg_ld g) d <= pos)%Z /\ get3 (pg_at_hi g) d = true /\ removing (get3 (pg_hi g) d)).
  Proof.
    unfold bnd_dir, removing. destruct (Z.ltb_spec pos 0) as [N|N].
    - destruct (get3 (pg_at_lo g) d) eqn:A; cbn [negb orb].
      + destruct (get3 (pg_lo g) d) eqn:B; cbn [is_periodic].
        2: destruct (cell_position _ _ _); [destruct (Z.leb_spec (get3 (pg_ld g) d) z)|].
        all: split; [intros HH; first [discriminate HH|left; split; [exact N|]; split; [reflexivity|]; auto]
                    |intros [[_ [_ [X|X]]]|[X _]]; try discriminate X; try lia; reflexivity].
      + split.
        * destruct (cell_position _ _ _); [destruct (Z.leb_spec (get3 (pg_ld g) d) z)|]; discriminate.
        * intros [[_ [X _]]|[X _]]; [discriminate|lia].
    - destruct (Z.leb_spec (get3 (pg_ld g) d) pos) as [L|L].
      + destruct (get3 (pg_at_hi g) d) eqn:A; cbn [negb orb].
        * destruct (get3 (pg_hi g) d) eqn:B; cbn [is_periodic].
          1,2: destruct (cell_position _ _ _); [match goal with |- context [if ?b then _ else _] => destruct b end|].
          all: split; [intros HH; first [discriminate HH|right; split; [exact N|]; split; [exact L|]; split; [reflexivity|]; auto]
                    |intros [[X _]|[_ [_ [_ [X|X]]]]]; try discriminate X; try lia; reflexivity].
        * split.
          -- destruct (cell_position _ _ _); [match goal with |- context [if ?b then _ else _] => destruct b end|]; discriminate.
          -- intros [[X _]|[_ [_ [X _]]]]; [lia|discriminate].
      + split; [discriminate|]. intros [[X _]|[_ [X _]]]; lia.
  Qed.

  Lemma bnd_dir_range d pos x u y w k : bnd_dir a g d pos x u = Some (Moved y w k) -> (-1 <= k <= 1)%Z /\ (w = u \/ w = - u).
  Proof.
    unfold bnd_dir. destruct (Z.ltb_spec pos 0) as [N|N].
    - destruct (negb (get3 (pg_at_lo g) d) || is_periodic (get3 (pg_lo g) d)).
      + destruct (cell_position _ _ _) as [ci|]; [|discriminate]. destruct (Z.leb_spec (get3 (pg_ld g) d) ci); intros [= <- <- <-]; split; try lia; auto.
      + destruct (get3 (pg_lo g) d); try discriminate. intros [= <- <- <-]; split; try lia; auto.
    - destruct (Z.leb_spec (get3 (pg_ld g) d) pos) as [L|L].
      + destruct (negb (get3 (pg_at_hi g) d) || is_periodic (get3 (pg_hi g) d)).
        * destruct (cell_position _ _ _) as [ci|]; [|discriminate]. destruct (Z.ltb_spec ci 0); intros [= <- <- <-]; split; try lia; auto.
        * destruct (get3 (pg_hi g) d); try discriminate. destruct (cell_position _ _ _) as [ci|]; [|discriminate].
          intros [= <- <- <-]; split; try lia; auto.
      + intros [= <- <- <-]; split; try lia; auto.
  Qed.

  (** what becomes of a particle *)
  Inductive outcome (prt : particle T) : fate T -> Prop :=
  | out_fast pos : cell_position3 a g (p_x prt) = Some pos -> is_valid_cell_position (pg_ld g) pos = true -> outcome prt (Keep prt)
  | out_keep pos q cpos i : cell_position3 a g (p_x prt) = Some pos -> is_valid_cell_position (pg_ld g) pos = false ->
      (forall d, exists y, dir_of pos (p_x prt) (p_u prt) d = Some (Moved y (get3 (p_u q) d) 0) /\ bnd_check a (get3 (pg_ps g) d) y = Some (get3 (p_x q) d)) ->
      p_t q = p_t prt -> cell_position3 a g (p_x q) = Some cpos -> valid_cell_index (pg_ld g) cpos = Some i -> outcome prt (Keep q)
  | out_send pos q dir : cell_position3 a g (p_x prt) = Some pos -> is_valid_cell_position (pg_ld g) pos = false ->
      (forall d, exists y, dir_of pos (p_x prt) (p_u prt) d = Some (Moved y (get3 (p_u q) d) (get3 dir d)) /\ bnd_check a (get3 (pg_ps g) d) y = Some (get3 (p_x q) d)) ->
      p_t q = p_t prt -> (exists d, get3 dir d <> 0)%Z -> outcome prt (Send dir q)
  | out_drop pos d : cell_position3 a g (p_x prt) = Some pos -> is_valid_cell_position (pg_ld g) pos = false ->
      dir_of pos (p_x prt) (p_u prt) d = Some Dropped -> outcome prt Drop.

  Lemma process_one_outcome prt f : process_one a g prt = Some f -> outcome prt f.
  Proof.
    unfold process_one. destruct (cell_position3 a g (p_x prt)) as [pos|] eqn:EP; [|discriminate].
    destruct (is_valid_cell_position (pg_ld g) pos) eqn:EV.
    - intros [= <-]. eapply out_fast; eassumption.
    - destruct (fold_left (bnd_step a g pos) dims3 (Some (p_x prt, p_u prt, v3 0 0 0, false)%Z)) as [[[[x u] dir] drop]|] eqn:EF; [|discriminate].
      apply bnd_fold_some in EF. destruct drop.
      + intros [= <-]. destruct EF as [d Hd]. eapply out_drop; eassumption.
      + destruct ((c0 dir =? 0) && (c1 dir =? 0) && (c2 dir =? 0))%Z eqn:EZ.
        * destruct (cell_position3 a g x) as [cpos|] eqn:EC; [|discriminate].
          destruct (valid_cell_index (pg_ld g) cpos) as [i|] eqn:EI; [|discriminate]. intros [= <-].
          apply andb_true_iff in EZ. destruct EZ as [EZ E2]. apply andb_true_iff in EZ. destruct EZ as [E0 E1]. apply Z.eqb_eq in E0, E1, E2.
          apply (out_keep prt pos _ cpos i); cbn [p_x p_u p_t]; try assumption; try reflexivity.
          intros d. destruct (EF d) as [y [H1 H2]]. exists y. split; [|exact H2]. rewrite H1. f_equal. f_equal. destruct d; cbn [get3]; lia.
        * intros [= <-]. apply (out_send prt pos); cbn [p_x p_u p_t]; try assumption; try reflexivity.
          destruct (Z.eqb_spec (c0 dir) 0); [|exists D0; assumption]. destruct (Z.eqb_spec (c1 dir) 0); [|exists D1; assumption].
          destruct (Z.eqb_spec (c2 dir) 0); [discriminate EZ|exists D2; assumption].
  Qed.

  Lemma outcome_rest prt f : outcome prt f -> match f with Keep q | Send _ q => p_t q = p_t prt | Drop => True end.
  Proof. intros []; auto. Qed.

  Lemma dir2idx_range dir : (forall d, -1 <= get3 dir d <= 1)%Z -> (0 <= dir2idx dir < 27)%Z.
  Proof. intros H. pose proof (H D0). pose proof (H D1). pose proof (H D2). unfold dir2idx. cbn [get3] in *. lia. Qed.

  Lemma dir2idx_zero dir : (forall d, -1 <= get3 dir d <= 1)%Z -> dir2idx dir = 13%Z -> forall d, get3 dir d = 0%Z.
  Proof. intros H E. pose proof (H D0). pose proof (H D1). pose proof (H D2). unfold dir2idx in E. cbn [get3] in *. intros d; destruct d; cbn [get3]; lia. Qed.

  Lemma outcome_send_dir prt dir q : outcome prt (Send dir q) -> (forall d, -1 <= get3 dir d <= 1)%Z /\ exists d, (get3 dir d <> 0)%Z.
  Proof.
    intros H. inversion H as [| |pos q' dir' H1 H2 H3 H4 H5|]; subst. split; [|exact H5]. intros d. destruct (H3 d) as [y [E _]].
    unfold dir_of in E. apply bnd_dir_range in E. apply E.
  Qed.
End One.

Lemma sublist_nil {A} (m : list A) : sublist [] m.
Proof. induction m; constructor; assumption. Qed.

(** ** whole patch *)
Section Patch.
  Context {T : Type}.
  Variables (a : arith) (g : pgeom).

  Definition dropped1 (p : particle T) (f : fate T) : list (particle T) := match f with Drop => [p] | _ => [] end.
  Definition dropped (buf : list (particle T)) (fs : list (fate T)) : list (particle T) := flat_map (fun '(p, f) => dropped1 p f) (combine buf fs).

  Lemma flat_single {B} (l : list Z) (j : Z) (v : list B) : NoDup l -> In j l ->
    flat_map (fun i => if (i =? j)%Z then v else []) l = v.
  Proof.
    induction l as [|i l IH]; intros ND HI; [destruct HI|]. inversion ND as [|? ? N ND']; subst. cbn [flat_map].
    destruct HI as [->|HI].
    - rewrite Z.eqb_refl. replace (flat_map _ l) with (@nil B); [apply app_nil_r|]. symmetry. clear IH ND ND'.
      induction l as [|k l IH]; [reflexivity|]. cbn [flat_map]. destruct (Z.eqb_spec k j) as [->|]; [exfalso; apply N; now left|].
      apply IH. intros H. apply N. now right.
    - destruct (Z.eqb_spec i j) as [->|]; [contradiction|]. apply IH; assumption.
  Qed.

  Lemma flat_map_app_perm {A B} (f h : A -> list B) l : Permutation (flat_map (fun i => f i ++ h i) l) (flat_map f l ++ flat_map h l).
  Proof.
    induction l as [|i l IH]; [constructor|]. cbn [flat_map]. rewrite IH, <- !app_assoc. apply Permutation_app_head.
    rewrite !app_assoc. apply Permutation_app_tail. apply Permutation_app_comm.
  Qed.

  Lemma fates_conserve buf fs : Forall2 (one a g) buf fs ->
    Permutation (map p_t buf) (map p_t (kept fs) ++ flat_map (fun i => map p_t (sent i fs)) (zrange 0 27) ++ map p_t (dropped buf fs)).
  Proof.
    induction 1 as [|p f buf fs H HF IH]; [reflexivity|].
    pose proof (process_one_outcome a g p f H) as O. pose proof (outcome_rest a g p f O) as R.
    unfold kept, sent, dropped in *. cbn [map flat_map combine]. destruct f as [q|dir q|]; cbn [kept1 dropped1 app map].
    - rewrite R. constructor. exact IH.
    - destruct (outcome_send_dir a g p dir q O) as [HD _]. pose proof (dir2idx_range dir HD) as HI.
      rewrite IH. rewrite (Permutation_middle (map p_t (flat_map kept1 fs))). apply Permutation_app_head.
      transitivity (flat_map (fun i => (if (i =? dir2idx dir)%Z then [p_t p] else []) ++ map p_t (flat_map (sent1 i) fs)) (zrange 0 27) ++ map p_t (flat_map (fun '(p, f) => dropped1 p f) (combine buf fs))).
      { rewrite flat_map_app_perm, flat_single; [cbn [app]; constructor; apply Permutation_refl|apply NoDup_zrange|apply in_zrange; lia]. }
      apply Permutation_app_tail. match goal with |- Permutation ?x ?y => replace x with y; [apply Permutation_refl|] end.
      apply flat_map_ext. intros i. rewrite map_app. cbn [sent1]. destruct (i =? dir2idx dir)%Z; cbn [map]; rewrite ?R; reflexivity.
    - rewrite IH. rewrite !app_assoc. apply Permutation_middle.
  Qed.

  Lemma fates_sublist (buf : list (particle T)) fs (sel : fate T -> list (particle T)) : Forall2 (one a g) buf fs ->
    (forall f, match sel f with [] => True | [q] => f = Keep q \/ exists dir, f = Send dir q | _ => False end) ->
    sublist (map p_t (flat_map sel fs)) (map p_t buf).
  Proof.
    intros HF Hsel. induction HF as [|p f buf fs H HF IH]; [constructor|]. cbn [flat_map map]. rewrite map_app.
    pose proof (outcome_rest a g p f (process_one_outcome a g p f H)) as R. specialize (Hsel f).
    destruct (sel f) as [|q [|]]; [|destruct Hsel as [->|[dir ->]]|contradiction]; cbn [map app].
    - apply sub_skip. exact IH.
    - rewrite R. apply sub_cons. exact IH.
    - rewrite R. apply sub_cons. exact IH.
  Qed.

  Lemma dropped_sublist buf fs : length fs = length buf -> sublist (dropped buf fs) buf.
  Proof.
    unfold dropped. revert fs. induction buf as [|p buf IH]; intros [|f fs] H; try discriminate; [constructor|]. cbn [combine flat_map].
    specialize (IH fs ltac:(cbn in H; lia)). destruct f; cbn [dropped1 app]; [apply sub_skip|apply sub_skip|apply sub_cons]; exact IH.
  Qed.
End Patch.

Section Wf.
  Context {T : Type}.
  Variables (a : arith) (g : pgeom).
  Hypothesis WF : wf_geom g.

  Lemma valid_iff pos : (forall d, - 2 ^ 31 <= get3 pos d < 2 ^ 31)%Z -> is_valid_cell_position (pg_ld g) pos = true <-> forall d, (0 <= get3 pos d < get3 (pg_ld g) d)%Z.
  Proof. destruct WF as [H1 H2]. intros H. apply valid_pos_iff; [exact H1|exact H2|exact H]. Qed.

  Lemma valid_index cpos : (forall d, 0 <= get3 cpos d < get3 (pg_ld g) d)%Z -> exists i, valid_cell_index (pg_ld g) cpos = Some i.
  Proof.
    destruct WF as [H1 H2]. intros H. destruct (cell_index_full (pg_ld g) H1 H2) as [_ [_ [F _]]].
    destruct (F cpos H) as [i [_ [_ [_ E]]]]. exists i. exact E.
  Qed.

  (** exactly the particles beyond open or absorbing sides are dropped *)
  Lemma dropped_iff (prt : particle T) f : process_one a g prt = Some f -> f = Drop <-> beyond_open a g (p_x prt).
  Proof.
    intros H. pose proof (process_one_outcome a g prt f H) as O.
    assert (Q : forall pos d m, cell_position3 a g (p_x prt) = Some pos -> dir_of a g pos (p_x prt) (p_u prt) d = Some m -> m <> Dropped ->
      ~ (((cell_of a (get3 (pg_dxi g) d) (get3 (p_x prt) d) < 0)%Z /\ get3 (pg_at_lo g) d = true /\ removing (get3 (pg_lo g) d)) \/
         ((get3 (pg_ld g) d <= cell_of a (get3 (pg_dxi g) d) (get3 (p_x prt) d))%Z /\ get3 (pg_at_hi g) d = true /\ removing (get3 (pg_hi g) d)))).
    { intros pos d m EP E N HB. apply N. destruct (cell_position3_some a g _ _ EP d) as [EC _]. unfold dir_of in E.
      assert (E' : bnd_dir a g d (get3 pos d) (get3 (p_x prt) d) (get3 (p_u prt) d) = Some Dropped); [|congruence].
      apply bnd_dir_dropped. rewrite EC. destruct WF as [WF1 _]. specialize (WF1 d). destruct HB as [HB|[H1 H2]]; [left; exact HB|]. right.
      split; [lia|]. split; [exact H1|exact H2]. }
    destruct O as [pos EP EV|pos q cpos i EP EV HD ET EC EI|pos q dir EP EV HD ET ED|pos d EP EV HD].
    - split; [discriminate|]. intros [d HB]. exfalso. assert (C := cell_position3_some a g _ _ EP).
      pose proof (proj1 (valid_iff pos (fun e => proj2 (C e))) EV d) as EV'. destruct (C d) as [EC _]. rewrite EC in EV'. destruct HB as [[X _]|[X _]]; lia.
    - split; [discriminate|]. intros [d HB]. exfalso. destruct (HD d) as [y [E _]]. exact (Q pos d _ EP E ltac:(discriminate) HB).
    - split; [discriminate|]. intros [d HB]. exfalso. destruct (HD d) as [y [E _]]. exact (Q pos d _ EP E ltac:(discriminate) HB).
    - split; [intros _|reflexivity]. exists d. unfold dir_of in HD. apply bnd_dir_dropped in HD. destruct (cell_position3_some a g _ _ EP d) as [EC _].
      rewrite EC in HD. destruct HD as [HD|[_ HD]]; [left|right]; exact HD.
  Qed.
End Wf.
