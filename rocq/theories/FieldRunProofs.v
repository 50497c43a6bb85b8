From Coq Require Import Reals Lra Psatz.
From Verif Require Import Base DomainSpec FieldModel FieldSpec FieldProofs.
Local Open Scope R_scope.

(** ** From patches to the whole domain *)

Definition gpush_E (g : fgrid) (c : R) (G : pf) : pf := fun q d x =>
  match q with
  | QE => G QE d x + dth g c * (curl_minus (invar g) (dx g) (G QH) d x - G QJ d x)
  | _ => G q d x
  end.
Definition gpush_H (g : fgrid) (c : R) (G : pf) : pf := fun q d x =>
  match q with
  | QH => G QH d x + - (dth g c * curl_plus (invar g) (dx g) (G QE) d x)
  | _ => G q d x
  end.

Lemma vadd_shift a i d s : vadd a (shift i d s) = shift (vadd a i) d s.
Proof. apply v3_ext. intros e. unfold vadd. rewrite get3_gen3, !get3_shift, get3_gen3. destruct (dim3_eqb d e); lia. Qed.

Lemma in_box_stored g i : wf_grid g -> in_box (ldims g) i -> stored g i.
Proof.
  intros W H. apply in_box_within in H; [|exact W]. apply (within_stored g 0 0); [exact W|lia|lia|exact H].
Qed.

Lemma in_box_shift_stored g i d s : wf_grid g -> in_box (ldims g) i -> get3 (invar g) d = false -> (-1 <= s <= 1)%Z ->
  within g 1 1 (shift i d s).
Proof. intros W H Hd Hs. apply in_box_within in H; [|exact W]. apply (within_shift g 0 0); assumption. Qed.

Lemma holds_vw g np mf G pi q d i e s : wf_grid g -> holds g np mf G -> in_box np pi -> in_box (ldims g) i ->
  get3 (invar g) e = false -> (-1 <= s <= 1)%Z ->
  vw g (mf pi) q d (shift i e s) = G q d (shift (vadd (off g pi) i) e s).
Proof.
  intros W H Hp Hi He Hs. unfold vw. pose proof (in_box_shift_stored g i e s W Hi He Hs) as Hw.
  rewrite (fnorm_id g 1 1) by exact Hw. rewrite <- vadd_shift. apply H; [exact Hp|].
  apply (within_stored g 1 1); [exact W|lia|lia|exact Hw].
Qed.

Lemma holds_vw0 g np mf G pi q d i : wf_grid g -> holds g np mf G -> in_box np pi -> in_box (ldims g) i ->
  vw g (mf pi) q d i = G q d (vadd (off g pi) i).
Proof.
  intros W H Hp Hi. unfold vw. rewrite (fnorm_id g 0 0) by (apply in_box_within; assumption).
  apply H; [exact Hp|apply in_box_stored; assumption].
Qed.

Lemma holds_dplus g np mf G pi q d e i : wf_grid g -> holds g np mf G -> in_box np pi -> in_box (ldims g) i ->
  dplus (invar g) (dx g) e (vw g (mf pi) q d) i = dplus (invar g) (dx g) e (G q d) (vadd (off g pi) i).
Proof.
  intros W H Hp Hi. unfold dplus. destruct (get3 (invar g) e) eqn:E; [reflexivity|].
  rewrite (holds_vw g np mf G), (holds_vw0 g np mf G) by (assumption || lia). reflexivity.
Qed.
Lemma holds_dminus g np mf G pi q d e i : wf_grid g -> holds g np mf G -> in_box np pi -> in_box (ldims g) i ->
  dminus (invar g) (dx g) e (vw g (mf pi) q d) i = dminus (invar g) (dx g) e (G q d) (vadd (off g pi) i).
Proof.
  intros W H Hp Hi. unfold dminus. destruct (get3 (invar g) e) eqn:E; [reflexivity|].
  rewrite (holds_vw g np mf G), (holds_vw0 g np mf G) by (assumption || lia). reflexivity.
Qed.

Lemma holds_push_E g np mf G c : wf_grid g -> holds g np mf G -> holds_in g np (fun pi => push_E g c (mf pi)) (gpush_E g c G).
Proof.
  intros W H pi q d i Hp Hi. pose proof (proj1 (in_box_within g i W) Hi) as Hw.
  destruct q; cbn [gpush_E].
  - rewrite push_E_other by (try exact W; left; discriminate). apply H; [exact Hp|apply in_box_stored; assumption].
  - rewrite push_E_in; [|exact W|apply (within_mono g 0 0); [lia|lia|exact Hw]].
    unfold deltaE, curl_minus. rewrite !(holds_dminus g np mf G) by assumption. rewrite (holds_vw0 g np mf G) by assumption.
    rewrite (H pi QE d i Hp) by (apply in_box_stored; assumption). reflexivity.
  - rewrite push_E_other by (try exact W; left; discriminate). apply H; [exact Hp|apply in_box_stored; assumption].
Qed.

Lemma holds_push_H g np mf G c : wf_grid g -> holds g np mf G -> holds_in g np (fun pi => push_H g c (mf pi)) (gpush_H g c G).
Proof.
  intros W H pi q d i Hp Hi. pose proof (proj1 (in_box_within g i W) Hi) as Hw.
  destruct q; cbn [gpush_H].
  - rewrite push_H_other by (try exact W; left; discriminate). apply H; [exact Hp|apply in_box_stored; assumption].
  - rewrite push_H_other by (try exact W; left; discriminate). apply H; [exact Hp|apply in_box_stored; assumption].
  - rewrite push_H_in; [|exact W|apply (within_mono g 0 0); [lia|lia|exact Hw]].
    unfold deltaH, curl_plus. rewrite !(holds_dplus g np mf G) by assumption.
    rewrite (H pi QH d i Hp) by (apply in_box_stored; assumption). reflexivity.
Qed.

(** ** The patches cover the domain *)

Lemma periodic_mul g np G : periodic g np G -> forall n q d i e, G q d (shift i e (n * (get3 np e * get3 (ldims g) e))%Z) = G q d i.
Proof.
  intros HP. assert (Hpos : forall n q d i e, (0 <= n)%Z -> G q d (shift i e (n * (get3 np e * get3 (ldims g) e))%Z) = G q d i).
  { intros n q d i e Hn. revert i. pattern n. apply natlike_ind; [| |exact Hn].
    - intros i. rewrite Z.mul_0_l. f_equal. apply v3_ext. intros x. rewrite get3_shift. destruct (dim3_eqb e x); lia.
    - intros m Hm IH i. rewrite <- (HP q d i e), <- (IH (shift i e (get3 np e * get3 (ldims g) e)%Z)). f_equal.
      apply v3_ext. intros x. rewrite !get3_shift. destruct (dim3_eqb e x); lia. }
  intros n q d i e. destruct (Z_le_gt_dec 0 n) as [Hn|Hn]; [apply Hpos; exact Hn|].
  rewrite <- (Hpos (- n)%Z q d (shift i e (n * (get3 np e * get3 (ldims g) e))%Z) e ltac:(lia)). f_equal.
  apply shift_back. lia.
Qed.

Definition wrap (n x : V3 Z) : V3 Z := gen3 (fun e => get3 x e mod get3 n e)%Z.

Lemma periodic_wrap g np G : wf_grid g -> wf_np g np -> periodic g np G -> forall q d x, G q d (wrap (gdims g np) x) = G q d x.
Proof.
  intros W Wn HP q d x.
  assert (Hg : forall e, (0 < get3 np e * get3 (ldims g) e)%Z).
  { intros e. destruct (W e) as [A _]. destruct (Wn e) as [B _]. apply Z.mul_pos_pos; assumption. }
  rewrite <- (periodic_mul g np G HP (- (c0 x / (c0 np * c0 (ldims g)))) q d x D0).
  rewrite <- (periodic_mul g np G HP (- (c1 x / (c1 np * c1 (ldims g)))) q d (shift x D0 _) D1).
  rewrite <- (periodic_mul g np G HP (- (c2 x / (c2 np * c2 (ldims g)))) q d (shift (shift x D0 _) D1 _) D2).
  f_equal. apply v3_ext. intros e. unfold wrap, gdims. rewrite get3_gen3, get3_gen3, !get3_shift.
  pose proof (Hg e). rewrite Z.mod_eq by lia. destruct e; cbn [dim3_eqb get3]; lia.
Qed.

Lemma covered g np x : wf_grid g -> wf_np g np ->
  exists pi i, in_box np pi /\ in_box (ldims g) i /\ vadd (off g pi) i = wrap (gdims g np) x.
Proof.
  intros W Wn. set (y := wrap (gdims g np) x).
  exists (gen3 (fun e => get3 y e / get3 (ldims g) e)%Z), (gen3 (fun e => get3 y e mod get3 (ldims g) e)%Z).
  assert (Hy : forall e, (0 <= get3 y e < get3 np e * get3 (ldims g) e)%Z).
  { intros e. unfold y, wrap, gdims. rewrite !get3_gen3. apply Z.mod_pos_bound. destruct (W e) as [A _]. destruct (Wn e) as [B _].
    apply Z.mul_pos_pos; assumption. }
  split; [|split].
  - intros e. rewrite get3_gen3. destruct (W e) as [A _]. specialize (Hy e). split; [apply Z.div_pos; lia|].
    apply Z.div_lt_upper_bound; [exact A|]. rewrite Z.mul_comm. lia.
  - intros e. rewrite get3_gen3. destruct (W e) as [A _]. apply Z.mod_pos_bound. exact A.
  - apply v3_ext. intros e. unfold vadd, off. rewrite !get3_gen3. destruct (W e) as [A _].
    pose proof (Z.div_mod (get3 y e) (get3 (ldims g) e) ltac:(lia)) as Hd. clear Hy. set (q := (get3 y e / get3 (ldims g) e)%Z) in *.
    set (r := (get3 y e mod get3 (ldims g) e)%Z) in *. clearbody q r. lia.
Qed.

Lemma pinned g np mf G G' q d : wf_grid g -> wf_np g np -> periodic g np G -> periodic g np G' ->
  (forall pi i, in_box np pi -> in_box (ldims g) i -> mf pi q d i = G q d (vadd (off g pi) i)) ->
  (forall pi i, in_box np pi -> in_box (ldims g) i -> mf pi q d i = G' q d (vadd (off g pi) i)) ->
  forall x, G q d x = G' q d x.
Proof.
  intros W Wn HP HP' H H' x. rewrite <- (periodic_wrap g np G W Wn HP), <- (periodic_wrap g np G' W Wn HP').
  destruct (covered g np x W Wn) as [pi [i [Hp [Hi <-]]]]. rewrite <- H, <- H' by assumption. reflexivity.
Qed.

Lemma shift_comm i d s e t : shift (shift i d s) e t = shift (shift i e t) d s.
Proof. apply v3_ext. intros x. rewrite !get3_shift. destruct (dim3_eqb d x), (dim3_eqb e x); lia. Qed.

Lemma periodic_gpush_E g np G c : periodic g np G -> periodic g np (gpush_E g c G).
Proof.
  intros HP q d i e. destruct q; cbn [gpush_E]; rewrite HP; [reflexivity| |reflexivity].
  unfold curl_minus, dminus. rewrite !(shift_comm i e _ _ (-1)), !HP. reflexivity.
Qed.
Lemma periodic_gpush_H g np G c : periodic g np G -> periodic g np (gpush_H g c G).
Proof.
  intros HP q d i e. destruct q; cbn [gpush_H]; rewrite HP; [reflexivity|reflexivity|].
  unfold curl_plus, dplus. rewrite !(shift_comm i e _ _ 1), !HP. reflexivity.
Qed.

Lemma refreshed_H g np mf c mf' G G' : wf_grid g -> wf_np g np -> periodic g np G -> holds g np mf G ->
  refreshed g np (fun pi => push_H g c (mf pi)) mf' -> periodic g np G' -> holds g np mf' G' ->
  forall q d x, G' q d x = gpush_H g c G q d x.
Proof.
  intros W Wn HP H [Hr _] HP' H' q d x.
  apply (pinned g np mf'); try assumption; [apply periodic_gpush_H; exact HP| |].
  - intros pi i Hp Hi. apply H'; [exact Hp|apply in_box_stored; assumption].
  - intros pi i Hp Hi. rewrite Hr by assumption. apply (holds_push_H g np mf G c); assumption.
Qed.
Lemma refreshed_E g np mf c mf' G G' : wf_grid g -> wf_np g np -> periodic g np G -> holds g np mf G ->
  refreshed g np (fun pi => push_E g c (mf pi)) mf' -> periodic g np G' -> holds g np mf' G' ->
  forall q d x, G' q d x = gpush_E g c G q d x.
Proof.
  intros W Wn HP H [Hr _] HP' H' q d x.
  apply (pinned g np mf'); try assumption; [apply periodic_gpush_E; exact HP| |].
  - intros pi i Hp Hi. apply H'; [exact Hp|apply in_box_stored; assumption].
  - intros pi i Hp Hi. rewrite Hr by assumption. apply (holds_push_E g np mf G c); assumption.
Qed.

(** ** Divergence of H along a run *)

Lemma holds_div_plus g np mf G pi q i : wf_grid g -> holds g np mf G -> in_box np pi -> in_box (ldims g) i ->
  div_plus (invar g) (dx g) (mf pi q) i = div_plus (invar g) (dx g) (G q) (vadd (off g pi) i).
Proof.
  intros W H Hp Hi. unfold div_plus. rewrite <- !(holds_dplus g np mf G) by assumption.
  assert (E : forall d, dplus (invar g) (dx g) d (mf pi q d) i = dplus (invar g) (dx g) d (vw g (mf pi) q d) i).
  { intros d. unfold dplus, vw. destruct (get3 (invar g) d) eqn:E; [reflexivity|].
    rewrite (fnorm_id g 1 1 (shift i d _)) by (apply in_box_shift_stored; assumption || lia).
    rewrite (fnorm_id g 0 0 i) by (apply in_box_within; assumption). reflexivity. }
  rewrite !E. reflexivity.
Qed.
Lemma holds_div_minus g np mf G pi q i : wf_grid g -> holds g np mf G -> in_box np pi -> in_box (ldims g) i ->
  div_minus (invar g) (dx g) (mf pi q) i = div_minus (invar g) (dx g) (G q) (vadd (off g pi) i).
Proof.
  intros W H Hp Hi. unfold div_minus. rewrite <- !(holds_dminus g np mf G) by assumption.
  assert (E : forall d, dminus (invar g) (dx g) d (mf pi q d) i = dminus (invar g) (dx g) d (vw g (mf pi) q d) i).
  { intros d. unfold dminus, vw. destruct (get3 (invar g) d) eqn:E; [reflexivity|].
    rewrite (fnorm_id g 1 1 (shift i d _)) by (apply in_box_shift_stored; assumption || lia).
    rewrite (fnorm_id g 0 0 i) by (apply in_box_within; assumption). reflexivity. }
  rewrite !E. reflexivity.
Qed.

Lemma gpush_H_div g c G x : wf_grid g -> div_plus (invar g) (dx g) (gpush_H g c G QH) x = div_plus (invar g) (dx g) (G QH) x.
Proof.
  intros W. pose proof (wf_dx g W) as Hh.
  rewrite (div_plus_local _ _ _ (fun d j => 1 * G QH d j + - dth g c * curl_plus (invar g) (dx g) (G QE) d j));
    [|intros; cbn [gpush_H]; ring|intros; cbn [gpush_H]; ring].
  rewrite div_plus_lin, div_curl_plus by exact Hh. ring.
Qed.

Lemma gpush_E_div g c G x : wf_grid g ->
  div_minus (invar g) (dx g) (gpush_E g c G QE) x =
  div_minus (invar g) (dx g) (G QE) x - dth g c * div_minus (invar g) (dx g) (G QJ) x.
Proof.
  intros W. pose proof (wf_dx g W) as Hh.
  rewrite (div_minus_local _ _ _ (fun d j => 1 * G QE d j + dth g c * (1 * curl_minus (invar g) (dx g) (G QH) d j + -1 * G QJ d j)));
    [|intros; cbn [gpush_E]; ring|intros; cbn [gpush_E]; ring].
  rewrite div_minus_lin by exact Hh. rewrite (div_minus_lin _ _ 1 (-1)), div_curl_minus by exact Hh. ring.
Qed.

Lemma run_H_div g np mf mf' : wf_grid g -> wf_np g np -> consistent g np mf -> run_H g np mf mf' ->
  consistent g np mf' /\ forall pi i, in_box np pi -> in_box (ldims g) i ->
    div_plus (invar g) (dx g) (mf' pi QH) i = div_plus (invar g) (dx g) (mf pi QH) i.
Proof.
  intros W Wn Hc Hr. induction Hr as [mf|c mf mf1 mf2 _ IH Hf|mf mf1 mf2 _ IH Hc2 Hsame]; [auto| |];
    destruct (IH Hc) as [[G1 [P1 H1]] D1].
  - pose proof Hf as [_ [G2 [P2 H2]]]. split; [exists G2; auto|]. intros pi i Hp Hi. rewrite <- D1 by assumption.
    rewrite (holds_div_plus g np mf2 G2), (holds_div_plus g np mf1 G1) by assumption.
    pose proof (refreshed_H g np mf1 c mf2 G1 G2 W Wn P1 H1 Hf P2 H2) as E.
    rewrite (div_plus_local _ _ (G2 QH) (gpush_H g c G1 QH)) by (intros; apply E). apply gpush_H_div. exact W.
  - split; [exact Hc2|]. intros pi i Hp Hi. rewrite <- D1 by assumption. apply div_plus_local.
    + intros d. apply Hsame; [exact Hp|apply in_box_stored; assumption].
    + intros d Hd. apply Hsame; [exact Hp|]. apply (within_stored g 1 1); [exact W|lia|lia|]. apply in_box_shift_stored; assumption || lia.
Qed.

Lemma run_gauss_div g np s s' : wf_grid g -> wf_np g np -> consistent g np (fst s) -> run_gauss g np s s' ->
  consistent g np (fst s') /\ forall pi i, in_box np pi -> in_box (ldims g) i ->
    div_minus (invar g) (dx g) (fst s' pi QE) i - snd s' pi i = div_minus (invar g) (dx g) (fst s pi QE) i - snd s pi i.
Proof.
  intros W Wn Hc Hr. induction Hr as [s|c s mf1 rho1 mf2 rho2 _ IH Hf Hrho|s mf1 rho1 mf2 _ IH Hc2 Hsame]; [auto| |];
    destruct (IH Hc) as [[G1 [P1 H1]] D1]; cbn [fst snd] in *.
  - pose proof Hf as [_ [G2 [P2 H2]]]. split; [exists G2; auto|]. intros pi i Hp Hi. rewrite <- D1 by assumption.
    specialize (Hrho pi i Hp Hi).
    rewrite (holds_div_minus g np mf2 G2), (holds_div_minus g np mf1 G1) by assumption.
    rewrite (holds_div_minus g np mf1 G1 pi QJ) in Hrho by assumption.
    pose proof (refreshed_E g np mf1 c mf2 G1 G2 W Wn P1 H1 Hf P2 H2) as E.
    rewrite (div_minus_local _ _ (G2 QE) (gpush_E g c G1 QE)) by (intros; apply E). rewrite gpush_E_div by exact W.
    unfold dth. set (a := div_minus _ _ (G1 QJ) _) in *. set (b := div_minus _ _ (G1 QE) _). nra.
  - split; [exact Hc2|]. intros pi i Hp Hi. rewrite <- D1 by assumption. f_equal. apply div_minus_local.
    + intros d. apply Hsame; [exact Hp|apply in_box_stored; assumption].
    + intros d Hd. apply Hsame; [exact Hp|]. apply (within_stored g 1 1); [exact W|lia|lia|]. apply in_box_shift_stored; assumption || lia.
Qed.

(** ** The hypotheses can be met: patches cut out of any periodic field *)

Definition cut (g : fgrid) (G : pf) (pi : V3 Z) : pf := fun q d i => G q d (vadd (off g pi) i).

Lemma cut_holds g np G : holds g np (cut g G) G.
Proof. intros pi q d i _ _. reflexivity. Qed.

Lemma cut_consistent g np G : periodic g np G -> consistent g np (cut g G).
Proof. intros P. exists G. split; [exact P|apply cut_holds]. Qed.

Lemma cut_push_H g np G c : wf_grid g -> periodic g np G -> refreshed g np (fun pi => push_H g c (cut g G pi)) (cut g (gpush_H g c G)).
Proof.
  intros W P. split.
  - intros pi q d i Hp Hi. symmetry. apply (holds_push_H g np (cut g G) G c W (cut_holds g np G)); assumption.
  - apply cut_consistent. apply periodic_gpush_H. exact P.
Qed.

Lemma cut_push_E g np G c : wf_grid g -> periodic g np G -> refreshed g np (fun pi => push_E g c (cut g G pi)) (cut g (gpush_E g c G)).
Proof.
  intros W P. split.
  - intros pi q d i Hp Hi. symmetry. apply (holds_push_E g np (cut g G) G c W (cut_holds g np G)); assumption.
  - apply cut_consistent. apply periodic_gpush_E. exact P.
Qed.
