(** * GeoE: moving the mesh and changing units: examples (C55, C56) *)

From Coq Require Import QArith Qcanon.
From Verif Require Import Lib Spec Main SpecFeat SpecGeo Inst ApiE FeatE GeoU GeoW.
#[local] Open Scope Z_scope.
#[local] Open Scope nat_scope.
#[local] Existing Instance qarith | 100.
#[local] Existing Instance ord_id | 100.

Definition with_ar (ar : Z) (i : @input qarith) : @input qarith :=
  @Input qarith (in_row i) (in_col i) (in_val i) (in_vol i) (in_cen i) (in_prio i) (in_compl i) (in_bnd i) (in_build i) (in_aniso i)
    (in_odd i) (in_thr i) (in_order i) (in_corr i) (in_dim i) (in_goal i) (in_min i) (in_max i) ar (in_sing i)
    (in_maxline i) (in_coupling i) (in_force i) (in_iter i) (in_nbh i).

(** ** Laws *)
Lemma q_mul (k a b : Qc) : (0 < k)%Qc → (k * a < k * b)%Qc ↔ (a < b)%Qc.
Proof.
  intros Hk. split; intros Hl.
  - apply Qcnot_le_lt. intros Hle. apply (Qcle_not_lt (k * b) (k * a)); [|done].
    rewrite !(Qcmult_comm k). apply Qcmult_le_compat_r; [done|]. by apply Qclt_le_weak.
  - rewrite !(Qcmult_comm k). by apply Qcmult_lt_compat_r.
Qed.
Lemma q_inv_pos (a : Qc) : (0 < a)%Qc → (0 < / a)%Qc.
Proof.
  intros Ha. apply (q_mul a); [done|]. rewrite Qcmult_inv_r by (intros ->; by apply Qclt_not_eq in Ha).
  rewrite Qcmult_0_r. reflexivity.
Qed.
Lemma q_above (a : Qc) : @above0 qarith a ↔ (0 < a)%Qc.
Proof. exact (qlt_iff (qc 0 1) a). Qed.
Lemma q_field : @exact_field qarith.
Proof.
  split.
  - exact q_exact.
  - intros a b. change (a / b = a * (1 / b))%Qc. unfold Qcdiv. ring.
  - intros a b. change (1 / (a * b) = (1 / a) * (1 / b))%Qc. unfold Qcdiv. rewrite Qcinv_mult_distr. ring.
  - intros a Ha%q_above. change (a * (1 / a) = 1)%Qc. field. intros ->. by apply Qclt_not_eq in Ha.
  - intros a Ha%q_above. apply q_above. change (0 < 1 / a)%Qc. unfold Qcdiv. rewrite Qcmult_1_l. by apply q_inv_pos.
  - intros k a b Hk%q_above. change (qlt (k * a) (k * b) = qlt a b)%Qc. pose proof (q_mul k a b Hk) as Hm.
    destruct (qlt a b) eqn:E.
    + apply qlt_iff. apply Hm. by apply qlt_iff.
    + destruct (qlt (k * a) (k * b)) eqn:E'; [|done]. apply qlt_iff, Hm, qlt_iff in E'. congruence.
Qed.

(** ** Checking hypotheses by computation *)
Definition all2 {X} (f : nat → nat → X → X → bool) (l : list X) : bool :=
  forallb (λ p, forallb (λ q, f p.1 q.1 p.2 q.2) (imap pair l)) (imap pair l).
Lemma all2_ok {X} (f : nat → nat → X → X → bool) l x y a b :
  all2 f l = true → l !! x = Some a → l !! y = Some b → f x y a b = true.
Proof.
  unfold all2. rewrite forallb_forall. intros Hf Hx Hy.
  assert (∀ z c, l !! z = Some c → In (z, c) (imap pair l)) as Hz.
  { intros z c Hc. apply elem_of_list_In, elem_of_list_lookup. exists z. by rewrite list_lookup_imap, Hc. }
  specialize (Hf _ (Hz _ _ Hx)). rewrite forallb_forall in Hf. exact (Hf _ (Hz _ _ Hy)).
Qed.
Definition in_range_check (cen : list (list W)) : bool :=
  all2 (λ x y a b, bool_decide (x = y) || (wlt wminv (dist2 a b) && wlt (dist2 a b) wmaxv)) cen.
Lemma in_range_ok (cen : list (list W)) : in_range_check cen = true → in_range cen.
Proof.
  intros Hc x y a b Hxy Ha Hb. pose proof (all2_ok _ _ _ _ _ _ Hc Ha Hb) as Hf. simpl in Hf.
  apply orb_true_iff in Hf as [Hf%bool_decide_eq_true|Hf%andb_true_iff]; [done|exact Hf].
Qed.
Lemma weights_below_ok (val : list W) : forallb (λ w, wlt w wmaxv) val = true → weights_below val.
Proof. rewrite forallb_forall. intros Hf w Hw%elem_of_list_In. exact (Hf _ Hw). Qed.
Definition shape_check (cen cen' : list (list W)) : bool := bool_decide (map length cen' = map length cen).
Lemma shape_ok (cen cen' : list (list W)) : shape_check cen cen' = true → same_shape cen cen'.
Proof.
  intros Hc%bool_decide_eq_true. split.
  - by rewrite <- (map_length length cen'), Hc, map_length.
  - intros x c c' Hx Hx'. assert (map length cen' !! x = Some (length c')) as H1 by by rewrite list_lookup_fmap, Hx'.
    rewrite Hc, list_lookup_fmap, Hx in H1. simpl in H1. by injection H1.
Qed.
Definition dist_check (cen cen' : list (list W)) : bool :=
  all2 (λ _ _ p q, weq (dist2 p.2 q.2) (dist2 p.1 q.1)) (zip cen cen').
Lemma q_weq (a b : Qc) : @weq qarith a b = true → a = b.
Proof.
  change ((match Qccompare a b with Eq => true | _ => false end) = true → a = b).
  destruct (Qccompare a b) eqn:E; intros; [|done..]. by apply Qceq_alt.
Qed.
Lemma distances_ok (cen cen' : list (list W)) :
  shape_check cen cen' = true → dist_check cen cen' = true → same_distances cen cen'.
Proof.
  intros Hs Hd. split; [by apply shape_ok|]. intros x y a b a' b' Ha Hb Ha' Hb'.
  assert (∀ z c c', cen !! z = Some c → cen' !! z = Some c' → zip cen cen' !! z = Some (c, c')) as Hz.
  { intros z c c' Hc Hc'. apply lookup_zip_with_Some. eauto. }
  pose proof (all2_ok _ _ _ _ _ _ Hd (Hz _ _ _ Ha Ha') (Hz _ _ _ Hb Hb')) as Hf. by apply q_weq in Hf.
Qed.

(** ** C55 *)

Lemma q_shift (a b s : @W qarith) : wsub (wadd a s) (wadd b s) = wsub a b.
Proof. change ((a + s) - (b + s) = a - b)%Qc. ring. Qed.
Definition vec : list (@W qarith) := [qc 7 2; qc (-5) 1].
(** Two rows of cells with lines to be built, moved by (7/2, -5). *)
Lemma C55_translation_ex :
  (∀ a b s : @W qarith, wsub (wadd a s) (wadd b s) = wsub a b) ∧
  Forall (λ c, length c ≤ length vec) (in_cen (built6 0 true)) ∧
  in_ar (built6 0 true) ≠ 7%Z ∧ in_ar (built6 0 true) ≠ 8%Z ∧
  in_cen (put_cen (built6 0 true) (translated vec (in_cen (built6 0 true)))) !! 1 = Some [qc 9 2; qc (-5) 1] ∧
  in_cen (built6 0 true) !! 1 = Some [qc 1 1; qc 0 1] ∧
  (agglomerate_one_level (built6 0 true) o0).2 = Ok ().
Proof.
  split; [exact q_shift|]. split; [repeat constructor|]. repeat split; try done; vm_compute; reflexivity.
Qed.
Lemma C55_differences_ex :
  same_differences (in_cen grid9_in) (translated vec (in_cen grid9_in)) ∧ in_ar grid9_in ≠ 7%Z ∧ in_ar grid9_in ≠ 8%Z ∧
  translated vec (in_cen grid9_in) ≠ in_cen grid9_in ∧ (agglomerate_one_level grid9_in o0).2 = Ok ().
Proof.
  split; [apply translated_differences; [exact q_shift|repeat constructor]|].
  repeat split; try done; vm_compute; congruence.
Qed.
(** The coordinates exchanged: a reflection. *)
Lemma C55_distances_ex :
  @exact_arith qarith ∧ same_distances (in_cen grid9_in) (map reverse (in_cen grid9_in)) ∧
  in_ar grid9_in ≠ 7%Z ∧ in_ar grid9_in ≠ 8%Z ∧ in_aniso grid9_in = false ∧
  map reverse (in_cen grid9_in) ≠ in_cen grid9_in ∧ (agglomerate_one_level grid9_in o0).2 = Ok ().
Proof.
  split; [exact q_exact|]. split; [apply distances_ok; vm_compute; reflexivity|].
  repeat split; try done; vm_compute; congruence.
Qed.
(** Aspect ratio 3 does not look at the centres. *)
Lemma C55_unused_ex :
  same_shape (in_cen (with_ar 3 grid9_in)) (replicate 9 [qc 0 1; qc 0 1]) ∧
  in_ar (with_ar 3 grid9_in) ∉ [0; 1; 2; 7; 8]%Z ∧ in_aniso (with_ar 3 grid9_in) = false ∧
  in_cen (with_ar 3 grid9_in) !! 1 ≠ Some [qc 0 1; qc 0 1] ∧
  (agglomerate_one_level (with_ar 3 grid9_in) o0).2 = Ok ().
Proof.
  split; [apply shape_ok; vm_compute; reflexivity|].
  split; [by apply (bool_decide_unpack _); vm_compute|].
  repeat split; try done; vm_compute; congruence.
Qed.

(** A cell with two neighbours on a line; one of them has to be chosen. *)
Definition tri3 (ar : Z) (x1 x2 : Qc) : @input qarith :=
  with_ar ar (put_geom (mk_input [[1;2];[0];[0]] [2;1;1]%Z 0 false 2 2 2 1)
    [qc 1 1; qc 1 1; qc 1 1; qc 1 1] [qc 1 1; qc 1 1; qc 2 1] [[qc 0 1; qc 0 1]; [x1; qc 0 1]; [x2; qc 0 1]]).
Lemma tri3_good ar x1 x2 : (ar = 7)%Z → good_call (tri3 ar x1 x2) o0.
Proof. intros ->. apply good_off; [done|]. vm_compute. reflexivity. Qed.

Lemma translation_refuted :
  exists (i : @input qarith) (o : outs) (t : list (@W qarith)),
    (∀ a b s : @W qarith, wsub (wadd a s) (wadd b s) = wsub a b) ∧
    good_call i o ∧ Forall (λ c, length c ≤ length t) (in_cen i) ∧
    (agglomerate_one_level i o).2 = Ok () ∧
    (agglomerate_one_level (put_cen i (translated t (in_cen i))) o).2 = Ok () ∧
    o_fc2cc (agglomerate_one_level i o).1 = [0; 1; 0] ∧
    o_fc2cc (agglomerate_one_level (put_cen i (translated t (in_cen i))) o).1 = [0; 0; 1].
Proof.
  exists (tri3 7 (qc 3 1) (qc 1 1)), o0, [qc 10 1; qc 0 1].
  split; [exact q_shift|]. split; [by apply tri3_good|]. split; [repeat constructor|].
  repeat split; vm_compute; reflexivity.
Qed.

(** ** C56 *)

Ltac units_tac :=
  split; [vm_compute; reflexivity..| | |];
  [intros _; split; apply in_range_ok; vm_compute; reflexivity
  |intros _ _; split; apply weights_below_ok; vm_compute; reflexivity
  |].
(** Face weights doubled, volumes in other units, lengths halved. *)
Lemma C56_ex :
  @exact_field qarith ∧ good_call (built6 0 false) o0 ∧ units_ok (built6 0 false) (qc 2 1) (qc 1 1000) (qc 1 2) ∧
  in_ar (built6 0 false) ≠ 7%Z ∧ in_ar (built6 0 false) ≠ 8%Z ∧
  (agglomerate_one_level (built6 0 false) o0).2 = Ok ().
Proof.
  split; [exact q_field|].
  split; [apply good_built; [done|done|right; split; vm_compute; reflexivity|vm_compute; reflexivity]|].
  split; [units_tac; done|]. repeat split; try done; vm_compute; reflexivity.
Qed.
(** The direction of the lines is enforced as well. *)
Lemma C56_force_ex :
  @exact_field qarith ∧ good_call (built6 0 true) o0 ∧ units_ok (built6 0 true) (qc 2 1) (qc 1 1000) (qc 1 1) ∧
  in_force (built6 0 true) = true ∧ in_aniso (built6 0 true) = true ∧ in_build (built6 0 true) = true.
Proof.
  split; [exact q_field|].
  split; [apply good_built; [done|done|right; split; vm_compute; reflexivity|vm_compute; reflexivity]|].
  split; [|done]. units_tac. intros _ _ _ a. change (qsqrt ((qc 1 1 * qc 1 1) * a) = qc 1 1 * qsqrt a)%Qc.
  change (qc 1 1) with 1%Qc. by rewrite !Qcmult_1_l.
Qed.
Lemma units_refuted :
  exists (i : @input qarith) (o : outs) (v : @W qarith),
    @exact_field qarith ∧ good_call i o ∧ above0 v ∧ units_ok i w1 v w1 ∧
    (agglomerate_one_level i o).2 = Ok () ∧ (agglomerate_one_level (rescaled i w1 v w1) o).2 = Ok () ∧
    o_fc2cc (agglomerate_one_level i o).1 = [0; 0; 1] ∧
    o_fc2cc (agglomerate_one_level (rescaled i w1 v w1) o).1 = [0; 1; 0].
Proof.
  exists (tri3 7 (qc 1 1) (qc (-1) 1)), o0, (qc 1 10).
  split; [exact q_field|]. split; [by apply tri3_good|]. split; [vm_compute; reflexivity|].
  split; [|repeat split; vm_compute; reflexivity].
  split; [vm_compute; reflexivity..| | |]; try done. intros [?|[?|?]]; done.
Qed.
