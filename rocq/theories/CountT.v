(** * CountT: the number of coarse cells reported after the correction (C36) *)

From Verif Require Import SpecSub SpecMove SpecTorn GraphP CorrectP ApiT MoveT TornT.

Section run.
Context {A : Arith} {H : HashOrder}.
Implicit Types (i : input) (o r : outs).

Lemma foldM_keeps {X Y} (P : Y → Prop) (f : Y → X → res Y) l y y' :
  (∀ a x b, P a → f a x = Ok b → P b) → P y → foldM f l y = Ok y' → P y'.
Proof.
  intros Hf. revert y. induction l as [|x l IH]; intros y HP He; simpl in He; [by simplify_eq|].
  apply bind_Ok_inv in He as (b & Hb & He). eauto.
Qed.

(** The correction does not touch the counter. *)
Lemma correct_n g ct ct' : correct g ct = Ok ct' → ct_n ct' = ct_n ct.
Proof.
  unfold correct. intros He. apply bind_Ok_inv in He as ([R ct1] & H1 & H2). simpl in H2.
  assert (ct_n ct1 = ct_n ct) as <-.
  { revert H1. apply (foldM_keeps (λ p : gset nat * container, ct_n p.2 = ct_n ct)); [|done].
    clear. intros [R1 a] old [R2 b] Ha. simpl in *. rewrite <- Ha. clear Ha. unfold correct_step. intros Hs.
    apply bind_Ok_inv in Hs as (cur & _ & Hs). case_bool_decide; [|by simplify_eq].
    apply bind_Ok_inv in Hs as (nb & _ & Hs). apply bind_Ok_inv in Hs as ([w a1] & Hw & Hs).
    apply bind_Ok_inv in Hs as ([w2 a2] & Hr & Hs). simpl in Hr, Hs.
    assert (ct_n a1 = ct_n a) as Hn1.
    { clear Hr Hs. case_bool_decide; [|by simplify_eq]. unfold correct_whole in Hw.
      repeat match goal with
      | E : (_ ≫= _) = Ok _ |- _ => let z := fresh "z" in apply bind_Ok_inv in E as (z & _ & E)
      | E : Ok _ = Ok _ |- _ => by simplify_eq
      | E : context [match ?z with _ => _ end] |- _ => destruct z
      end. }
    assert (ct_n a2 = ct_n a1) as Hn2.
    { clear Hs. destruct w; [by simplify_eq|]. unfold correct_cells in Hr. revert Hr.
      apply (foldM_keeps (λ p : bool * container, ct_n p.2 = ct_n a1)); [|done].
      clear. intros [w a] x [w2 b] Ha E. simpl in *. rewrite <- Ha. clear Ha.
      repeat match goal with
      | E : (_ ≫= _) = Ok _ |- _ => let z := fresh "z" in apply bind_Ok_inv in E as (z & _ & E)
      | E : Ok _ = Ok _ |- _ => by simplify_eq
      | E : context [match ?z with _ => _ end] |- _ => destruct z
      | E : context [if ?z then _ else _] |- _ => destruct z
      end. }
    destruct w2; simplify_eq; simpl; congruence. }
  unfold correct_renumber in H2. destruct (sset R); [by simplify_eq|].
  apply bind_Ok_inv in H2 as (? & _ & H2). apply bind_Ok_inv in H2 as (? & _ & H2). by simplify_eq.
Qed.

Lemma C36_after_lem i o r0 e0 r e : good_call i o → simple_csr (in_row i) (in_col i) → in_corr i = true →
  agglomerate_one_level (uncorrected i) o = (r0, e0) → agglomerate_one_level i o = (r, e) →
  ∃ ctA p lo ct, phase1 i o = Ok (ctA, p, lo) ∧ phase2 i ctA p = Ok ct ∧
    (∀ c, c < ct_n ct ↔ ∃ x, o_fc2cc r0 !! x = Some c) ∧
    ((∀ k, small_id i o r0 k → (∀ x, o_fc2cc r0 !! x = Some k → touches i o r0 x) ∨
       (∀ x, o_fc2cc r0 !! x = Some k → ¬ touches i o r0 x)) →
     (∀ c, c < ct_n ct ↔ ∃ x, o_fc2cc r !! x = Some c) ↔ o_fc2cc r = o_fc2cc r0).
Proof.
  intros HG Hsi Hc He0 He. pose proof (good_uncorrected i o HG) as HG0.
  destruct (C36_lem _ o HG0 eq_refl) as (r0' & ctA & p & lo & ct0 & He0' & E1 & E2 & _ & Hn0).
  assert (r0' = r0) as -> by congruence.
  change (phase1 (uncorrected i) o) with (phase1 i o) in E1.
  destruct (ran_inv _ _ _ _ HG He) as (ctA' & p' & lo' & ct & ct' & HR).
  pose proof (ra_e1 _ _ _ _ _ _ _ _ HR) as F1. rewrite E1 in F1. simplify_eq.
  pose proof (ra_e2 _ _ _ _ _ _ _ _ HR) as F2.
  exists ctA', p', lo', ct'. split; [done|]. split; [done|].
  assert (∀ c, c < ct_n ct' ↔ ∃ x, o_fc2cc r0 !! x = Some c) as Hn.
  { rewrite (phase2_correct i ctA' p' ct0 Hc E2) in F2. by rewrite (correct_n _ _ _ F2). }
  split; [done|]. intros Hst.
  destruct (C66_rule_lem i o r0 e0 r e HG Hsi Hc He0 He) as (R & f1 & n0 & HV & Hn0' & Hu & Hl & _ & _).
  assert (ct_n ct' = n0) as ->.
  { assert (∀ c, c < ct_n ct' ↔ c < n0) as Hq by (intros c; by rewrite Hn, Hn0').
    destruct (lt_eq_lt_dec (ct_n ct') n0) as [[Hlt|Hlt]|Hlt]; [apply Hq in Hlt; lia|done|apply Hq in Hlt; lia]. }
  assert (∀ c, (∃ x, o_fc2cc r !! x = Some c) ↔ c < n0 - size R) as Hu'.
  { intros c. rewrite Hu. split; [|by left]. intros [?|[x Hx]]; [done|]. exfalso.
    destruct (Hl x c Hx) as (Hs & Hx1 & x' & Hx' & Ht). destruct (Hst c Hs) as [Ha|Ha].
    - destruct Hx as (_ & Hx & _). by apply Hx1, Ha.
    - by apply (Ha x'). }
  pose proof HV as HV'. destruct HV as (sing & _ & _ & Hab & HRk & Hr).
  assert (∀ k, k ∈ R → k < n0) as HRn.
  { intros k Hk. apply HRk in Hk as (_ & x & Hx & _). apply Hn0'. eauto. }
  assert (R = ∅ → o_fc2cc r = o_fc2cc r0) as Hemp.
  { intros ->. destruct (torn_facts i o r0 _ r ∅ f1 HG He0 HV') as [n1 T].
    rewrite (tf_r _ _ _ _ _ _ _ T). apply list_eq. intros x. rewrite list_lookup_fmap.
    destruct (o_fc2cc r0 !! x) as [k|] eqn:Hx.
    - rewrite (tf_same _ _ _ _ _ _ _ T x k Hx) by set_solver. simpl. rewrite decide_False by set_solver.
      f_equal. pose proof (rank_total ∅ k) as Hk. rewrite size_empty, Nat.sub_0_r in Hk. apply Hk. set_solver.
    - apply lookup_ge_None in Hx. rewrite <- (tf_len _ _ _ _ _ _ _ T) in Hx.
      by rewrite (proj2 (lookup_ge_None _ _) Hx). }
  assert ((∀ c, c < n0 ↔ c < n0 - size R) → R = ∅) as Hback.
  { intros Hq. destruct (decide (R = ∅)) as [?|HRe]; [done|]. exfalso.
    destruct (set_choose_L R HRe) as [k Hk].
    assert (size R ≠ 0) as Hs. { intros Hs. apply size_empty_inv in Hs. set_solver. }
    pose proof (HRn k Hk). specialize (Hq (n0 - 1)). lia. }
  split.
  - intros Hq. apply Hemp, Hback. intros c. by rewrite Hq, Hu'.
  - intros Heq. intros c. by rewrite Heq, Hn0'.
Qed.
End run.
