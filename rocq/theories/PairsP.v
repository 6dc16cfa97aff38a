(** * PairsP: ordered sets of pairs *)

From Verif Require Export GraphP.

Section pairs.
Context {A : Arith}.
Implicit Types (p q r : nat * W) (l : list (nat * W)).

Lemma pair_lt_gt p q : pair_lt p q = pair_gt q p.
Proof. done. Qed.

Lemma pair_gt_idx p q : pair_gt p q = false → pair_gt q p = false → p.1 = q.1.
Proof.
  unfold pair_gt. destruct (wlt q.2 p.2), (wlt p.2 q.2); try done.
  rewrite !bool_decide_eq_false. lia.
Qed.

Section ord.
Context (P : W → Prop) (Hord : weak_order wlt P).

Lemma pair_gt_irr p : P p.2 → pair_gt p p = false.
Proof.
  intros Hp. unfold pair_gt. rewrite (wo_irr _ _ Hord) by done.
  rewrite bool_decide_eq_false. lia.
Qed.
Lemma pair_gt_trans p q r : P p.2 → P q.2 → P r.2 →
  pair_gt p q = true → pair_gt q r = true → pair_gt p r = true.
Proof.
  intros Hp Hq Hr. unfold pair_gt.
  destruct (wlt q.2 p.2) eqn:Hqp.
  - destruct (wlt r.2 q.2) eqn:Hrq.
    + rewrite (wo_tr _ _ Hord r.2 q.2 p.2); done.
    + destruct (wlt q.2 r.2) eqn:Hqr; [done|]. intros _ _.
      destruct (wo_neg _ _ Hord q.2 r.2 p.2) as [?|Hrp]; [done..|congruence|].
      by rewrite Hrp.
  - destruct (wlt p.2 q.2) eqn:Hpq; [done|].
    destruct (wlt r.2 q.2) eqn:Hrq.
    + intros _ _. destruct (wo_neg _ _ Hord r.2 p.2 q.2) as [Hrp|?]; [done..| |congruence].
      by rewrite Hrp.
    + destruct (wlt q.2 r.2) eqn:Hqr; [done|]. rewrite !bool_decide_eq_true. intros H1 H2.
      destruct (wlt r.2 p.2) eqn:Hrp; [done|].
      destruct (wlt p.2 r.2) eqn:Hpr.
      * destruct (wo_neg _ _ Hord p.2 q.2 r.2); congruence.
      * apply bool_decide_eq_true. lia.
Qed.
Lemma pair_gt_asym p q : P p.2 → P q.2 → pair_gt p q = true → pair_gt q p = false.
Proof.
  intros Hp Hq Hpq. destruct (pair_gt q p) eqn:Hqp; [|done].
  rewrite <- (pair_gt_irr p Hp). symmetry. by eapply pair_gt_trans.
Qed.
End ord.

(** Pairs (cell, priority of the cell). *)
Context (prio : list W).
Definition keyed p : Prop := prio !! p.1 = Some p.2.
Notation sorted := (StronglySorted (λ p q, pair_gt p q = true)).

Lemma keyed_eq p q : keyed p → keyed q → p.1 = q.1 → p = q.
Proof.
  destruct p as [i v], q as [j w]. unfold keyed. simpl. intros H1 H2 ->.
  rewrite H1 in H2. by simplify_eq.
Qed.
Lemma keyed_in p : keyed p → p.2 ∈ prio.
Proof. apply elem_of_list_lookup_2. Qed.

Lemma pset_insert_elem p l q :
  keyed p → (∀ q, q ∈ l → keyed q) → q ∈ pset_insert p l ↔ q = p ∨ q ∈ l.
Proof.
  intros Hp. induction l as [|r l IH]; intros Hl; simpl.
  { set_solver. }
  destruct (pair_gt p r) eqn:Hpr; [set_solver|].
  destruct (pair_gt r p) eqn:Hrp.
  - rewrite elem_of_cons, IH by set_solver. set_solver.
  - assert (p = r) as ->; [|set_solver].
    apply keyed_eq; [done|apply Hl; set_solver|]. by apply pair_gt_idx.
Qed.

(** What holds whatever the order relation: the set of first components. *)
Lemma pset_insert_fst p l i : i ∈ map fst (pset_insert p l) ↔ i = p.1 ∨ i ∈ map fst l.
Proof.
  induction l as [|r l IH]; simpl; [set_solver|].
  destruct (pair_gt p r) eqn:Hpr; [simpl; set_solver|].
  destruct (pair_gt r p) eqn:Hrp.
  - simpl. rewrite elem_of_cons, IH. set_solver.
  - simpl. apply pair_gt_idx in Hpr; [|done]. rewrite elem_of_cons. naive_solver.
Qed.
Lemma pset_insert_ne p l : pset_insert p l ≠ [].
Proof. destruct l as [|r l]; simpl; [done|]. by destruct (pair_gt p r), (pair_gt r p). Qed.

Context (Hord : weak_order wlt (λ w, w ∈ prio)).

Lemma pset_insert_sorted p l :
  keyed p → (∀ q, q ∈ l → keyed q) → sorted l → sorted (pset_insert p l).
Proof.
  intros Hp. induction l as [|r l IH]; intros Hl Hs; simpl.
  { by repeat constructor. }
  apply StronglySorted_inv in Hs as [Hs Hr].
  destruct (pair_gt p r) eqn:Hpr.
  - constructor; [by constructor|]. constructor; [done|].
    rewrite Forall_forall in Hr |- *. intros q Hq.
    eapply (pair_gt_trans _ Hord p r q); [apply keyed_in..| |]; try done; try (apply Hl; set_solver).
    by apply Hr.
  - destruct (pair_gt r p) eqn:Hrp; [|by constructor].
    constructor; [apply IH; [set_solver|done]|].
    rewrite Forall_forall in Hr |- *. intros q Hq.
    apply pset_insert_elem in Hq as [->|Hq]; [done|by apply Hr|done|set_solver].
Qed.

Lemma sorted_NoDup l : (∀ q, q ∈ l → keyed q) → sorted l → NoDup (map fst l).
Proof.
  induction l as [|r l IH]; intros Hl Hs; simpl; [constructor|].
  apply StronglySorted_inv in Hs as [Hs Hr]. constructor; [|apply IH; [set_solver|done]].
  intros Hin. apply elem_of_list_fmap in Hin as (q & Heq & Hq).
  assert (r = q) as <- by (apply keyed_eq; [set_solver|set_solver|done]).
  rewrite Forall_forall in Hr. specialize (Hr _ Hq).
  rewrite (pair_gt_irr _ Hord) in Hr; [done|]. apply keyed_in. set_solver.
Qed.

Lemma sorted_unique l l' :
  (∀ q, q ∈ l → keyed q) → sorted l → sorted l' → (∀ q, q ∈ l ↔ q ∈ l') → l = l'.
Proof.
  revert l'. induction l as [|p l IH]; intros l' Hk Hs Hs' Heq.
  { destruct l' as [|q l']; [done|]. set_solver. }
  destruct l' as [|q l']; [set_solver|].
  apply StronglySorted_inv in Hs as [Hs Hp]. apply StronglySorted_inv in Hs' as [Hs' Hq].
  rewrite Forall_forall in Hp, Hq.
  assert (∀ x, x ∈ q :: l' → keyed x) as Hk' by (intros; by apply Hk, Heq).
  assert (p = q) as <-.
  { destruct (decide (p.1 = q.1)) as [Hi|Hi].
    { apply keyed_eq; [set_solver|set_solver|done]. }
    assert (p ∈ l') as Hpl.
    { assert (p ∈ q :: l') as Hin by (apply Heq; set_solver).
      apply elem_of_cons in Hin as [->|]; done. }
    assert (q ∈ l) as Hql.
    { assert (q ∈ p :: l) as Hin by (apply Heq; set_solver).
      apply elem_of_cons in Hin as [->|]; done. }
    pose proof (Hp _ Hql) as H1. pose proof (Hq _ Hpl) as H2.
    rewrite (pair_gt_asym _ Hord p q) in H2; [done|..|done]; apply keyed_in; set_solver. }
  f_equal. apply IH; [set_solver|done|done|].
  intros x. split; intros Hx.
  - assert (x ∈ p :: l') as Hin by (apply Heq; set_solver).
    apply elem_of_cons in Hin as [->|]; [|done].
    specialize (Hp _ Hx); rewrite (pair_gt_irr _ Hord) in Hp; [done|]. apply keyed_in. set_solver.
  - assert (x ∈ p :: l) as Hin by (apply Heq; set_solver).
    apply elem_of_cons in Hin as [->|]; [|done].
    specialize (Hq _ Hx); rewrite (pair_gt_irr _ Hord) in Hq; [done|]. apply keyed_in. set_solver.
Qed.

Record good_pset l : Prop := {
  gp_keyed : ∀ q, q ∈ l → keyed q;
  gp_sorted : sorted l;
}.
Lemma good_nil : good_pset [].
Proof. split; [intros q Hq; by apply elem_of_nil in Hq|constructor]. Qed.
Lemma good_insert p l : keyed p → good_pset l → good_pset (pset_insert p l).
Proof.
  intros Hp [Hk Hs]. split; [|by apply pset_insert_sorted].
  intros q Hq. apply pset_insert_elem in Hq as [->|?]; auto.
Qed.
Lemma good_insert_all ps l :
  (∀ q, q ∈ ps → keyed q) → good_pset l →
  good_pset (pset_insert_all ps l) ∧ ∀ q, q ∈ pset_insert_all ps l ↔ q ∈ ps ∨ q ∈ l.
Proof.
  revert l. induction ps as [|p ps IH]; intros l Hps Hl; simpl.
  { split; [done|set_solver]. }
  destruct (IH (pset_insert p l)) as [H1 H2]; [set_solver|apply good_insert; [set_solver|done]|].
  split; [done|]. intros q. unfold pset_insert_all in *. simpl. rewrite H2, pset_insert_elem.
  - set_solver.
  - set_solver.
  - by apply gp_keyed.
Qed.
Lemma good_cons_inv p l : good_pset (p :: l) → good_pset l.
Proof. intros [Hk Hs]. split; [set_solver|by apply StronglySorted_inv in Hs as [? _]]. Qed.
Lemma good_unique l l' : good_pset l → good_pset l' → (∀ q, q ∈ l ↔ q ∈ l') → l = l'.
Proof. intros [] [] ?. by apply sorted_unique. Qed.
Lemma good_fst_elem l i : good_pset l → i ∈ map fst l ↔ ∃ w, prio !! i = Some w ∧ (i, w) ∈ l.
Proof.
  intros Hl. rewrite elem_of_list_fmap. split.
  - intros ([j w] & -> & Hin). exists w. split; [|done]. by apply (gp_keyed _ Hl) in Hin.
  - intros (w & _ & Hin). by exists (i, w).
Qed.
Lemma good_NoDup l : good_pset l → NoDup (map fst l).
Proof. intros []. by apply sorted_NoDup. Qed.

(** Building an ordered set by a loop. *)
Lemma collect_ok keep (l : list nat) :
  (∀ n, n ∈ l → n < length prio) →
  wp (collect keep prio l) (λ s, good_pset s ∧
    ∀ i, i ∈ map fst s ↔ i ∈ l ∧ keep i = true).
Proof.
  intros Hl. unfold collect.
  apply (wp_foldM _ (λ (pre : list nat) s, good_pset s ∧
    ∀ i, i ∈ map fst s ↔ i ∈ pre ∧ keep i = true)).
  { split; [apply good_nil|]. set_solver. }
  intros pre n post s -> [Hs Hel]. destruct (keep n) eqn:Hk.
  - wstep. apply wp_vget; [apply Hl; set_solver|]. intros w Hw. simpl. split.
    + by apply good_insert.
    + intros i. rewrite pset_insert_fst, Hel, elem_of_app, elem_of_list_singleton. simpl.
      naive_solver.
  - simpl. split; [done|]. intros i. rewrite Hel, elem_of_app, elem_of_list_singleton.
    split; [tauto|]. intros [[?| ->] ?]; [tauto|congruence].
Qed.

End pairs.
