(** * ColE: examples for C69 *)

From Coq Require Import QArith Qcanon.
From Verif Require Import Inst Main Spec SpecSub SpecFeat SpecLine SpecGrid SpecCol FeatU FeatT GrowE ApiE HashE LineT MainP.
From Verif Require Import GridE ColT ColG.
#[local] Open Scope Z_scope.
#[local] Open Scope nat_scope.
#[local] Existing Instance qarith | 100.
#[local] Existing Instance ord_id | 100.

(** ** A square of 4 by 4 cells

    Numbered line by line; the faces inside lines have weight 9, the others
    weight 1. *)
Definition st_val : list Qc :=
  concat ((λ x, (λ y, if bool_decide (sq_co x 0 = sq_co y 0) then qc 1 1 else qc 9 1) <$>
    filter (λ y, beside_b 2 sq_co x y = true) (seq 0 16)) <$> seq 0 16).
Definition st16 (force : bool) : @input qarith :=
  mk_aniso (grid_in 2 16 sq_co true 2 3 4 0 1 0) true true None 0 force st_val (qc 4 1).
Definition st_cols : list (list nat) := [[0;1;2;3]; [4;5;6;7]; [8;9;10;11]; [12;13;14;15]].

Lemma st16_good f : good_call (st16 f) o0.
Proof.
  apply good_built; [done|done|right; split; vm_compute; reflexivity|]. destruct f; vm_compute; reflexivity.
Qed.

Lemma st16_grid f : stretched_grid (st16 f) (λ _, 4) sq_co (qc 9 1) (qc 1 1).
Proof.
  assert (even_grid (st16 f) (λ _, 2) sq_co) as [H1 H2 H3 H4 _].
  { apply grid_check_ok. destruct f; vm_compute; reflexivity. }
  split; [done..|]. intros x y w Hw.
  assert (forallb (λ x, forallb (λ e : nat * Qc, bool_decide (e.2 = if bool_decide (sq_co x 0 = sq_co e.1 0) then qc 1 1 else qc 9 1))
    (entries (in_row (st16 f)) (in_col (st16 f)) (in_val (st16 f)) x)) (seq 0 16) = true) as Hc.
  { destruct f; vm_compute; reflexivity. }
  assert (x < 16) as Hx.
  { destruct (decide (x < 16)) as [|Hge]; [done|]. exfalso. unfold entries in Hw.
    rewrite (lookup_ge_None_2 (in_row (st16 f)) (S x)) in Hw by (change (length (in_row (st16 f))) with 17; lia).
    destruct (in_row (st16 f) !! x); by apply elem_of_nil in Hw. }
  pose proof (forallb_seq _ _ x Hc Hx) as Hf. cbn beta in Hf. rewrite forallb_forall in Hf.
  specialize (Hf (y, w)). rewrite <- elem_of_list_In in Hf. specialize (Hf Hw). by apply bool_decide_eq_true in Hf.
Qed.

Lemma st16_apart f : far_apart (st16 f) (qc 9 1) (qc 1 1).
Proof. split; [vm_compute; reflexivity..|right; vm_compute; reflexivity]. Qed.

Lemma st16_all f x : x < in_n (st16 f) → x ∈ in_compl (st16 f).
Proof. intros Hx. apply elem_of_seq. change (in_n (st16 f)) with 16 in Hx. lia. Qed.

(** The lines are straight, and no cell lies beyond their ends. *)
Definition beside_in (c : list nat) (x y : nat) : bool :=
  existsb (λ k, bool_decide (c !! k = Some x ∧ c !! S k = Some y ∨ c !! k = Some y ∧ c !! S k = Some x)) (seq 0 (length c)).
Lemma beside_in_ok c x y : beside_in c x y = true ↔ beside c x y.
Proof.
  split.
  - intros (k & _ & Hk)%existsb_seq. apply bool_decide_eq_true in Hk. by exists k.
  - intros [k Hk]. apply existsb_exists. exists k. split; [|by apply bool_decide_eq_true].
    apply elem_of_list_In, elem_of_seq. split; [lia|]. simpl. by destruct Hk as [[?%lookup_lt_Some _]|[?%lookup_lt_Some _]].
Qed.
Definition aligned_b (i : @input qarith) (x : nat) (d : list Qc) (y : nat) : bool :=
  let c := scalar d (unit_vec (centre (in_cen i) y) (centre (in_cen i) x)) in
  wlt w0 c && negb (wlt (wabs c) wdev).
Lemma aligned_ok i x d y : aligned_b i x d y = true ↔ ∃ a, aligned (in_cen i) x d y a.
Proof.
  unfold aligned_b, aligned. cbv zeta. rewrite andb_true_iff, negb_true_iff. split; [eauto|]. by intros (a & -> & ?).
Qed.
Definition straight_b (i : @input qarith) (n : nat) (cols : list (list nat)) : bool :=
  forallb (λ c, forallb (λ p, forallb (λ x, negb (beside_in c p x) || forallb (λ y, (y =? p) ||
    forallb (λ d, negb (beside_in c x y) || aligned_b i x d y)
      [unit_vec (centre (in_cen i) x) (centre (in_cen i) p); opposite (unit_vec (centre (in_cen i) p) (centre (in_cen i) x))])
    (seq 0 n)) (seq 0 n)) (seq 0 n)) cols.
Definition ends_b (i : @input qarith) (n : nat) (cols : list (list nat)) : bool :=
  forallb (λ c, forallb (λ p, forallb (λ x, negb (beside_in c p x) || existsb (λ z, beside_in c x z && negb (z =? p)) (seq 0 n) ||
    forallb (λ y, (y =? p) || negb (edge_b i x y) ||
    forallb (λ d, negb (aligned_b i x d y))
      [unit_vec (centre (in_cen i) x) (centre (in_cen i) p); opposite (unit_vec (centre (in_cen i) p) (centre (in_cen i) x))])
    (seq 0 n)) (seq 0 n)) (seq 0 n)) cols.

Lemma st16_columns f : columns (st16 f) st_cols.
Proof.
  assert (columns (st16 false) st_cols) as [H1 H2 H3 H4 _ _].
  { pose proof (columns_grid (λ _, True) (st16 false) (λ _, 4) sq_co (qc 9 1) (qc 1 1)) as HC.
    replace st_cols with (cols (st16 false) (λ _, 4) sq_co) by (vm_compute; reflexivity).
    refine (HC (total_line_order _ q_total) (gc_mesh _ _ (st16_good false)) (st16_grid false) (st16_apart false) _ _ _ (st16_all false) _ 1 _ _);
      [vm_compute; lia|done|done|lia|vm_compute; lia|lia]. }
  assert (∀ c x y, c ∈ st_cols → beside c x y → x < 16 ∧ y < 16) as Hlt.
  { assert (forallb (forallb (λ x, x <? 16)) st_cols = true) as Hb by (vm_compute; reflexivity).
    intros c x y Hc Hxy. rewrite forallb_forall in Hb. specialize (Hb c). rewrite <- elem_of_list_In in Hb. specialize (Hb Hc).
    rewrite forallb_forall in Hb. setoid_rewrite <- elem_of_list_In in Hb. setoid_rewrite Nat.ltb_lt in Hb.
    destruct Hxy as [k [[Hx Hy]|[Hy Hx]]]; apply elem_of_list_lookup_2 in Hx, Hy; auto. }
  split; [exact H1|exact H2|exact H3|exact H4|..].
  - intros _ c p x y d Hc Hpx Hxy Hne Hd. apply aligned_ok.
    assert (straight_b (st16 f) 16 st_cols = true) as Hb by (destruct f; vm_compute; reflexivity).
    unfold straight_b in Hb. rewrite forallb_forall in Hb. specialize (Hb c). rewrite <- elem_of_list_In in Hb. specialize (Hb Hc).
    destruct (Hlt _ _ _ Hc Hpx) as [Hp Hx]. destruct (Hlt _ _ _ Hc Hxy) as [_ Hy].
    apply (forallb_seq _ _ p) in Hb; [|done]. apply (forallb_seq _ _ x) in Hb; [|done]. cbn beta in Hb.
    apply beside_in_ok in Hpx. rewrite Hpx in Hb. simpl negb in Hb. rewrite orb_false_l in Hb.
    apply (forallb_seq _ _ y) in Hb; [|done]. cbn beta in Hb.
    apply orb_true_iff in Hb as [Hb|Hb]; [by apply Nat.eqb_eq in Hb|]. rewrite forallb_forall in Hb.
    assert (negb (beside_in c x y) || aligned_b (st16 f) x d y = true) as Hb'.
    { apply Hb. destruct Hd as [->| ->]; [by left|by right; left]. }
    apply beside_in_ok in Hxy. by rewrite Hxy in Hb'.
  - intros _ c p x y d a Hc Hpx Hend Hd Hy He Hne Hal.
    assert (aligned_b (st16 f) x d y = true) as Hab by (apply aligned_ok; eauto).
    assert (ends_b (st16 f) 16 st_cols = true) as Hb by (destruct f; vm_compute; reflexivity).
    unfold ends_b in Hb. rewrite forallb_forall in Hb. specialize (Hb c). rewrite <- elem_of_list_In in Hb. specialize (Hb Hc).
    destruct (Hlt _ _ _ Hc Hpx) as [Hp Hx].
    assert (y < 16) as Hy'. { assert (Forall (λ y, y < 16) (concat st_cols)) as Hf by (repeat constructor). rewrite Forall_forall in Hf. by apply Hf. }
    apply (forallb_seq _ _ p) in Hb; [|done]. apply (forallb_seq _ _ x) in Hb; [|done]. cbn beta in Hb.
    apply beside_in_ok in Hpx. rewrite Hpx in Hb. simpl negb in Hb. rewrite orb_false_l in Hb.
    apply orb_true_iff in Hb as [Hb|Hb].
    { apply existsb_seq in Hb as (z & _ & [Hz1 Hz2]%andb_true_iff). apply beside_in_ok, Hend in Hz1 as ->. by rewrite Nat.eqb_refl in Hz2. }
    apply (forallb_seq _ _ y) in Hb; [|done]. cbn beta in Hb.
    assert (edge_b (st16 f) x y = true) as Hee. { unfold edge_b. apply bool_decide_eq_true, elem_of_nb_list. done. }
    rewrite Hee in Hb. simpl negb in Hb. rewrite orb_false_r in Hb.
    apply orb_true_iff in Hb as [Hb|Hb]; [by apply Nat.eqb_eq in Hb|]. rewrite forallb_forall in Hb.
    assert (negb (aligned_b (st16 f) x d y) = true) as Hb'.
    { apply Hb. destruct Hd as [->| ->]; [by left|by right; left]. }
    by rewrite Hab in Hb'.
Qed.

Lemma C69_ex : (line_order (λ _, True) (st16 false)) ∧ (∀ f, good_call (st16 f) o0 ∧ aniso_on (st16 f) o0) ∧
  (∀ f, columns (st16 f) st_cols) ∧ stretched_grid (st16 false) (λ _, 4) sq_co (qc 9 1) (qc 1 1) ∧
  far_apart (st16 false) (qc 9 1) (qc 1 1) ∧ (∀ x, x < in_n (st16 false) → x ∈ in_compl (st16 false)) ∧
  (∀ f, agglomerate_one_level (st16 f) o0 =
    (Outs [0;0;1;1;2;2;3;3;4;4;5;5;6;6;7;7] [0;2;4;6;8] [0;1;2;3;4;5;6;7], Ok ())).
Proof.
  split_and!; [apply total_line_order, q_total| |apply st16_columns|apply st16_grid|apply st16_apart|apply st16_all|].
  - intros f. split; [apply st16_good|]. done.
  - intros [|]; vm_compute; reflexivity.
Qed.
