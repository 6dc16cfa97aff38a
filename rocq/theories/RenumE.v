(** * RenumE: examples and counter-examples for C60 *)

From Coq Require Import QArith Qcanon.
From stdpp Require Import sorting.
From Verif Require Import Inst Spec SpecSub SpecFeat SpecAR SpecHash SpecUse SpecLine SpecMove SpecFeed SpecWhole SpecRenum GraphP FeatE BestE
  ApiE GrowE HashE UseE FeedE MoveE WholeU WholeE ReordE RenumU.
#[local] Open Scope Z_scope.
#[local] Open Scope nat_scope.
#[local] Existing Instance qarith | 100.
#[local] Existing Instance ord_id | 100.

(** The renumbering given by a list, and the call with the cells renumbered
    ([k] is the inverse of [l]; all the faces have weight [w]). *)
Definition by_list (l : list nat) (x : nat) : nat := default x (l !! x).
Definition carry_list {B} (k : list nat) (l : list B) : list B := omap (λ y, l !! y) k.
Definition renum (w : Qc) (l k : list nat) (i : @input qarith) : @input qarith :=
  let adj := map (λ y, map (by_list l) (nb_list (in_row i) (in_col i) y)) k in
  put_mesh i (row_of 0 adj) (concat adj) (replicate (length (concat adj)) w) (carry_list k (in_vol i)) (carry_list k (in_cen i))
    (carry_list k (in_prio i)) (map (by_list l) (in_compl i)) (carry_list k (in_bnd i)).

Lemma by_out (m : list nat) n x : length m = n → ¬ x < n → by_list m x = x.
Proof. intros Hm Hx. unfold by_list. by rewrite lookup_ge_None_2 by lia. Qed.
Section check.
Context (l k : list nat) (n : nat).
Definition inverses : bool :=
  bool_decide (length l = n) && bool_decide (length k = n) &&
  forallb (λ x, bool_decide (by_list k (by_list l x) = x) && bool_decide (by_list l (by_list k x) = x) &&
    bool_decide (by_list l x < n)) (seq 0 n).
Context (HI : inverses = true).
Lemma inv_len : length l = n ∧ length k = n ∧ ∀ x, x < n →
  by_list k (by_list l x) = x ∧ by_list l (by_list k x) = x ∧ by_list l x < n.
Proof using HI.
  revert HI. unfold inverses. rewrite !andb_true_iff, !bool_decide_eq_true, forallb_forall. intros [[H1 H2] H3].
  split_and!; [done|done|]. intros x Hx. specialize (H3 x ltac:(apply in_seq; lia)).
  rewrite !andb_true_iff, !bool_decide_eq_true in H3. tauto.
Qed.
Lemma by_left x : by_list k (by_list l x) = x.
Proof using HI.
  destruct inv_len as (H1 & H2 & H3). destruct (decide (x < n)) as [Hx|Hx]; [by apply H3|].
  by rewrite (by_out l n x), (by_out _ n).
Qed.
Lemma by_right x : by_list l (by_list k x) = x.
Proof using HI.
  destruct inv_len as (H1 & H2 & H3). destruct (decide (x < n)) as [Hx|Hx]; [by apply H3|].
  by rewrite (by_out k n x), (by_out _ n).
Qed.
Lemma by_cells x : by_list l x < n ↔ x < n.
Proof using HI.
  destruct inv_len as (H1 & H2 & H3). destruct (decide (x < n)) as [Hx|Hx].
  - split; [done|]. intros _. by apply H3.
  - by rewrite (by_out _ n).
Qed.
Lemma by_lookup {B} (a b : list B) : length a = n → length b = n →
  (∀ x, x < n → b !! by_list l x = a !! x) → ∀ x, b !! by_list l x = a !! x.
Proof using HI.
  intros Ha Hb HL x. destruct (decide (x < n)) as [Hx|Hx]; [by apply HL|].
  destruct inv_len as (H1 & _). rewrite (by_out _ n) by done. by rewrite !lookup_ge_None_2 by lia.
Qed.
End check.

Lemma relabelled_check (i i' : @input qarith) l k w m :
  inverses l k (in_n i) = true → in_val i = replicate m w → m = length (in_col i) → in_val i' = replicate (length (in_col i')) w →
  csr (in_n i) (in_row i') (in_col i') → length (in_row i) = S (in_n i) →
  forallb (λ x, bool_decide (sorted_l (nb_list (in_row i') (in_col i') (by_list l x)) =
    sorted_l (by_list l <$> nb_list (in_row i) (in_col i) x))) (seq 0 (in_n i)) = true →
  (∀ x, in_vol i' !! by_list l x = in_vol i !! x) → (∀ x, in_cen i' !! by_list l x = in_cen i !! x) →
  (∀ x, in_prio i' !! by_list l x = in_prio i !! x) → (∀ x, in_bnd i' !! by_list l x = in_bnd i !! x) →
  (∀ x, by_list l x ∈ in_compl i' ↔ x ∈ in_compl i) →
  i' = put_mesh i (in_row i') (in_col i') (in_val i') (in_vol i') (in_cen i') (in_prio i') (in_compl i') (in_bnd i') →
  relabelled (by_list l) (by_list k) i i'.
Proof.
  intros HI Hv Hm Hv' Hc Hn Hf H1 H2 H3 H4 H5 H6. destruct (inv_len _ _ _ HI) as (Hl & _).
  split; try done.
  - by eapply by_left.
  - by eapply by_right.
  - by eapply by_cells.
  - by rewrite Hv', replicate_length.
  - intros x. rewrite Hv, Hv'.
    rewrite (entries_const _ _ _ _ _ eq_refl), (entries_const _ _ _ _ _ Hm), <- list_fmap_compose.
    change (prod_map (by_list l) id ∘ (λ y, (y, w))) with ((λ y, (y, w)) ∘ by_list l). rewrite list_fmap_compose.
    apply fmap_Permutation. destruct (decide (x < in_n i)) as [Hx|Hx].
    + rewrite forallb_forall in Hf. specialize (Hf x ltac:(apply in_seq; lia)). apply bool_decide_eq_true in Hf.
      unfold sorted_l in Hf. by rewrite <- (merge_sort_Permutation (≤) (nb_list _ _ (by_list l x))), Hf, merge_sort_Permutation.
    + rewrite (by_out l _ x Hl Hx).
      unfold nb_list. rewrite (lookup_ge_None_2 (in_row i') (S x)) by (rewrite (csr_len _ _ _ Hc); lia).
      rewrite (lookup_ge_None_2 (in_row i) (S x)) by lia. by destruct (in_row i' !! x), (in_row i !! x).
Qed.

Lemma renum_rest w l k i : let i' := renum w l k i in
  i' = put_mesh i (in_row i') (in_col i') (in_val i') (in_vol i') (in_cen i') (in_prio i') (in_compl i') (in_bnd i').
Proof. reflexivity. Qed.
Lemma renum_compl w l k i : inverses l k (in_n i) = true → ∀ x, by_list l x ∈ in_compl (renum w l k i) ↔ x ∈ in_compl i.
Proof.
  intros HI x. change (by_list l x ∈ by_list l <$> in_compl i ↔ x ∈ in_compl i).
  apply elem_of_list_fmap_inj. intros y z E. by rewrite <- (by_left l k _ HI y), E, (by_left l k _ HI).
Qed.

(** [x < n] case by case. *)
Ltac cells := let x := fresh "x" in let Hx := fresh "Hx" in intros x Hx;
  apply Nat.leb_le in Hx; repeat (destruct x as [|x]; [first [discriminate Hx|vm_compute; reflexivity]|try discriminate Hx]).
Ltac relabel i l k m :=
  let HI := fresh "HI" in
  assert (inverses l k (in_n i) = true) as HI by (vm_compute; reflexivity);
  apply (relabelled_check i (renum (qc 1 1) l k i) l k (qc 1 1) m);
  [vm_compute; reflexivity|vm_compute; reflexivity|vm_compute; reflexivity|vm_compute; reflexivity
  |apply csr_check_ok; vm_compute; reflexivity|vm_compute; reflexivity|vm_compute; reflexivity
  |apply (by_lookup l k _ HI); [vm_compute; reflexivity|vm_compute; reflexivity|cells]
  |apply (by_lookup l k _ HI); [vm_compute; reflexivity|vm_compute; reflexivity|cells]
  |apply (by_lookup l k _ HI); [vm_compute; reflexivity|vm_compute; reflexivity|cells]
  |apply (by_lookup l k _ HI); [vm_compute; reflexivity|vm_compute; reflexivity|cells]
  |exact (renum_compl _ l k i HI)
  |exact (renum_rest _ l k i)].

Definition ties_check (l : list nat) (i : @input qarith) : bool :=
  forallb (λ x, forallb (λ y, match in_prio i !! x, in_prio i !! y with
    | Some wx, Some w_y => wlt wx w_y || wlt w_y wx || bool_decide (y ≤ x) || bool_decide (by_list l x < by_list l y)
    | _, _ => true end) (seq 0 (length (in_prio i)))) (seq 0 (length (in_prio i))).
Lemma ties_check_ok l i : ties_check l i = true → keeps_ties (by_list l) i.
Proof.
  unfold ties_check. rewrite forallb_forall. intros HF x y wx w_y Hx Hy H1 H2 Hlt.
  specialize (HF x ltac:(apply in_seq; apply lookup_lt_Some in Hx; lia)). rewrite forallb_forall in HF.
  specialize (HF y ltac:(apply in_seq; apply lookup_lt_Some in Hy; lia)). cbv beta in HF. rewrite Hx, Hy, H1, H2 in HF.
  simpl in HF. rewrite bool_decide_eq_false_2 in HF by lia. simpl in HF. by apply bool_decide_eq_true in HF.
Qed.

(** The 3 x 3 grid; cells 0 and 8 have the same priority, cells 3 and 4 too. *)
Definition l9 : list nat := [3;8;5;6;7;2;1;0;4].
Definition k9 : list nat := [7;6;5;0;8;2;3;4;1].
Definition grid9_p : @input qarith := put_prio (grid9_ord 0) (up9 1).
(** A ring of six cells without boundary, with the other kind of pool. *)
Definition l6 : list nat := [4;2;0;5;1;3].
Definition k6 : list nat := [2;4;1;5;0;3].
Definition ring6_p : @input qarith :=
  put_prio (mk_input [[5;1];[0;2];[1;3];[2;4];[3;5];[4;0]] (replicate 6 0%Z) 1 false 2 4 4 1) (map (λ z, qc z 1) [1;6;3;2;4;5]%Z).

Lemma C60_ex :
  (relabelled (by_list l9) (by_list k9) grid9_p (renum (qc 1 1) l9 k9 grid9_p) ∧
   good_call grid9_p o0 ∧ ¬ aniso_on grid9_p o0 ∧ keeps_ties (by_list l9) grid9_p ∧ in_order grid9_p = 0%Z ∧
   simple_csr (in_row grid9_p) (in_col grid9_p) ∧ sym_weights (in_row grid9_p) (in_col grid9_p) (in_val grid9_p) ∧
   in_corr grid9_p = true ∧ corr_size grid9_p = 1%Z ∧
   agglomerate_one_level grid9_p o0 = (Outs [1;1;2;0;0;2;0;0;2] [] [], Ok ()) ∧
   agglomerate_one_level (renum (qc 1 1) l9 k9 grid9_p) o0 = (Outs [0;0;2;1;2;2;0;0;1] [] [], Ok ())) ∧
  (relabelled (by_list l6) (by_list k6) ring6_p (renum (qc 1 1) l6 k6 ring6_p) ∧
   good_call ring6_p o0 ∧ ¬ aniso_on ring6_p o0 ∧ keeps_ties (by_list l6) ring6_p ∧ keeps_levels (by_list l6) ring6_p ∧
   agglomerate_one_level ring6_p o0 = (Outs [0;0;0;0;1;1] [] [], Ok ()) ∧
   agglomerate_one_level (renum (qc 1 1) l6 k6 ring6_p) o0 = (Outs [0;1;0;1;0;0] [] [], Ok ())).
Proof.
  assert (good_call grid9_p o0) as HG by (apply good_off; [done|vm_compute; reflexivity]).
  assert (good_call ring6_p o0) as HG' by (apply good_off; [done|vm_compute; reflexivity]).
  split.
  - split; [relabel grid9_p l9 k9 24|]. split; [exact HG|]. split; [by intros [? _]|].
    split; [apply ties_check_ok; vm_compute; reflexivity|]. split; [done|].
    split; [apply (good_simple _ _ HG); vm_compute; reflexivity|]. split; [sym_tac HG|]. split; [done|].
    split_and!; vm_compute; reflexivity.
  - split; [relabel ring6_p l6 k6 12|]. split; [exact HG'|]. split; [by intros [? _]|].
    split; [apply ties_check_ok; vm_compute; reflexivity|]. split.
    + intros x y bx b_y Hx Hy. change (in_bnd ring6_p) with (replicate 6 0%Z) in Hx, Hy.
      apply lookup_replicate in Hx as [-> _]. apply lookup_replicate in Hy as [-> _]. done.
    + split; vm_compute; reflexivity.
Qed.

(** Two paths of three cells; those of the second one, 3, 4 and 5, have 0, 0 and
    1 boundary faces, and the queues are empty when they are reached.  Called 5,
    4 and 3, they are not cut the same way. *)
Definition l6b : list nat := [0;1;2;5;4;3].
Definition two_paths : @input qarith :=
  put_prio (mk_input [[1];[0;2];[1];[4];[3;5];[4]] [2;0;0;0;0;1]%Z 1 false 2 2 2 1) (map (λ z, qc z 1) [6;5;4;3;2;1]%Z).
Lemma numbers_refuted : ∃ (i i' : @input qarith) o f h,
  @exact_arith qarith ∧ total_order qarith ∧ good_call i o ∧ simple_csr (in_row i) (in_col i) ∧
  sym_weights (in_row i) (in_col i) (in_val i) ∧ in_ar i ≠ 8%Z ∧ in_corr i = false ∧ ¬ aniso_on i o ∧
  relabelled f h i i' ∧ keeps_ties f i ∧ in_order i = 1%Z ∧
  o_fc2cc (agglomerate_one_level i o).1 = [0;0;1;2;2;3] ∧
  f <$> seq 0 6 = [0;1;2;5;4;3] ∧ o_fc2cc (agglomerate_one_level i' o).1 = [0;0;1;2;2;3].
Proof.
  exists two_paths, (renum (qc 1 1) l6b l6b two_paths), o0, (by_list l6b), (by_list l6b).
  assert (good_call two_paths o0) as HG by (apply good_off; [done|vm_compute; reflexivity]).
  split; [exact q_exact|]. split; [exact q_total|]. split; [exact HG|].
  split; [apply (good_simple _ _ HG); vm_compute; reflexivity|].
  split; [sym_tac HG|]. split; [discriminate|]. split; [done|]. split; [by intros [? _]|].
  split; [relabel two_paths l6b l6b 8|]. split; [apply ties_check_ok; vm_compute; reflexivity|].
  split; [done|]. split_and!; vm_compute; reflexivity.
Qed.

(** Without priorities to tell them apart, the first seed of a path of three
    cells is the one with the lowest number. *)
Definition path3 : @input qarith := mk_input [[1];[0;2];[1]] [1;0;1]%Z 0 false 2 2 2 1.
Lemma ties_refuted : ∃ (i i' : @input qarith) o f h,
  @exact_arith qarith ∧ total_order qarith ∧ good_call i o ∧ simple_csr (in_row i) (in_col i) ∧
  sym_weights (in_row i) (in_col i) (in_val i) ∧ in_ar i ≠ 8%Z ∧ in_corr i = false ∧ ¬ aniso_on i o ∧
  relabelled f h i i' ∧ in_order i = 0%Z ∧
  o_fc2cc (agglomerate_one_level i o).1 = [0;0;1] ∧
  f <$> seq 0 3 = [2;1;0] ∧ o_fc2cc (agglomerate_one_level i' o).1 = [0;0;1].
Proof.
  exists path3, (renum (qc 1 1) [2;1;0] [2;1;0] path3), o0, (by_list [2;1;0]), (by_list [2;1;0]).
  assert (good_call path3 o0) as HG by (apply good_off; [done|vm_compute; reflexivity]).
  split; [exact q_exact|]. split; [exact q_total|]. split; [exact HG|].
  split; [apply (good_simple _ _ HG); vm_compute; reflexivity|].
  split; [sym_tac HG|]. split; [discriminate|]. split; [done|]. split; [by intros [? _]|].
  split; [relabel path3 [2;1;0] [2;1;0] 4|]. split; [done|]. split_and!; vm_compute; reflexivity.
Qed.
