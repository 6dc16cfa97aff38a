(** * DoubleE: examples and counter-example for C59 *)

From Verif Require Import Spec SpecSub SpecFeat SpecHash SpecReord Main Inst GrowE Double SpecDouble DoubleT.
#[local] Open Scope Z_scope.
#[local] Open Scope nat_scope.

Definition dbl : Arith := double d_sum.
#[local] Existing Instance dbl | 10.
#[local] Existing Instance ord_id | 10.

(** A call on the graph [l]; no correction, coarse cells of two cells. *)
Definition mk_double (l : list (list nat)) (val vol : list spec_float) (cen : list (list spec_float))
    (prio : list spec_float) (ar : Z) : @input dbl :=
  @Input dbl (row_of 0 l) (concat l) val vol cen prio (seq 0 (length l)) (replicate (length l) 0%Z)
    false false false (d_of 4 0) 0 false 2 2 2 2 ar 1 None 0 false 1 0.

Definition o0 : outs := Outs [] [] [].
Definition acc_check (i : @input dbl) : bool :=
  (bool_decide (in_dim i = 2%Z) || bool_decide (in_dim i = 3%Z))
  && bool_decide (1 < in_min i)%Z && bool_decide (in_min i <= in_goal i)%Z
  && bool_decide (in_goal i <= in_max i)%Z && bool_decide (1 <= in_iter i <= 4)%Z
  && bool_decide (0 < in_sing i)%Z && bool_decide (in_order i ∈ [0; 1]%Z)
  && bool_decide (0 <= in_ar i <= 9)%Z.
Lemma dc_check (i : @input dbl) : in_aniso i = false → in_build i = false →
  wf_check i && acc_check i && forallb (λ w, match w with S754_nan => false | _ => true end) (in_prio i) = true →
  double_call d_sum i o0.
Proof.
  intros Ha Hb. rewrite !andb_true_iff. intros [[H1 H2] H4].
  revert H1. unfold wf_check. rewrite !andb_true_iff, !bool_decide_eq_true.
  intros [[[[[[[[[[W1 W2] W3] W4] W5] W6] W7] W8] W9] W10] W11].
  rewrite forallb_forall in W7, W10, W11, H4. split.
  - exact W1.
  - by apply csr_check_ok.
  - by apply sym_check_ok.
  - exact W4.
  - exact W5.
  - exact W6.
  - exists (Z.to_nat (in_dim i)). intros k c Hc. specialize (W7 c).
    rewrite bool_decide_eq_true in W7. apply W7, elem_of_list_In. by eapply elem_of_list_lookup_2.
  - exact W8.
  - intros Hin. apply elem_of_list_In in Hin. by specialize (H4 _ Hin).
  - exact W9.
  - intros k b Hk. specialize (W10 b). rewrite bool_decide_eq_true in W10.
    apply W10, elem_of_list_In. by eapply elem_of_list_lookup_2.
  - intros c Hc. specialize (W11 c). rewrite bool_decide_eq_true in W11. by apply W11, elem_of_list_In.
  - revert H2. unfold acc_check. rewrite !andb_true_iff, orb_true_iff, !bool_decide_eq_true.
    intros [[[[[[[? ?] ?] ?] ?] ?] Ho] ?]. split; try done. set_solver.
  - revert H2. unfold acc_check. rewrite !andb_true_iff, orb_true_iff, !bool_decide_eq_true.
    intros [[[[[[[? ?] ?] ?] ?] ?] Ho] ?]. rewrite !elem_of_cons, elem_of_nil in Ho. unfold dbl in *. lia.
  - intros Hb'. change (in_build i = true) in Hb'. congruence.
  - intros Ha'. change (in_aniso i = true) in Ha'. congruence.
  - intros [Ha' _]. change (in_aniso i = true) in Ha'. congruence.
Qed.

(** A path of four cells with a NaN and an infinite weight, volumes 0, -0, infinity
    and a subnormal one, and an infinite coordinate. *)
Definition odd4 : @input dbl :=
  mk_double [[1];[0;2];[1;3];[2]] [d_of 1 0; d_of 1 0; S754_nan; S754_nan; S754_infinity false; S754_infinity false]
    [S754_zero false; S754_zero true; S754_infinity false; d_of 1 (-1070)]
    [[d_of 0 0; d_of 0 0]; [S754_infinity true; d_of 1 0]; [d_of 1 1000; S754_zero true]; [d_of 3 0; d_of 0 0]]
    [d_of 4 0; d_of 3 0; S754_infinity true; d_of 3 0] 0.
Lemma C59_ex : double_call d_sum odd4 o0 ∧ agglomerate_one_level odd4 o0 = (Outs [0;0;1;1] [] [], Ok ()).
Proof.
  split; [apply dc_check; [done|done|vm_compute; reflexivity]|vm_compute; reflexivity].
Qed.

Lemma double_good_ex : double_call d_sum odd4 o0 ∧ S754_nan ∈ (in_val odd4 : list spec_float).
Proof. split; [apply C59_ex|]. vm_compute. repeat first [by left|right]. Qed.

(** Cell 1 has faces of weights 1, 2^-53 and 2^-53: their sum is 1 or 1 + 2^-52
    depending on the order. *)
Definition fork6 (r1 : list nat) (v1 : list spec_float) : @input dbl :=
  mk_double [[1;2]; r1; [0;5]; [1]; [1]; [2]]
    ([d_of 1 (-53); d_of 1 (-53)] ++ v1 ++ [d_of 1 (-53); d_of 1 0; d_of 1 0; d_of 1 (-53); d_of 1 0])
    (replicate 6 (d_of 1 0)) (replicate 6 [d_of 0 0; d_of 0 0])
    [d_of 6 0; d_of 5 0; d_of 4 0; d_of 3 0; d_of 2 0; d_of 1 0] 6.
Definition fork_a := fork6 [3;4;0] [d_of 1 0; d_of 1 (-53); d_of 1 (-53)].
Definition fork_b := fork6 [4;0;3] [d_of 1 (-53); d_of 1 (-53); d_of 1 0].

Lemma fork_out : ∀ x, 6 ≤ x → entries (in_row fork_a) (in_col fork_a) (in_val fork_a) x = [].
Proof.
  intros x Hx. unfold entries. rewrite (lookup_ge_None_2 (in_row fork_a) (S x)); [by destruct (in_row fork_a !! x)|].
  change (length (in_row fork_a)) with 7. lia.
Qed.
Lemma double_face_order_refuted : ∃ (i : @input dbl) o row col val,
  double_call d_sum i o ∧ in_aniso i = false ∧ in_corr i = false ∧ simple_csr (in_row i) (in_col i) ∧
  sym_weights (in_row i) (in_col i) (in_val i) ∧ relisted i row col val ∧
  o_fc2cc (agglomerate_one_level i o).1 = [0;0;1;2;3;1] ∧
  o_fc2cc (agglomerate_one_level (put_csr i row col val) o).1 = [0;1;0;1;2;3].
Proof.
  exists fork_a, o0, (in_row fork_b), (in_col fork_b), (in_val fork_b).
  assert (double_call d_sum fork_a o0) as HD by (apply dc_check; [done|done|vm_compute; reflexivity]).
  split; [exact HD|]. split; [done|]. split; [done|].
  split. { apply (simple_check_ok (in_n fork_a)); [apply HD|vm_compute; reflexivity]. }
  split.
  { intros x y. destruct (decide (6 ≤ x)) as [Hx|Hx].
    - unfold faces_to at 1. rewrite fork_out by done. simpl.
      destruct (decide (6 ≤ y)) as [Hy|Hy]; [unfold faces_to; by rewrite fork_out|].
      do 6 (destruct x as [|x]; [lia|]). do 6 (destruct y as [|y]; [vm_compute; reflexivity|]). lia.
    - destruct (decide (6 ≤ y)) as [Hy|Hy].
      + unfold faces_to at 2. rewrite fork_out by done. simpl.
        do 6 (destruct y as [|y]; [lia|]). do 6 (destruct x as [|x]; [vm_compute; reflexivity|]). lia.
      + do 6 (destruct x as [|x]; [do 6 (destruct y as [|y]; [vm_compute; reflexivity|]); lia|]). lia. }
  split.
  { split.
    - apply csr_check_ok. vm_compute. reflexivity.
    - vm_compute. reflexivity.
    - intros x. destruct (decide (6 ≤ x)) as [Hx|Hx].
      { rewrite fork_out by done. unfold entries. rewrite (lookup_ge_None_2 (in_row fork_b) (S x)); [by destruct (in_row fork_b !! x)|].
        change (length (in_row fork_b)) with 7. lia. }
      destruct x as [|x]; [vm_compute; reflexivity|]. destruct x as [|x].
      { vm_compute. symmetry. refine (Permutation_cons_append [_; _] _). }
      do 4 (destruct x as [|x]; [vm_compute; reflexivity|]). lia. }
  split; vm_compute; reflexivity.
Qed.
