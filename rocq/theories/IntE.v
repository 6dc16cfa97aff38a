(** * IntE: examples for C54 *)

From Coq Require Import QArith Qcanon.
From Verif Require Import Lib Inst Main MainP Spec SpecInt ApiE Machine IntP IntU.
#[local] Open Scope Z_scope.
#[local] Open Scope nat_scope.

Section thm.
Context {A : Arith} {H : HashOrder}.
Lemma C54_no_overflow_lem (i : input) o D : good_call i o → fits_int i D →
  agglomerate_checked i o = agglomerate_one_level i o ∧ (agglomerate_checked i o).2 = Ok ().
Proof.
  intros HG HF. rewrite (checked_same i o D HG HF). split; [done|].
  destruct (main_run i o HG) as (? & ? & ? & ? & ? & ? & _ & _ & _ & _ & _ & _ & ->). done.
Qed.
Lemma C54_only_overflow_lem (i : input) o :
  agglomerate_checked i o = agglomerate_one_level i o ∨ (agglomerate_checked i o).2 = Err EUB.
Proof. apply checked_or_ub. Qed.
End thm.

#[local] Existing Instance qarith | 100.
#[local] Existing Instance ord_id | 100.

Definition fits_check (i : @input qarith) (D : nat) : bool :=
  bool_decide (Z.of_nat (in_n i) + 3 <= big)%Z && bool_decide (in_max i <= big)%Z
  && forallb (λ x, bool_decide (length (nb_list (in_row i) (in_col i) x) ≤ D)) (seq 0 (in_n i))
  && bool_decide (Z.min (in_max i) (Z.of_nat (in_n i)) * (2 * Z.of_nat D + 4) <= big)%Z
  && bool_decide (Z.of_nat D * Z.of_nat D <= big)%Z.
Lemma fits_check_ok i D : wf_mesh i → fits_check i D = true → fits_int i D.
Proof.
  intros WM. unfold fits_check. rewrite !andb_true_iff, !bool_decide_eq_true, forallb_forall.
  intros [[[[H1 H2] H3] H4] H5]. split; try done. intros x. destruct (decide (x < in_n i)) as [Hx|Hx].
  - specialize (H3 x). rewrite bool_decide_eq_true in H3. apply H3, in_seq. lia.
  - change (nb_list (in_row i) (in_col i) x) with (GraphP.adj (graph_of i) x).
    rewrite (GraphP.adj_nil _ (mesh_wfg i WM)); [simpl; lia|]. change (g_n (graph_of i)) with (in_n i). lia.
Qed.

(** The nine squares fit, and the sizes of the coarse cells may even be
    the largest integer. *)
Lemma C54_no_overflow_ex : good_call grid9_in o0 ∧ fits_int grid9_in 4 ∧
  agglomerate_checked grid9_in o0 = agglomerate_one_level grid9_in o0 ∧ length (o_fc2cc (agglomerate_checked grid9_in o0).1) = 9.
Proof.
  split_and!.
  - apply good_off; [done|]. vm_compute. reflexivity.
  - apply fits_check_ok; [apply grid9_wf|]. vm_compute. reflexivity.
  - vm_compute. reflexivity.
  - vm_compute. reflexivity.
Qed.
Definition grid9_max : @input qarith := mk_input grid9 grid9_bnd 0 true 2 4 2147483647 1.
Lemma C54_no_overflow_max : good_call grid9_max o0 ∧ fits_int grid9_max 4 ∧
  (agglomerate_checked grid9_max o0).2 = Ok ().
Proof.
  assert (good_call grid9_max o0) as HG by (apply good_off; [done|]; vm_compute; reflexivity).
  split_and!; [done| |vm_compute; reflexivity].
  apply fits_check_ok; [apply HG|]. vm_compute. reflexivity.
Qed.

(** Both cases of the dichotomy occur. *)
Definition neg2 (b : Z) : @input qarith := mk_input [[1];[0]] [0%Z; b] 0 true 2 2 2 1.
Lemma C54_only_overflow_ex :
  agglomerate_checked (neg2 (-1)) o0 = agglomerate_one_level (neg2 (-1)) o0 ∧
  (agglomerate_checked (neg2 (-2147483648)) o0).2 = Err EUB.
Proof. split; vm_compute; reflexivity. Qed.

(** A negative number of boundary faces, which nothing rejects. *)
Lemma C54_negative_counts_lem : ∃ (i : @input qarith) (o : outs),
  accepted i ∧ fits_int i 1 ∧ (∀ b, b ∈ in_bnd i → (-2147483648 <= b <= 0)%Z) ∧
  (agglomerate_one_level i o).2 = Ok () ∧ (agglomerate_checked i o).2 = Err EUB.
Proof.
  exists (neg2 (-2147483648)), o0. split_and!.
  - apply acc_check_ok. vm_compute. reflexivity.
  - split; try (vm_compute; done). intros x. do 2 (destruct x as [|x]; [vm_compute; lia|]).
    unfold nb_list. simpl. destruct x; simpl; lia.
  - intros b Hb. simpl in Hb. rewrite !elem_of_cons, elem_of_nil in Hb. destruct Hb as [-> |[-> |[]]]; lia.
  - vm_compute. reflexivity.
  - vm_compute. reflexivity.
Qed.
