(** * Inst: exact rational arithmetic, concrete meshes

    Used by the examples showing that hypotheses can be met and by the
    counter-examples.  Nothing in here is part of the model. *)

From Coq Require Import QArith Qcanon.
From Verif Require Export Lib Main Spec.

#[global] Open Scope Z_scope.
#[global] Open Scope nat_scope.

Definition qc (z : Z) (p : positive) : Qc := Q2Qc (z # p).
Definition qlt (x y : Qc) : bool := match Qccompare x y with Lt => true | _ => false end.

(** Square root rounded down to a multiple of 1/1000. *)
Definition qsqrt (x : Qc) : Qc :=
  Q2Qc (Z.sqrt ((1000000 * Qnum x) / Zpos (Qden x)) # 1000).

(** Exact rationals; the limits are those of a small type. *)
Definition qarith : Arith := {|
  W := Qc;
  wlt := qlt;
  wle := λ x y, negb (qlt y x);
  weq := λ x y, match Qccompare x y with Eq => true | _ => false end;
  wadd := Qcplus; wsub := Qcminus; wmul := Qcmult; wdiv := Qcdiv;
  wsqrt := qsqrt;
  wabs := λ x, if qlt x (qc 0 1) then Qcopp x else x;
  wsum := λ l, foldl Qcplus (qc 0 1) l;
  wofZ := λ z, qc z 1;
  wmaxv := qc 1000000 1; wminv := qc 1 1000000;
  w090 := qc 9 10; wdev := qc 94 100; wtol := qc 1 1000000000000;
|}.

Lemma qlt_iff x y : qlt x y = true ↔ (x < y)%Qc.
Proof.
  unfold qlt. rewrite Qclt_alt. destruct (x ?= y)%Qc; split; done.
Qed.
Lemma q_weak_order (P : Qc → Prop) : weak_order (@wlt qarith) P.
Proof.
  split; simpl.
  - intros x _. destruct (qlt x x) eqn:E; [|done].
    apply qlt_iff in E. by apply Qcle_not_lt in E; [|apply Qcle_refl].
  - intros x y z _ _ _. rewrite !qlt_iff. apply Qclt_trans.
  - intros x y z _ _ _. rewrite !qlt_iff. intros Hxz.
    destruct (Qclt_le_dec x y) as [?|Hyx]; [by left|]. right. by eapply Qcle_lt_trans.
Qed.

(** Two iteration orders. *)
Definition ord_id : HashOrder :=
  {| hord := λ _ l, l; hord_perm := λ _ l, Permutation_refl l |}.
Definition ord_rev : HashOrder :=
  {| hord := λ _ l, reverse l; hord_perm := λ _ l, reverse_Permutation l |}.

(** ** Checking CSR vectors by computation *)

Definition nbl (row col : list nat) (i : nat) : list nat :=
  match row !! i, row !! S i with
  | Some a, Some b => take (b - a) (drop a col)
  | _, _ => []
  end.
Lemma elem_of_nbl row col i j : j ∈ nbl row col i ↔ edge row col i j.
Proof.
  unfold nbl, edge. split.
  - destruct (row !! i) as [a|] eqn:Ha; [|set_solver].
    destruct (row !! S i) as [b|] eqn:Hb; [|set_solver].
    intros Hj. apply (elem_of_slice col a b j) in Hj as (k & Hk & Hj).
    exists a, b, k. split_and!; try done; lia.
  - intros (a & b & k & -> & -> & Hk & Hj). apply (elem_of_slice col a b j). eauto.
Qed.

Definition csr_check (n : nat) (row col : list nat) : bool :=
  bool_decide (length row = S n)
  && forallb (λ i, match row !! i, row !! S i with
                   | Some a, Some b => bool_decide (a ≤ b) | _, _ => true end) (seq 0 (length row))
  && bool_decide (row !! n = Some (length col))
  && forallb (λ j, bool_decide (j < n)) col.
Lemma csr_check_ok n row col : csr_check n row col = true → csr n row col.
Proof.
  unfold csr_check. rewrite !andb_true_iff, !bool_decide_eq_true, !forallb_forall.
  intros [[[H1 H2] H3] H4]. split; [done| |done|].
  - intros i a b Ha Hb. specialize (H2 i). rewrite Ha, Hb, bool_decide_eq_true in H2.
    apply H2, in_seq. apply lookup_lt_Some in Ha. lia.
  - intros k j Hj. specialize (H4 j). rewrite bool_decide_eq_true in H4.
    apply H4, elem_of_list_In. by eapply elem_of_list_lookup_2.
Qed.
Definition sym_check (row col : list nat) : bool :=
  forallb (λ i, forallb (λ j, bool_decide (i ∈ nbl row col j)) (nbl row col i))
    (seq 0 (length row)).
Lemma sym_check_ok row col : sym_check row col = true → csr_sym row col.
Proof.
  unfold sym_check. rewrite forallb_forall. intros Hs i j Hij.
  assert (In i (seq 0 (length row))) as Hi.
  { destruct Hij as (a & b & k & Ha & _). apply in_seq. apply lookup_lt_Some in Ha. lia. }
  specialize (Hs i Hi). rewrite forallb_forall in Hs.
  apply elem_of_nbl in Hij. specialize (Hs j). rewrite bool_decide_eq_true in Hs.
  apply elem_of_nbl, Hs. by apply elem_of_list_In.
Qed.

Definition wf_check {A : Arith} (i : input) : bool :=
  bool_decide (0 < in_n i) && csr_check (in_n i) (in_row i) (in_col i)
  && sym_check (in_row i) (in_col i)
  && bool_decide (length (in_val i) = length (in_col i))
  && bool_decide (length (in_vol i) = in_n i)
  && bool_decide (length (in_cen i) = in_n i)
  && forallb (λ c, bool_decide (length c = Z.to_nat (in_dim i))) (in_cen i)
  && bool_decide (length (in_prio i) = in_n i)
  && bool_decide (length (in_bnd i) = in_n i)
  && forallb (λ b, bool_decide (0 <= b)%Z) (in_bnd i)
  && forallb (λ c, bool_decide (c < in_n i)) (in_compl i).
Lemma wf_check_ok {A : Arith} (i : input) :
  weak_order wlt (λ w, w ∈ in_prio i) → wf_check i = true → wf_mesh i.
Proof.
  unfold wf_check. intros Ho.
  rewrite !andb_true_iff, !bool_decide_eq_true, !forallb_forall.
  intros [[[[[[[[[[H1 H2] H3] H4] H5] H6] H7] H8] H9] H10] H11]. split; try done.
  - by apply csr_check_ok.
  - by apply sym_check_ok.
  - exists (Z.to_nat (in_dim i)). intros k c Hc. specialize (H7 c).
    rewrite bool_decide_eq_true in H7. apply H7, elem_of_list_In. by eapply elem_of_list_lookup_2.
  - intros k b Hb. specialize (H10 b). rewrite bool_decide_eq_true in H10.
    apply H10, elem_of_list_In. by eapply elem_of_list_lookup_2.
  - intros c Hc. specialize (H11 c). rewrite bool_decide_eq_true in H11.
    by apply H11, elem_of_list_In.
Qed.

(** ** Concrete meshes *)

(** Graphs given by lists of neighbours. *)
Fixpoint row_of (acc : nat) (l : list (list nat)) : list nat :=
  match l with [] => [acc] | x :: l => acc :: row_of (acc + length x) l end.

(** A call on the graph [l] with unit weights and centres on a line;
    the other arguments are the defaults of most tests. *)
Definition mk_input (l : list (list nat)) (bnd : list Z) (order : Z) (corr : bool)
    (mn goal mx sing : Z) : @input qarith :=
  let n := length l in
  @Input qarith (row_of 0 l) (concat l) (map (λ _, qc 1 1) (concat l))
    (replicate n (qc 1 1)) (map (λ k, [qc (Z.of_nat k) 1; qc 0 1]) (seq 0 n))
    (replicate n (qc 1 1)) (seq 0 n) bnd false false false (qc 4 1)
    order corr 2 goal mn mx 2 sing None 0 false 1 0.

(** The 3x3 grid of squares. *)
Definition grid9 : list (list nat) :=
  [[1;3]; [0;2;4]; [1;5]; [0;4;6]; [1;3;5;7]; [2;4;8]; [3;7]; [4;6;8]; [5;7]].
Definition grid9_bnd : list Z := [2;1;2;1;0;1;2;1;2]%Z.
Definition grid9_in : @input qarith := mk_input grid9 grid9_bnd 0 true 2 4 4 1.

Lemma grid9_wf : wf_mesh grid9_in.
Proof. apply wf_check_ok; [apply q_weak_order|vm_compute; reflexivity]. Qed.
