(** * CoarseE: examples and counter-examples for Util.h (C19-C25) *)

From Coq Require Import QArith Qcanon.
From Verif Require Import Inst SpecCoarse UtilM CorrectP CoarseT CoarseU WallT.
#[local] Open Scope Z_scope.
#[local] Open Scope nat_scope.
#[local] Existing Instance qarith | 100.

(** ** Wall distance *)

(** Two components; the wall is cell 0. *)
Lemma C19_ex : csr 5 (row_of 0 [[1]; [0; 2]; [1]; [4]; [3]]) [1; 0; 2; 1; 4; 3] ∧
  csr_sym (row_of 0 [[1]; [0; 2]; [1]; [4]; [3]]) [1; 0; 2; 1; 4; 3] ∧
  wall_distance (row_of 0 [[1]; [0; 2]; [1]; [4]; [3]]) [1; 0; 2; 1; 4; 3] [0] [7; 7]%Z = Ok [0; 1; 2; -1; -1]%Z.
Proof. split_and!; [apply csr_check_ok|apply sym_check_ok|]; vm_compute; reflexivity. Qed.

(** ** Filter *)

Lemma C25_ex : length [0; 1; 3; 4] = S (length [1; 1; 0]%Z) ∧
  filter_cells [0; 1; 3; 4] [1; 1; 0]%Z [2; 3]%Z = Ok [0; 1].
Proof. done. Qed.
Lemma C25_ref : ∃ idx bnd allowed l c, csr 3 idx [1; 0] ∧ length bnd = 3 ∧
  filter_cells idx bnd allowed = Ok l ∧ c ∈ l ∧ n_edges idx bnd c 0.
Proof.
  exists [0; 1; 2; 2], [0; 0; 0]%Z, [0; 1]%Z, [0; 1; 2], 2.
  split_and!; [apply csr_check_ok; vm_compute; reflexivity|done|done|set_solver|].
  exists 2, 2, 0%Z. done.
Qed.

(** ** Coarse graphs *)

Definition fine_check (f : fgraph) (f2c : list nat) : bool :=
  let n := length f2c in
  bool_decide (0 < n) && csr_check n (fg_idx f) (fg_adj f)
  && bool_decide (length (fg_vol f) = n) && bool_decide (length (fg_cen f) = n)
  && forallb (λ c, bool_decide (length c = length (default [] (fg_cen f !! 0)))) (fg_cen f)
  && bool_decide (length (fg_prio f) = n) && bool_decide (length (fg_bnd f) = n)
  && bool_decide (n ≤ length (fg_wgt f)).
Lemma fine_check_ok f f2c : fine_check f f2c = true → fine_ok f f2c.
Proof.
  unfold fine_check. rewrite !andb_true_iff, !bool_decide_eq_true, !forallb_forall.
  intros [[[[[[[H1 H2] H3] H4] H5] H6] H7] H8]. apply csr_check_ok in H2. split; try done.
  - intros x c0 c Hc0 Hc. specialize (H5 c). rewrite bool_decide_eq_true, Hc0 in H5.
    apply H5, elem_of_list_In. by eapply elem_of_list_lookup_2.
  - intros x y (a & b & k & _ & _ & _ & Hk) _. apply (csr_col _ _ _ H2) in Hk. lia.
Qed.

(** A chain of four cells; [w], [v], [p] give weights, volumes, priorities. *)
Definition chain4 (w v p : list Qc) : fgraph :=
  @FGraph qarith [0; 1; 3; 5; 6] [1; 0; 2; 1; 3; 2] w v
    [[qc 0 1]; [qc 1 1]; [qc 2 1]; [qc 3 1]] p [1; 0; 0; 2]%Z.
Definition q4 (a b c d : Z) : list Qc := [qc a 1; qc b 1; qc c 1; qc d 1].
Definition f2c4 : list nat := [0; 0; 1; 1].
Definition chain4u : fgraph := chain4 (replicate 6 (qc 1 1)) (q4 1 1 1 1) (q4 1 2 3 4).
Definition run_cg (r : res cgraph) : cgraph := match r with Ok g => g | Err _ => CGraph [] [] [] [] [] [] [] end.
Definition chain4u_g : cgraph := run_cg (build_coarse_graph chain4u f2c4).

Lemma C20_ex : fine_ok chain4u f2c4 ∧ csr_sym (fg_idx chain4u) (fg_adj chain4u) ∧
  build_coarse_graph chain4u f2c4 = Ok chain4u_g ∧ cg_idx chain4u_g = [0; 1; 2] ∧ cg_adj chain4u_g = [1; 0].
Proof. split_and!; [apply fine_check_ok|apply sym_check_ok|..]; vm_compute; reflexivity. Qed.
Lemma C20_isolated_ex : ∀ x, x < length f2c4 → ∃ y, edge (fg_idx chain4u) (fg_adj chain4u) x y.
Proof.
  intros x Hx. do 4 (destruct x as [|x]; [eexists; apply elem_of_nbl; vm_compute; left|]).
  simpl in Hx. lia.
Qed.
(** Out of bounds: two isolated cells come before the only face. *)
Lemma C20_ref : ∃ f f2c, let n := length f2c in
  csr n (fg_idx f) (fg_adj f) ∧ csr_sym (fg_idx f) (fg_adj f) ∧ simple_csr (fg_idx f) (fg_adj f) ∧
  length (fg_wgt f) = length (fg_adj f) ∧ length (fg_vol f) = n ∧ length (fg_cen f) = n ∧
  length (fg_prio f) = n ∧ length (fg_bnd f) = n ∧
  (∀ c, c < 4 ↔ c ∈ f2c) ∧ build_coarse_graph f f2c = Err EUB.
Proof.
  exists (@FGraph qarith [0; 0; 0; 1; 2] [3; 2] [qc 1 1; qc 1 1] (q4 1 1 1 1)
    [[qc 0 1]; [qc 1 1]; [qc 2 1]; [qc 3 1]] (q4 1 1 1 1) [1; 1; 1; 1]%Z), [0; 1; 2; 3].
  intros n. split_and!; try done.
  - apply csr_check_ok. vm_compute. reflexivity.
  - apply sym_check_ok. vm_compute. reflexivity.
  - intros x. split.
    + do 5 (destruct x as [|x]; [vm_compute; repeat constructor; set_solver|]). vm_compute. constructor.
    + intros He. apply elem_of_nbl in He.
      do 5 (destruct x as [|x]; [apply (bool_decide_eq_true_2 _) in He; vm_compute in He; done|]).
      vm_compute in He. by apply elem_of_nil in He.
  - intros c. split; [|set_solver by lia]. intros Hc.
    do 4 (destruct c as [|c]; [set_solver|]). lia.
Qed.

Lemma C21_ex : build_coarse_graph chain4u f2c4 = Ok chain4u_g ∧ cg_vol chain4u_g = [qc 2 1; qc 2 1] ∧
  length (fg_vol chain4u) = length f2c4 ∧
  (∀ a b c : W, wadd a (wadd b c) = wadd (wadd a b) c) ∧ (∀ a b : W, wadd a b = wadd b a) ∧ (∀ a : W, wadd w0 a = a).
Proof.
  split_and!; [apply C20_ex|vm_compute; reflexivity|done|..]; simpl; intros.
  - apply Qcplus_assoc.
  - apply Qcplus_comm.
  - change (0 + a = a)%Qc. apply Qcplus_0_l.
Qed.

Lemma C22_ex : fine_ok chain4u f2c4 ∧ coarse_pos chain4u_g 0 0 1 ∧ cg_wgt chain4u_g !! 0 = Some (qc 1 1) ∧
  length (fg_wgt chain4u) = length (fg_adj chain4u) ∧ ∀ w, w ∈ fg_wgt chain4u → w = qc 1 1.
Proof.
  split_and!; [apply C20_ex| |vm_compute; reflexivity|done|].
  - exists 0, 1. split_and!; try lia; vm_compute; reflexivity.
  - intros w Hw. change (w ∈ replicate 6 (qc 1 1)) in Hw. by apply elem_of_replicate in Hw as [-> _].
Qed.
Definition chain4w : fgraph := chain4 [qc 1 1; qc 1 1; qc 5 1; qc 5 1; qc 7 1; qc 7 1] (q4 1 1 1 1) (q4 1 1 1 1).
(** The face between the two coarse cells has weight five; the weight found
    from the second one is one. *)
Lemma C22_ref : ∃ f f2c g k a b w, fine_ok f f2c ∧ csr_sym (fg_idx f) (fg_adj f) ∧
  length (fg_wgt f) = length (fg_adj f) ∧ build_coarse_graph f f2c = Ok g ∧
  coarse_pos g k a b ∧ cg_wgt g !! k = Some w ∧
  w ≠ wsum_l (omap (λ k, fg_wgt f !! k) (faces f f2c a b)).
Proof.
  exists chain4w, f2c4, (run_cg (build_coarse_graph chain4w f2c4)), 1, 1, 0, (qc 1 1). split_and!.
  - apply fine_check_ok. vm_compute. reflexivity.
  - apply sym_check_ok. vm_compute. reflexivity.
  - done.
  - vm_compute. reflexivity.
  - exists 1, 2. split_and!; try lia; vm_compute; reflexivity.
  - vm_compute. reflexivity.
  - intros Heq. apply (f_equal (λ w : Qc, Qnum w)) in Heq. vm_compute in Heq. discriminate Heq.
Qed.

Lemma C23_ex : fine_ok chain4u f2c4 ∧ cg_cen chain4u_g = [[qc 1 2]; [qc 5 2]] ∧
  let N := wofZ (Z.of_nat (length (fine_of f2c4 0))) in
  (∀ a : W, wmul (wmul a (wdiv w1 N)) N = a) ∧ wsum_l (omap (λ y, fg_vol chain4u !! y) (fine_of f2c4 0)) = N.
Proof.
  split_and!; [apply C20_ex|vm_compute; reflexivity|]. intros N.
  assert (N = qc 2 1) as -> by (vm_compute; reflexivity). split; [|vm_compute; reflexivity].
  intros a. change (a * (1 / qc 2 1) * qc 2 1 = a)%Qc. field. done.
Qed.
Definition chain4v : fgraph := chain4 (replicate 6 (qc 1 1)) (q4 4 4 1 1) (q4 1 1 1 1).
(** The centre of a coarse cell made of cells of volume four is not between
    their centres. *)
Lemma C23_ref : ∃ f f2c g x, fine_ok f f2c ∧ build_coarse_graph f f2c = Ok g ∧
  cg_cen g !! 0 = Some [x] ∧
  (∀ y v, f2c !! y = Some 0 → fg_vol f !! y = Some v → wlt w0 v = true) ∧
  (∀ y z, f2c !! y = Some 0 → fg_cen f !! y = Some [z] → wlt z x = true).
Proof.
  exists chain4v, f2c4, (run_cg (build_coarse_graph chain4v f2c4)),
    (match cg_cen (run_cg (build_coarse_graph chain4v f2c4)) !! 0 with Some [x] => x | _ => qc 0 1 end). split_and!.
  - apply fine_check_ok. vm_compute. reflexivity.
  - vm_compute. reflexivity.
  - vm_compute. reflexivity.
  - intros y v Hy Hv. destruct y as [|[|[|[|y]]]]; simpl in *; simplify_eq; vm_compute; reflexivity.
  - intros y v Hy Hv. destruct y as [|[|[|[|y]]]]; simpl in *; simplify_eq; vm_compute; reflexivity.
Qed.

Lemma C24_ex : fine_ok chain4u f2c4 ∧ weak_order wlt (λ w, w ∈ wminv :: fg_prio chain4u) ∧
  (∀ b, b ∈ fg_bnd chain4u → (int_min <= b)%Z) ∧
  cg_prio chain4u_g = [qc 2 1; qc 4 1] ∧ cg_bnd chain4u_g = [1; 2]%Z.
Proof.
  split_and!; [apply C20_ex|apply q_weak_order| |vm_compute; reflexivity..].
  unfold int_min. simpl. intros b Hb. set_solver by lia.
Qed.
Definition chain4p : fgraph := chain4 (replicate 6 (qc 1 1)) (q4 1 1 1 1) (replicate 4 (qc 0 1)).
(** All priorities are zero, the coarse ones are not. *)
Lemma C24_ref : ∃ f f2c g p, fine_ok f f2c ∧ build_coarse_graph f f2c = Ok g ∧
  (∀ w, w ∈ fg_prio f → w = w0) ∧ cg_prio g !! 0 = Some p ∧ wlt w0 p = true.
Proof.
  exists chain4p, f2c4, (run_cg (build_coarse_graph chain4p f2c4)), wminv. split_and!.
  - apply fine_check_ok. vm_compute. reflexivity.
  - vm_compute. reflexivity.
  - intros w Hw. change (w ∈ replicate 4 (qc 0 1)) in Hw. by apply elem_of_replicate in Hw as [-> _].
  - vm_compute. reflexivity.
  - vm_compute. reflexivity.
Qed.
