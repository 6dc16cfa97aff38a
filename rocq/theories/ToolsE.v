(** * ToolsE: examples and counter-examples for the helpers (C72-C78) *)

From Coq Require Import QArith Qcanon.
From Verif Require Import Inst Main Spec SpecCoarse SpecHier SpecTools UtilM ToolsM CorrectP CoarseT CoarseU CoarseE WallT ToolsT ToolsU GrowE ApiE GridE.
#[local] Open Scope Z_scope.
#[local] Open Scope nat_scope.
#[local] Existing Instance qarith | 100.
#[local] Existing Instance ord_id | 100.

(** ** Wall distance *)

Definition wi : list nat := row_of 0 [[1]; [0; 2]; [1]; [4]; [3]].
Definition wc : list nat := [1; 0; 2; 1; 4; 3].
(** Two components; the wall is cell 0. *)
Lemma C72_ex : csr 5 wi wc ∧ csr_sym wi wc ∧ (∀ c, c ∈ [0] → c < 5) ∧ (∀ x, x ∈ [0] → ∃ y, edge wi wc x y) ∧
  py_wall_distance (zs wi) (zs wc) [0%Z] = POk [0; 1; 2; -1; -1]%Z ∧ wall_distance wi wc [0] [] = Ok [0; 1; 2; -1; -1]%Z.
Proof.
  split_and!; [apply csr_check_ok; vm_compute; reflexivity|apply sym_check_ok; vm_compute; reflexivity| | |vm_compute; reflexivity..].
  - intros c ->%elem_of_list_singleton. lia.
  - intros x ->%elem_of_list_singleton. exists 1, 0, 1, 0. split_and!; [done|done|lia|lia|done].
Qed.
Lemma C72_full_ex : csr 5 wi wc ∧ (∀ c, c ∈ [0] → c < 5) ∧
  (∀ x k, walk (edge wi wc) (λ _, True) (λ c, c ∈ [0]) k x → ∃ y, edge wi wc x y) ∧
  py_wall_distance (zs wi) (zs wc) [0%Z] = POk [0; 1; 2; -1; -1]%Z.
Proof.
  destruct C72_ex as (H1 & H2 & H3 & H4 & H5 & _). split_and!; [done|done| |done].
  intros x k Hk. inversion Hk as [? Hb|? y ? Hy Hey _]; subst; [by apply H4|]. exists y. by apply H2.
Qed.
(** A wall cell without neighbours. *)
Lemma C72_raise_ex : csr 3 [0; 1; 2; 2] [1; 0] ∧ walk (edge [0; 1; 2; 2] [1; 0]) (λ _, True) (λ c, c ∈ [0; 2]) 0 2 ∧
  (∀ y, ¬ edge [0; 1; 2; 2] [1; 0] 2 y) ∧
  py_wall_distance (zs [0; 1; 2; 2]) (zs [1; 0]) [0; 2]%Z = PRaise ValueError.
Proof.
  split_and!; [apply csr_check_ok; vm_compute; reflexivity|constructor; right; left| |vm_compute; reflexivity].
  intros y He. apply elem_of_nbl in He. vm_compute in He. by apply elem_of_nil in He.
Qed.
Lemma C72_ref : ∃ n idx col wall d, csr n idx col ∧ csr_sym idx col ∧ simple_csr idx col ∧ (∀ c, c ∈ wall → c < n) ∧
  wall_distance idx col wall [] = Ok d ∧ py_wall_distance (zs idx) (zs col) (zs wall) = PRaise ValueError.
Proof.
  exists 3, [0; 1; 2; 2], [1; 0], [0; 2], [0; 1; 0]%Z.
  split_and!; [apply csr_check_ok; vm_compute; reflexivity|apply sym_check_ok; vm_compute; reflexivity| | |vm_compute; reflexivity..].
  - intros x. split.
    + do 4 (destruct x as [|x]; [vm_compute; repeat constructor; set_solver|]). vm_compute. constructor.
    + intros He. apply elem_of_nbl in He.
      do 4 (destruct x as [|x]; [apply (bool_decide_eq_true_2 _) in He; vm_compute in He; done|]).
      vm_compute in He. by apply elem_of_nil in He.
  - intros c [->|[->|?%elem_of_nil]%elem_of_cons]%elem_of_cons; lia || done.
Qed.

(** ** Coarse graphs in Python *)

Definition run_pg (r : pyres pgraph) : pgraph := match r with POk g => g | PRaise _ => PGraph [] [] [] [] [] [] end.

Lemma f2c4_contiguous : contiguous f2c4.
Proof.
  exists 2. intros c. split.
  - intros Hc. destruct c as [|[|c]]; [by exists 0|by exists 2|lia].
  - intros [x Hx]. do 4 (destruct x as [|x]; [injection Hx as <-; lia|]). done.
Qed.
Lemma chain4_vol w p : ∀ c, c ∈ f2c4 → weq (cell_vol (chain4 w (q4 1 3 1 1) p) f2c4 c) w0 = false.
Proof. intros c Hc. destruct c as [|[|c]]; [vm_compute; reflexivity..|]. unfold f2c4 in Hc. set_solver by lia. Qed.
(** Volumes one, three, one, one: the first centre is three quarters. *)
Definition chain4c : fgraph := chain4 (replicate 6 (qc 1 1)) (q4 1 3 1 1) (q4 1 2 3 4).
Lemma C73_ex : fine_ok chain4c f2c4 ∧ contiguous f2c4 ∧ (∀ c, c ∈ f2c4 → weq (cell_vol chain4c f2c4 c) w0 = false) ∧
  py_coarse_of chain4c f2c4 = POk (PGraph [0; 1; 2]%Z [1; 0]%Z [qc 1 1; qc 1 1] [qc 4 1; qc 2 1] [1; 2]%Z [[qc 3 4]; [qc 5 2]]).
Proof.
  split_and!; [apply fine_check_ok; vm_compute; reflexivity|apply f2c4_contiguous|apply chain4_vol|vm_compute; reflexivity].
Qed.
Lemma C73_hole_ex : fine_ok chain4c [0; 0; 2; 2] ∧ ¬ contiguous [0; 0; 2; 2] ∧
  (∀ c, c ∈ [0; 0; 2; 2] → weq (cell_vol chain4c [0; 0; 2; 2] c) w0 = false) ∧
  py_coarse_of chain4c [0; 0; 2; 2] = PRaise AssertionError.
Proof.
  split_and!; [apply fine_check_ok; vm_compute; reflexivity| | |vm_compute; reflexivity].
  - intros [k Hk]. assert (2 < k) as H2 by (apply Hk; by exists 2). destruct (proj1 (Hk 1)) as [x Hx]; [lia|].
    do 4 (destruct x as [|x]; [discriminate Hx|]). discriminate Hx.
  - intros c Hc. destruct c as [|[|[|c]]]; [vm_compute; reflexivity|set_solver by lia|vm_compute; reflexivity|set_solver by lia].
Qed.
Definition chain4y : fgraph := chain4 [qc 1 1; qc 1 1; qc 5 1; qc 5 1; qc 7 1; qc 7 1] (q4 1 3 1 1) (q4 1 1 1 1).
(** The face between the two coarse cells has weight five; the weight found
    from the second one is one. *)
Lemma C73_ref : ∃ f f2c g idx adj a p q k b, fine_ok f f2c ∧ contiguous f2c ∧ csr_sym (fg_idx f) (fg_adj f) ∧
  length (fg_wgt f) = length (fg_adj f) ∧ py_coarse_of f f2c = POk g ∧ pg_row g = zs idx ∧ pg_col g = zs adj ∧
  idx !! a = Some p ∧ idx !! S a = Some q ∧ p ≤ k < q ∧ adj !! k = Some b ∧
  pg_val g !! k ≠ Some (wsum_l (omap (λ k, fg_wgt f !! k) (faces f f2c a b))).
Proof.
  exists chain4y, f2c4, (run_pg (py_coarse_of chain4y f2c4)), [0; 1; 2], [1; 0], 1, 1, 2, 1, 0. split_and!.
  - apply fine_check_ok. vm_compute. reflexivity.
  - apply f2c4_contiguous.
  - apply sym_check_ok. vm_compute. reflexivity.
  - done.
  - vm_compute. reflexivity.
  - vm_compute. reflexivity.
  - vm_compute. reflexivity.
  - done.
  - done.
  - lia.
  - lia.
  - done.
  - intros Heq. apply (f_equal (λ o : option Qc, default 0%Z ((λ w : Qc, Qnum w) <$> o))) in Heq. vm_compute in Heq. discriminate Heq.
Qed.

(** ** Coarse graphs in the tests *)

Definition g_empty : cgraph := @CGraph qarith [] [] [] [] [] [] [].
Lemma fine_data4 w v p : length w = 6 → length v = 4 → fine_data (chain4 w v p) f2c4.
Proof.
  intros Hw Hv. split; try done.
  - simpl. lia.
  - apply csr_check_ok. vm_compute. reflexivity.
  - intros x c0 c [= <-] Hx. do 4 (destruct x as [|x]; [injection Hx as <-; done|]). done.
Qed.
Lemma C74_ex : fine_data chain4y f2c4 ∧ contiguous f2c4 ∧ cg_adj g_empty = [] ∧ cg_wgt g_empty = [] ∧
  tu_build chain4y f2c4 g_empty = Ok (CGraph [0; 1; 2] [1; 0] [qc 5 1; qc 5 1] [qc 4 1; qc 2 1] [[qc 1 2]; [qc 5 2]] [] [1; 2]%Z) ∧
  coarse_pos (CGraph [0; 1; 2] [1; 0] [qc 5 1; qc 5 1] [qc 4 1; qc 2 1] [[qc 1 2]; [qc 5 2]] [] [1; 2]%Z) 1 1 0.
Proof.
  split_and!; [by apply fine_data4|apply f2c4_contiguous|done|done|vm_compute; reflexivity|].
  exists 1, 2. split_and!; [done|done|lia|lia|done].
Qed.
(** The vectors of the coarse graph already hold something. *)
Lemma C74_ref : ∃ f f2c g0 g, fine_data f f2c ∧ contiguous f2c ∧ tu_build f f2c g0 = Ok g ∧
  length (cg_vol g) = 2 ∧ ¬ csr 2 (cg_idx g) (cg_adj g).
Proof.
  exists chain4y, f2c4, (@CGraph qarith [] [7] [qc 1 1] [] [] [] []),
    (run_cg (tu_build chain4y f2c4 (@CGraph qarith [] [7] [qc 1 1] [] [] [] []))).
  split_and!; [by apply fine_data4|apply f2c4_contiguous|vm_compute; reflexivity|vm_compute; reflexivity|].
  intros [_ _ Hlast _]. vm_compute in Hlast. discriminate Hlast.
Qed.

(** ** Lines *)

Lemma wf_lines_ex : wf_lines 6 [0; 2; 5] [3; 1; 0; 5; 4].
Proof.
  split; try done.
  - intros [|[|[|k]]] a b Ha Hb; simpl in *; simplify_eq; lia.
  - repeat constructor; set_solver by lia.
  - intros x Hx. set_solver by lia.
Qed.
(** Two lines, and a coarse cell which is in none. *)
Lemma C75_ex : wf_lines 6 [0; 2; 5] [3; 1; 0; 5; 4] ∧ shuffles (length [0; 2; 5] - 1) None ∧
  line_at [0; 2; 5] [3; 1; 0; 5; 4] 0 [3; 1] ∧ line_id 0 None None 0 = Some 1%Z ∧
  py_line_data (zs [0; 2; 5]) (zs [3; 1; 0; 5; 4]) (zs [0; 1; 2; 3; 3; 5]) 0 None None = POk [2; 1; 0; 1; 1; 2]%Z.
Proof.
  split_and!; [apply wf_lines_ex|done| |done|vm_compute; reflexivity]. exists 0, 2. done.
Qed.
Lemma C75_distinct_ex : shuffles 2 (Some [1; 0]%Z) ∧ line_id 3 None (Some [1; 0]%Z) 0 = Some (-1)%Z ∧
  line_id 3 None (Some [1; 0]%Z) 1 = Some 0%Z.
Proof. split_and!; [|done|done]. simpl. apply Permutation_swap. Qed.
(** The default is positive, the identifier of the first line is not negative. *)
Lemma C75_ref : ∃ n idx cells f2c deflt r x c l z, wf_lines n idx cells ∧ (0 < deflt)%Z ∧
  py_line_data (zs idx) (zs cells) (zs f2c) deflt None None = POk r ∧ line_at idx cells 0 l ∧ c ∈ l ∧
  f2c !! x = Some c ∧ r !! x = Some z ∧ ¬ (z < 0)%Z.
Proof.
  exists 6, [0; 2; 5], [3; 1; 0; 5; 4], [0; 1; 2; 3; 3; 5], 1%Z, [-1; 0; 1; 0; 0; -1]%Z, 1, 1, [3; 1], 0%Z.
  split_and!; [apply wf_lines_ex|lia|vm_compute; reflexivity|by exists 0, 2|right; left|done|done|lia].
Qed.
Lemma C75_limit_ex : wf_lines 6 [0; 2; 5] [3; 1; 0; 5; 4] ∧
  py_limit_lines (zs [0; 2; 5]) [3; 1; 0; 5; 4] (Z.of_nat 2) = POk (zs [0; 2; 4], [3; 1; 0; 5]).
Proof. split; [apply wf_lines_ex|vm_compute; reflexivity]. Qed.

(** ** Drawing *)

Lemma C76_blocks_ex : sum_list [2; 0; 3] = length [7; 8; 9; 8; 7] ∧ [2; 0; 3] ≠ [] ∧
  py_celldata [7; 8; 9; 8; 7] [2; 0; 3] = [[7; 8]; []; [9; 8; 7]].
Proof. done. Qed.
Lemma C76_shuffle_ex : 2 ∈ [0; 0; 2; 1] ∧ (∀ c, c ∈ [0; 0; 2; 1] → c ≤ 2) ∧ [1; 2; 0]%Z ≡ₚ zs (seq 0 3) ∧
  py_aggl_data true (zs [0; 0; 2; 1]) [4] None (Some [1; 2; 0]%Z) = POk ([[1; 1; 0; 2]%Z], [1; 1; 0; 2]%Z).
Proof.
  split_and!; [set_solver|intros c Hc; set_solver by lia| |vm_compute; reflexivity].
  simpl. symmetry. apply (Permutation_cons_append [1; 2]%Z 0%Z).
Qed.
Lemma C76_numbers_ex : 2 ∈ [0; 0; 2; 1] ∧ (∀ c, c ∈ [0; 0; 2; 1] → c ≤ 2) ∧ [1; 2; 0]%Z ≡ₚ zs (seq 0 3) ∧
  py_aggl_data false (zs [0; 0; 2; 1]) [1; 3] (Some 2%Z) (Some [1; 2; 0]%Z) = POk ([[1]; [1; 0; 0]]%Z, zs [0; 0; 2; 1]).
Proof. destruct C76_shuffle_ex as (? & ? & ? & _). split_and!; [done|done|done|vm_compute; reflexivity]. Qed.
(** The caller's array is changed. *)
Lemma C76_ref : ∃ data sizes modulo r data', py_aggl_data true data sizes modulo None = POk (r, data') ∧ data' ≠ data.
Proof. exists [0; 1; 2]%Z, [3], (Some 2%Z), [[0; 1; 0]%Z], [0; 1; 0]%Z. split; [vm_compute; reflexivity|done]. Qed.

(** ** Levels *)

Lemma C77_ex : (∀ x, x < 5 → is_Some (follow [[0; 0; 1; 2; 1]; [1; 0; 0]] x)) ∧
  py_updates 5 (map (λ f : list nat, zs f) [[0; 0; 1; 2; 1]; [1; 0; 0]]) = POk (zs [1; 1; 0; 0; 0]).
Proof.
  split; [|vm_compute; reflexivity]. intros x Hx. do 5 (destruct x as [|x]; [by eexists|]). lia.
Qed.

(** ** Priorities *)

(** A square of four cells, isotropic; every cell is a corner. *)
Definition sq4 : @input qarith := grid_in 2 4 (λ x k, if bool_decide (k = 0) then x `mod` 2 else x / 2) true 2 4 4 0 1 0.
Lemma sq4_good : good_call sq4 o0.
Proof. apply good_off; [done|]. vm_compute. reflexivity. Qed.
Lemma C78_ex : good_call sq4 o0 ∧ ¬ aniso_on sq4 o0 ∧
  (∃ b, in_bnd sq4 !! (in_n sq4 - 1) = Some b ∧ ((in_dim sq4 <= b)%Z ∨ ∀ x b', in_bnd sq4 !! x = Some b' → (b' <= b)%Z)) ∧
  in_n sq4 = 4 ∧ py_weights (in_n sq4) = [qc 3 1; qc 2 1; qc 1 1] ∧
  (agglomerate_one_level sq4 o0).2 = Ok () ∧ agglomerate_one_level (give_prio (py_weights (in_n sq4)) sq4) o0 = (o0, Err EUB).
Proof.
  split_and!; [apply sq4_good| | |vm_compute; reflexivity..].
  - intros [Ha _]. vm_compute in Ha. discriminate Ha.
  - exists 2%Z. split; [vm_compute; reflexivity|]. left. vm_compute. done.
Qed.
Lemma C78_ref : ∃ (i : @input qarith) (o : outs), good_call i o ∧ length (py_weights (in_n i)) ≠ in_n i ∧
  (agglomerate_one_level i o).2 = Ok () ∧ (agglomerate_one_level (give_prio (py_weights (in_n i)) i) o).2 = Err EUB.
Proof.
  exists sq4, o0. destruct C78_ex as (H1 & _ & _ & H4 & H5 & H6 & H7). split_and!; [done| |done|by rewrite H7].
  rewrite H5, H4. simpl. lia.
Qed.
