(** * PieceM: examples for C63, calls with lines *)

From Coq Require Import QArith Qcanon.
From stdpp Require Import sorting.
From Verif Require Import Inst Spec SpecSub SpecFeat SpecAR SpecHash SpecUse SpecLine SpecMove SpecFeed SpecWhole SpecGeo SpecRenum SpecReline SpecPiece
  GraphP FeatE BestE ApiE GrowE HashE UseE FeedE MoveE WholeU WholeE ReordE RenumU RenumE RelineT RelineU RelineE PieceU PieceE PieceL.
#[local] Open Scope Z_scope.
#[local] Open Scope nat_scope.
#[local] Existing Instance qarith | 100.
#[local] Existing Instance ord_id | 100.

Definition nbs_check_f (f : nat → nat) (i : @input qarith) : bool :=
  forallb (λ x, forallb (λ y, forallb (λ z, bool_decide (z ≤ y) || bool_decide (f y < f z))
    (nb_list (in_row i) (in_col i) x)) (nb_list (in_row i) (in_col i) x)) (seq 0 (in_n i)).
Lemma nbs_check_f_ok f (i : @input qarith) : nbs_check_f f i = true → keeps_neighbours f i.
Proof.
  unfold nbs_check_f. rewrite forallb_forall. intros HF x y z Hy Hz Hlt.
  assert (x < in_n i) as Hx.
  { apply elem_of_nbl in Hy. unfold nbl in Hy. unfold in_n. destruct (in_row i !! x); [|by apply elem_of_nil in Hy].
    destruct (in_row i !! S x) eqn:E; [|by apply elem_of_nil in Hy]. apply lookup_lt_Some in E. lia. }
  specialize (HF x ltac:(apply in_seq; lia)). rewrite forallb_forall in HF.
  apply elem_of_nbl, elem_of_list_In in Hy. apply elem_of_nbl, elem_of_list_In in Hz.
  specialize (HF y Hy). rewrite forallb_forall in HF. specialize (HF z Hz).
  rewrite bool_decide_eq_false_2 in HF by lia. by apply bool_decide_eq_true in HF.
Qed.
(** The faces of the cells of the piece are listed in the same order. *)
Lemma faces_check l n (i1 i : @input qarith) : length (in_row i1) = S (length l) → length (in_row i) = S n →
  forallb (λ x, bool_decide (nb_list (in_row i) (in_col i) (into l n x) = into l n <$> nb_list (in_row i1) (in_col i1) x)) (seq 0 (length l)) = true →
  ∀ x, nb_list (in_row i) (in_col i) (into l n x) = into l n <$> nb_list (in_row i1) (in_col i1) x.
Proof.
  intros H1 Hn Hf x. destruct (decide (x < length l)) as [Hx|Hx].
  - rewrite forallb_forall in Hf. specialize (Hf x ltac:(apply in_seq; lia)). by apply bool_decide_eq_true in Hf.
  - rewrite into_out by done. unfold nb_list. rewrite (lookup_ge_None_2 (in_row i1) (S x)) by lia.
    rewrite (lookup_ge_None_2 (in_row i) (S (n + x))) by lia. by destruct (in_row i1 !! x), (in_row i !! (n + x)).
Qed.

(** The two paths and the cell of [two_paths], with a line in each path, given by
    the caller. *)
Definition paths_g : @input qarith := mk_aniso two_paths false true None 0 false (replicate 16 (qc 1 1)) (qc 4 1).
Definition o_paths : outs := Outs [] [0;3;7] [9;7;5;0;2;4;6].
Definition o_pa : outs := Outs [] [0;4] [0;1;2;3].
Definition l_d : list nat := [10]. Definition k_d : list nat := [9;9;9;9;9;9;9;9;9;9;0].
(** The lines are built: every face counts. *)
Definition paths_b : @input qarith :=
  put_cen (mk_aniso two_paths true false None 1 false (replicate 16 (qc 1 1)) (qc (-1) 1))
    (map (map (λ z, qc z 1)) [[0;0];[0;5];[1;0];[1;5];[2;0];[2;5];[3;0];[3;5];[4;0];[4;5];[0;9]]%Z).
Definition l_e : list nat := [1;3;5;7;9;10]. Definition k_e : list nat := [9;0;9;1;9;2;9;3;9;4;5].

Lemma C63_lines_ex :
  (good_call paths_g o_paths ∧ aniso_on paths_g o_paths ∧ in_build paths_g = false ∧ in_order paths_g = 0%Z ∧
   simple_csr (in_row paths_g) (in_col paths_g) ∧ sym_weights (in_row paths_g) (in_col paths_g) (in_val paths_g) ∧
   in_corr paths_g = true ∧ corr_size paths_g = 1%Z ∧
   agglomerate_one_level paths_g o_paths = (Outs [1;5;1;5;2;0;2;0;3;0;4] [0;1;3] [0;1;2], Ok ())) ∧
  (piece (into l_a 11) (back k_a 11) (cut l_a k_a paths_g) paths_g ∧ keeps_ties (into l_a 11) (cut l_a k_a paths_g) ∧
   good_call (cut l_a k_a paths_g) o_pa ∧
   (∀ x, nb_list (in_row paths_g) (in_col paths_g) (into l_a 11 x) =
     into l_a 11 <$> nb_list (in_row (cut l_a k_a paths_g)) (in_col (cut l_a k_a paths_g)) x) ∧
   lines_among (into l_a 11) (split_lines (o_idx o_pa) (o_lines o_pa)) (split_lines (o_idx o_paths) (o_lines o_paths)) ∧
   into l_a 11 <$> seq 0 5 = [0;2;4;6;8] ∧
   agglomerate_one_level (cut l_a k_a paths_g) o_pa = (Outs [0;0;1;1;2] [0;2] [0;1], Ok ())) ∧
  (piece (into l_d 11) (back k_d 11) (cut l_d k_d paths_g) paths_g ∧ good_call (cut l_d k_d paths_g) o0 ∧
   lines_among (into l_d 11) (split_lines (o_idx o0) (o_lines o0)) (split_lines (o_idx o_paths) (o_lines o_paths)) ∧
   agglomerate_one_level (cut l_d k_d paths_g) o0 = (Outs [0] [] [], Ok ())) ∧
  (good_call paths_b o0 ∧ aniso_on paths_b o0 ∧ in_build paths_b = true ∧ in_order paths_b = 0%Z ∧
   simple_csr (in_row paths_b) (in_col paths_b) ∧ sym_weights (in_row paths_b) (in_col paths_b) (in_val paths_b) ∧
   in_corr paths_b = true ∧ corr_size paths_b = 1%Z ∧
   piece (into l_e 11) (back k_e 11) (cut l_e k_e paths_b) paths_b ∧ keeps_ties (into l_e 11) (cut l_e k_e paths_b) ∧
   keeps_neighbours (into l_e 11) (cut l_e k_e paths_b) ∧ good_call (cut l_e k_e paths_b) o0 ∧
   (∀ x, nb_list (in_row paths_b) (in_col paths_b) (into l_e 11 x) =
     into l_e 11 <$> nb_list (in_row (cut l_e k_e paths_b)) (in_col (cut l_e k_e paths_b)) x) ∧
   into l_e 11 <$> seq 0 6 = [1;3;5;7;9;10] ∧
   agglomerate_one_level paths_b o0 = (Outs [0;2;0;2;1;3;1;3;4;6;5] [0;2;4] [0;1;2;3], Ok ()) ∧
   agglomerate_one_level (cut l_e k_e paths_b) o0 = (Outs [0;0;1;1;3;2] [0;2] [0;1], Ok ())) ∧
  @exact_arith qarith ∧ total_order qarith ∧ @equal_ties qarith.
Proof.
  assert (good_call paths_g o_paths) as HG by (apply good_given; [done|vm_compute; reflexivity]).
  assert (good_call paths_b o0) as HG' by (apply good_built; [done|done|by left|vm_compute; reflexivity]).
  split; [|split; [|split; [|split]]].
  - split; [exact HG|]. split; [split; [done|]; intros _; split; [simpl; lia|done]|]. split; [done|]. split; [done|].
    split; [apply (good_simple _ _ HG); vm_compute; reflexivity|]. split; [sym_tac HG|]. split; [done|].
    split; vm_compute; reflexivity.
  - split; [piece_tac paths_g l_a k_a 16|]. split; [apply ties_check_f_ok; vm_compute; reflexivity|].
    split; [apply good_given; [done|vm_compute; reflexivity]|].
    split; [apply (faces_check l_a 11); vm_compute; reflexivity|].
    split.
    { change (lines_among (into l_a 11) [[0;1;2;3]] [[9;7;5];into l_a 11 <$> [0;1;2;3]]).
      apply la_out; [|apply la_in, la_nil]. intros x. destruct (decide (x < 5)) as [Hx|Hx].
      - do 5 (destruct x as [|x]; [apply (bool_decide_eq_true _); vm_compute; reflexivity|]). lia.
      - rewrite (into_out l_a) by done. rewrite !elem_of_cons, elem_of_nil. lia. }
    split; vm_compute; reflexivity.
  - split; [piece_tac paths_g l_d k_d 16|]. split; [split;
      [apply wf_check_ok; [apply q_weak_order|vm_compute; reflexivity]|apply acc_check_ok; vm_compute; reflexivity
      |intros _; apply pos_check_ok; vm_compute; reflexivity|intros _ ?; discriminate
      |intros [_ Ha]; destruct (Ha eq_refl) as [Hb _]; simpl in Hb; lia]|].
    split; [|vm_compute; reflexivity].
    apply la_none. intros l x Hl. change (l ∈ [[9;7;5];[0;2;4;6]]) in Hl. 
    rewrite elem_of_cons, elem_of_list_singleton in Hl.
    destruct (decide (x < 1)) as [Hx|Hx].
    + destruct x as [|x]; [|lia]. destruct Hl as [-> | ->]; apply (bool_decide_eq_true _); vm_compute; reflexivity.
    + rewrite (into_out l_d) by done. destruct Hl as [-> | ->]; rewrite !elem_of_cons, elem_of_nil; lia.
  - split; [exact HG'|]. split; [split; [done|]; intros ?; discriminate|]. split; [done|]. split; [done|].
    split; [apply (good_simple _ _ HG'); vm_compute; reflexivity|]. split; [sym_tac HG'|]. split; [done|]. split; [done|].
    split; [piece_tac paths_b l_e k_e 16|]. split; [apply ties_check_f_ok; vm_compute; reflexivity|].
    split; [apply nbs_check_f_ok; vm_compute; reflexivity|]. split; [apply good_built; [done|done|by left|vm_compute; reflexivity]|].
    split; [apply (faces_check l_e 11); vm_compute; reflexivity|].
    split; [vm_compute; reflexivity|]. split; vm_compute; reflexivity.
  - split; [exact q_exact|]. split; [exact q_total|exact q_ties].
Qed.

(** A square of four cells and a cell alone: the line starts at cell 0, whose two
    neighbours are at the same distance. *)
Definition square5_b : @input qarith :=
  put_prio (put_cen (mk_aniso (mk_input [[1;2];[0;3];[0;3];[1;2];[]] [2;2;2;2;3]%Z 0 false 2 2 2 1) true false None 1 false
    (replicate 8 (qc 1 1)) (qc (-1) 1)) (map (map (λ z, qc z 1)) [[0;0];[1;0];[0;1];[1;1];[5;5]]%Z)) (map (λ z, qc z 1) [5;4;3;2;1]%Z).
Lemma piece_neighbours_refuted : ∃ (i1 i : @input qarith) f h x y c d c1 d1,
  @exact_arith qarith ∧ total_order qarith ∧ @equal_ties qarith ∧ good_call i o0 ∧ good_call i1 o0 ∧ simple_csr (in_row i) (in_col i) ∧
  sym_weights (in_row i) (in_col i) (in_val i) ∧ in_ar i ≠ 8%Z ∧ in_corr i = false ∧ aniso_on i o0 ∧ in_build i = true ∧
  piece f h i1 i ∧ keeps_ties f i1 ∧ in_order i = 0%Z ∧
  (∀ x, nb_list (in_row i) (in_col i) (f x) = f <$> nb_list (in_row i1) (in_col i1) x) ∧
  o_fc2cc (agglomerate_one_level i o0).1 !! f x = Some c ∧ o_fc2cc (agglomerate_one_level i o0).1 !! f y = Some d ∧
  o_fc2cc (agglomerate_one_level i1 o0).1 !! x = Some c1 ∧ o_fc2cc (agglomerate_one_level i1 o0).1 !! y = Some d1 ∧
  c = d ∧ c1 ≠ d1.
Proof.
  exists (cut [0;2;1;3] [0;2;1;3;9] square5_b), square5_b, (into [0;2;1;3] 5), (back [0;2;1;3;9] 5), 0, 2, 0, 0, 0, 1.
  assert (good_call square5_b o0) as HG by (apply good_built; [done|done|by left|vm_compute; reflexivity]).
  split; [exact q_exact|]. split; [exact q_total|]. split; [exact q_ties|]. split; [exact HG|].
  split; [apply good_built; [done|done|by left|vm_compute; reflexivity]|].
  split; [apply (good_simple _ _ HG); vm_compute; reflexivity|].
  split; [sym_tac HG|]. split; [discriminate|]. split; [done|]. split; [split; [done|]; intros ?; discriminate|]. split; [done|].
  split; [piece_tac square5_b [0;2;1;3] [0;2;1;3;9] 8|].
  split; [apply ties_check_f_ok; vm_compute; reflexivity|]. split; [done|].
  split; [apply (faces_check [0;2;1;3] 5); vm_compute; reflexivity|].
  do 4 (split; [vm_compute; reflexivity|]). done.
Qed.
