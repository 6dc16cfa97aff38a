(** * PieceO: examples for C63, numbers of coarse cells *)

From Coq Require Import QArith Qcanon.
From stdpp Require Import sorting.
From Verif Require Import Inst Spec SpecSub SpecFeat SpecAR SpecHash SpecUse SpecLine SpecMove SpecFeed SpecWhole SpecGeo SpecRenum SpecReline SpecPiece
  GraphP FeatE BestE ApiE GrowE HashE UseE FeedE MoveE WholeU WholeE ReordE RenumU RenumE RelineT RelineU RelineE PieceU PieceE PieceL PieceM.
#[local] Open Scope Z_scope.
#[local] Open Scope nat_scope.
#[local] Existing Instance qarith | 100.
#[local] Existing Instance ord_id | 100.

Lemma into_img l n y : y < n → (∃ x, y = into l n x) ↔ y ∈ l.
Proof.
  intros Hy. unfold into. split.
  - intros [x E]. destruct (l !! x) as [z|] eqn:Hx; simpl in E; [|lia]. subst. by eapply elem_of_list_lookup_2.
  - intros [x Hx]%elem_of_list_lookup. exists x. by rewrite Hx.
Qed.
Lemma halves_check l l' n : forallb (λ y, negb (eqb (bool_decide (y ∈ l)) (bool_decide (y ∈ l')))) (seq 0 n) = true →
  ∀ y, y < n → (∃ x, y = into l n x) ↔ ¬ ∃ x, y = into l' n x.
Proof.
  rewrite forallb_forall. intros HF y Hy. rewrite !into_img by done. specialize (HF y ltac:(apply in_seq; lia)).
  revert HF. repeat case_bool_decide; simpl; intuition congruence.
Qed.

(** The second path and the cell alone, with the line of the path. *)
Definition o_pb : outs := Outs [] [0;3] [0;1;2].

Lemma C63_add_ex :
  good_call two_paths o0 ∧ ¬ aniso_on two_paths o0 ∧ in_order two_paths = 0%Z ∧ corr_size two_paths = 1%Z ∧
  simple_csr (in_row two_paths) (in_col two_paths) ∧ sym_weights (in_row two_paths) (in_col two_paths) (in_val two_paths) ∧
  piece (into l_a 11) (back k_a 11) (cut l_a k_a two_paths) two_paths ∧ keeps_ties (into l_a 11) (cut l_a k_a two_paths) ∧
  piece (into l_b 11) (back k_b 11) (cut l_b k_b two_paths) two_paths ∧ keeps_ties (into l_b 11) (cut l_b k_b two_paths) ∧
  (∀ y, y < in_n two_paths → (∃ x, y = into l_a 11 x) ↔ ¬ ∃ x, y = into l_b 11 x) ∧
  agglomerate_one_level two_paths o0 = (Outs [1;2;1;2;1;4;3;4;3;4;0] [] [], Ok ()) ∧
  agglomerate_one_level (cut l_a k_a two_paths) o0 = (Outs [0;0;0;1;1] [] [], Ok ()) ∧
  agglomerate_one_level (cut l_b k_b two_paths) o0 = (Outs [2;2;2;1;1;0] [] [], Ok ()).
Proof.
  destruct C63_ex as ((G & N & O & S & W & _ & C & E) & (P & K & _ & E1) & (P' & K' & _ & E2)).
  do 10 (split; [assumption|]). split; [apply (halves_check l_a l_b 11); vm_compute; reflexivity|]. split; [exact E|]. split; [exact E1|exact E2].
Qed.

Lemma C63_add_lines_ex :
  good_call paths_g o_paths ∧ good_call (cut l_a k_a paths_g) o_pa ∧ good_call (cut l_b k_b paths_g) o_pb ∧
  aniso_on paths_g o_paths ∧ in_build paths_g = false ∧ in_order paths_g = 0%Z ∧ corr_size paths_g = 1%Z ∧
  simple_csr (in_row paths_g) (in_col paths_g) ∧ sym_weights (in_row paths_g) (in_col paths_g) (in_val paths_g) ∧
  (piece (into l_a 11) (back k_a 11) (cut l_a k_a paths_g) paths_g ∧ keeps_ties (into l_a 11) (cut l_a k_a paths_g) ∧
   (∀ x, nb_list (in_row paths_g) (in_col paths_g) (into l_a 11 x) =
     into l_a 11 <$> nb_list (in_row (cut l_a k_a paths_g)) (in_col (cut l_a k_a paths_g)) x) ∧
   lines_among (into l_a 11) (split_lines (o_idx o_pa) (o_lines o_pa)) (split_lines (o_idx o_paths) (o_lines o_paths))) ∧
  (piece (into l_b 11) (back k_b 11) (cut l_b k_b paths_g) paths_g ∧ keeps_ties (into l_b 11) (cut l_b k_b paths_g) ∧
   (∀ x, nb_list (in_row paths_g) (in_col paths_g) (into l_b 11 x) =
     into l_b 11 <$> nb_list (in_row (cut l_b k_b paths_g)) (in_col (cut l_b k_b paths_g)) x) ∧
   lines_among (into l_b 11) (split_lines (o_idx o_pb) (o_lines o_pb)) (split_lines (o_idx o_paths) (o_lines o_paths))) ∧
  (∀ y, y < in_n paths_g → (∃ x, y = into l_a 11 x) ↔ ¬ ∃ x, y = into l_b 11 x) ∧
  agglomerate_one_level paths_g o_paths = (Outs [1;5;1;5;2;0;2;0;3;0;4] [0;1;3] [0;1;2], Ok ()) ∧
  agglomerate_one_level (cut l_a k_a paths_g) o_pa = (Outs [0;0;1;1;2] [0;2] [0;1], Ok ()) ∧
  agglomerate_one_level (cut l_b k_b paths_g) o_pb = (Outs [0;0;0;2;2;1] [0;1] [0], Ok ()).
Proof.
  destruct C63_lines_ex as ((G & N & B & O & S & W & _ & C & E) & (P & K & G1 & F1 & L1 & _ & E1) & _).
  split; [exact G|]. split; [exact G1|]. split; [apply good_given; [done|vm_compute; reflexivity]|].
  do 6 (split; [assumption|]). split; [split; [exact P|]; split; [exact K|]; split; [exact F1|exact L1]|]. split; [|split; [apply (halves_check l_a l_b 11); vm_compute; reflexivity|]].
  - split; [piece_tac paths_g l_b k_b 16|]. split; [apply ties_check_f_ok; vm_compute; reflexivity|].
    split; [apply (faces_check l_b 11); vm_compute; reflexivity|].
    change (lines_among (into l_b 11) [[0;1;2]] [into l_b 11 <$> [0;1;2];[0;2;4;6]]).
    apply la_in, la_out; [|apply la_nil]. intros x. destruct (decide (x < 6)) as [Hx|Hx].
    + do 6 (destruct x as [|x]; [apply (bool_decide_eq_true _); vm_compute; reflexivity|]). lia.
    + rewrite (into_out l_b) by done. rewrite !elem_of_cons, elem_of_nil. lia.
  - split; [exact E|]. split; [exact E1|]. vm_compute; reflexivity.
Qed.

(** Two trees; coarse cells of two cells are corrected.  The coarse cell of cells 0
    and 2 is torn: cell 0 keeps a number which is given to another coarse cell. *)
Definition trees14 : @input qarith :=
  put_prio (mk_input [[2];[6];[0;13];[6];[12];[9];[1;3;13];[13];[9];[5;8;10];[9;11];[10];[4;13];[2;6;7;12]]
    [2;1;0;0;0;1;1;2;1;0;0;2;2;2]%Z 0 true 3 4 4 2) (map (λ z, qc z 1) [4;13;12;14;9;8;7;5;11;6;10;1;2;3]%Z).
Definition l_t : list nat := [0;1;2;3;4;6;7;12;13].
Definition k_t : list nat := [0;1;2;3;4;99;5;6;99;99;99;99;7;8].
Lemma piece_torn_refuted : ∃ (i1 i : @input qarith) f h x y z c d c1,
  @exact_arith qarith ∧ total_order qarith ∧ good_call i o0 ∧ simple_csr (in_row i) (in_col i) ∧
  sym_weights (in_row i) (in_col i) (in_val i) ∧ in_ar i ≠ 8%Z ∧ in_corr i = true ∧ corr_size i = 2%Z ∧ ¬ aniso_on i o0 ∧
  piece f h i1 i ∧ keeps_ties f i1 ∧ in_order i = 0%Z ∧
  o_fc2cc (agglomerate_one_level i o0).1 !! f x = Some c ∧ o_fc2cc (agglomerate_one_level i o0).1 !! f y = Some d ∧ c ≠ d ∧
  o_fc2cc (agglomerate_one_level i1 o0).1 !! x = Some c1 ∧ o_fc2cc (agglomerate_one_level i1 o0).1 !! y = Some c1 ∧
  o_fc2cc (agglomerate_one_level i o0).1 !! z = Some c ∧ ¬ ∃ x', z = f x'.
Proof.
  exists (cut l_t k_t trees14), trees14, (into l_t 14), (back k_t 14), 0, 1, 5, 1, 2, 1.
  assert (good_call trees14 o0) as HG by (apply good_off; [done|vm_compute; reflexivity]).
  split; [exact q_exact|]. split; [exact q_total|]. split; [exact HG|].
  split; [apply (good_simple _ _ HG); vm_compute; reflexivity|].
  split; [sym_tac HG|]. split; [discriminate|]. split; [done|]. split; [vm_compute; reflexivity|]. split; [by intros [? _]|].
  split; [piece_tac trees14 l_t k_t 24|]. split; [apply ties_check_f_ok; vm_compute; reflexivity|]. split; [done|].
  do 2 (split; [vm_compute; reflexivity|]). split; [done|]. do 3 (split; [vm_compute; reflexivity|]).
  rewrite into_img by lia. apply (bool_decide_eq_true _). vm_compute. reflexivity.
Qed.
