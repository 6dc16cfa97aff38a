(** * RelineE: examples and counter-examples for C60, calls with lines *)

From Coq Require Import QArith Qcanon.
From stdpp Require Import sorting.
From Verif Require Import Inst Spec SpecSub SpecFeat SpecAR SpecHash SpecUse SpecLine SpecMove SpecFeed SpecWhole SpecGeo SpecRenum SpecReline
  GraphP FeatE BestE ApiE GrowE HashE UseE FeedE MoveE WholeU WholeE ReordE RenumU RenumE RelineT RelineU.
#[local] Open Scope Z_scope.
#[local] Open Scope nat_scope.
#[local] Existing Instance qarith | 100.
#[local] Existing Instance ord_id | 100.

Lemma q_ties : @equal_ties qarith.
Proof.
  intros a b E. simpl in *. unfold qlt.
  assert (a = b) as -> by (apply Qceq_alt; destruct (a ?= b)%Qc; done).
  by rewrite (proj1 (Qceq_alt b b) eq_refl).
Qed.

Definition nbs_check (l : list nat) (i : @input qarith) : bool :=
  forallb (λ x, forallb (λ y, forallb (λ z, bool_decide (z ≤ y) || bool_decide (by_list l y < by_list l z))
    (nb_list (in_row i) (in_col i) x)) (nb_list (in_row i) (in_col i) x)) (seq 0 (in_n i)).
Lemma nbs_check_ok l (i : @input qarith) : 
  nbs_check l i = true → keeps_neighbours (by_list l) i.
Proof.
  unfold nbs_check. rewrite forallb_forall. intros HF x y z Hy Hz Hlt.
  assert (x < in_n i) as Hx.
  { apply elem_of_nbl in Hy. unfold nbl in Hy. unfold in_n. destruct (in_row i !! x); [|by apply elem_of_nil in Hy].
    destruct (in_row i !! S x) eqn:E; [|by apply elem_of_nil in Hy]. apply lookup_lt_Some in E. lia. }
  specialize (HF x ltac:(apply in_seq; lia)). rewrite forallb_forall in HF.
  apply elem_of_nbl, elem_of_list_In in Hy. apply elem_of_nbl, elem_of_list_In in Hz.
  specialize (HF y Hy). rewrite forallb_forall in HF. specialize (HF z Hz).
  rewrite bool_decide_eq_false_2 in HF by lia. by apply bool_decide_eq_true in HF.
Qed.

Definition along_check (l : list nat) (i i' : @input qarith) : bool :=
  forallb (λ x, bool_decide (nb_list (in_row i') (in_col i') (by_list l x) = by_list l <$> nb_list (in_row i) (in_col i) x)) (seq 0 (in_n i)).
Lemma along_check_ok l i i' o : good_call i o → aniso_on i o → along_check l i i' = true → same_along (by_list l) i i' o.
Proof.
  intros HG Ha. unfold along_check. rewrite forallb_forall. intros HF lines x HL Hx.
  eapply lines_in in Hx; [|apply HG|done..]. specialize (HF x ltac:(apply in_seq; lia)). by apply bool_decide_eq_true in HF.
Qed.

(** The path of seven cells with a line of five cells, given by the caller. *)
Definition l7 : list nat := [4;0;6;2;5;3;1].
Definition k7 : list nat := [1;6;3;5;0;4;2].
Definition line7_p : @input qarith := put_prio line7_nc (map (λ z, qc z 1) [1;6;3;2;4;7;5]%Z).
(** Two rows of three cells; the lines are built: every face counts, the
    closest neighbour is the first one, the rows are far from each other. *)
Definition pts6 : list (list Qc) := map (map (λ z, qc z 1)) [[0;0];[1;0];[2;0];[0;5];[1;5];[2;5]]%Z.
Definition rows6_b : @input qarith :=
  put_prio (put_cen (mk_aniso (mk_input rows6 [2;1;2;2;1;2]%Z 0 true 2 2 4 1) true true None 1 false
    (replicate 14 (qc 1 1)) (qc (-1) 1)) pts6) (map (λ z, qc z 1) [1;6;3;2;4;5]%Z).
Definition l6r : list nat := [3;0;4;1;5;2].
Definition k6r : list nat := [1;3;5;0;2;4].
(** A square of four cells. *)
Definition pts4 : list (list Qc) := map (map (λ z, qc z 1)) [[0;0];[1;0];[0;1];[1;1]]%Z.
Definition square4_b : @input qarith :=
  put_prio (put_cen (mk_aniso (mk_input [[1;2];[0;3];[0;3];[1;2]] [2;2;2;2]%Z 0 false 2 2 2 1) true false None 1 false
    (replicate 8 (qc 1 1)) (qc (-1) 1)) pts4) (map (λ z, qc z 1) [4;3;2;1]%Z).
Definition l4b : list nat := [0;2;1;3].

Lemma C60_lines_ex :
  (relabelled (by_list l7) (by_list k7) line7_p (renum (qc 1 1) l7 k7 line7_p) ∧
   good_call line7_p o_line5 ∧ aniso_on line7_p o_line5 ∧ in_build line7_p = false ∧ keeps_ties (by_list l7) line7_p ∧
   in_order line7_p = 0%Z ∧ in_corr line7_p = false ∧
   same_along (by_list l7) line7_p (renum (qc 1 1) l7 k7 line7_p) o_line5 ∧
   lines_called (by_list l7) o_line5 = Outs [] [0;5] [4;0;6;2;5] ∧
   agglomerate_one_level line7_p o_line5 = (Outs [0;0;1;1;1;2;2] [0;2] [0;1], Ok ()) ∧
   agglomerate_one_level (renum (qc 1 1) l7 k7 line7_p) (lines_called (by_list l7) o_line5) =
     (Outs [0;2;1;2;0;1;1] [0;2] [0;1], Ok ())) ∧
  (relabelled (by_list l6r) (by_list k6r) rows6_b (renum (qc 1 1) l6r k6r rows6_b) ∧
   good_call rows6_b o0 ∧ aniso_on rows6_b o0 ∧ in_build rows6_b = true ∧ keeps_ties (by_list l6r) rows6_b ∧
   keeps_neighbours (by_list l6r) rows6_b ∧ in_order rows6_b = 0%Z ∧ in_corr rows6_b = true ∧ corr_size rows6_b = 1%Z ∧
   same_along (by_list l6r) rows6_b (renum (qc 1 1) l6r k6r rows6_b) o0 ∧
   simple_csr (in_row rows6_b) (in_col rows6_b) ∧ sym_weights (in_row rows6_b) (in_col rows6_b) (in_val rows6_b) ∧
   @exact_arith qarith ∧ total_order qarith ∧ @equal_ties qarith ∧
   agglomerate_one_level rows6_b o0 = (Outs [0;0;0;1;1;1] [0;1;2] [0;1], Ok ()) ∧
   agglomerate_one_level (renum (qc 1 1) l6r k6r rows6_b) o0 = (Outs [0;1;1;0;0;1] [0;1;2] [0;1], Ok ())).
Proof.
  assert (good_call line7_p o_line5) as HG by (apply good_given; [done|vm_compute; reflexivity]).
  assert (good_call rows6_b o0) as HG' by (apply good_built; [done|done|by left|vm_compute; reflexivity]).
  assert (aniso_on line7_p o_line5) as HA by (split; [done|]; intros _; split; [simpl; lia|done]).
  assert (aniso_on rows6_b o0) as HA' by (split; [done|]; intros ?; discriminate).
  split.
  - split; [relabel line7_p l7 k7 12|]. split; [exact HG|]. split; [exact HA|]. split; [done|].
    split; [apply ties_check_ok; vm_compute; reflexivity|]. split; [done|]. split; [done|].
    split; [apply along_check_ok; [exact HG|exact HA|vm_compute; reflexivity]|].
    split_and!; vm_compute; reflexivity.
  - split; [relabel rows6_b l6r k6r 14|]. split; [exact HG'|]. split; [exact HA'|]. split; [done|].
    split; [apply ties_check_ok; vm_compute; reflexivity|]. split; [apply nbs_check_ok; vm_compute; reflexivity|].
    split; [done|]. split; [done|]. split; [done|].
    split; [apply along_check_ok; [exact HG'|exact HA'|vm_compute; reflexivity]|].
    split; [apply (good_simple _ _ HG'); vm_compute; reflexivity|]. split; [sym_tac HG'|].
    split; [exact q_exact|]. split; [exact q_total|]. split; [exact q_ties|].
    split; vm_compute; reflexivity.
Qed.

(** The line starts at cell 0, whose two neighbours are at the same distance. *)
Lemma neighbours_refuted : ∃ (i i' : @input qarith) f h,
  @exact_arith qarith ∧ total_order qarith ∧ @equal_ties qarith ∧ good_call i o0 ∧ simple_csr (in_row i) (in_col i) ∧
  sym_weights (in_row i) (in_col i) (in_val i) ∧ in_ar i ≠ 8%Z ∧ in_corr i = false ∧ aniso_on i o0 ∧ in_build i = true ∧
  relabelled f h i i' ∧ keeps_ties f i ∧ in_order i = 0%Z ∧ same_along f i i' o0 ∧
  o_fc2cc (agglomerate_one_level i o0).1 = [0;0;1;1] ∧
  f <$> seq 0 4 = [0;2;1;3] ∧ o_fc2cc (agglomerate_one_level i' o0).1 = [0;0;1;1].
Proof.
  exists square4_b, (renum (qc 1 1) l4b l4b square4_b), (by_list l4b), (by_list l4b).
  assert (good_call square4_b o0) as HG by (apply good_built; [done|done|by left|vm_compute; reflexivity]).
  assert (aniso_on square4_b o0) as HA by (split; [done|]; intros ?; discriminate).
  split; [exact q_exact|]. split; [exact q_total|]. split; [exact q_ties|]. split; [exact HG|].
  split; [apply (good_simple _ _ HG); vm_compute; reflexivity|].
  split; [sym_tac HG|]. split; [discriminate|]. split; [done|]. split; [exact HA|]. split; [done|].
  split; [relabel square4_b l4b l4b 8|]. split; [apply ties_check_ok; vm_compute; reflexivity|]. split; [done|].
  split; [apply along_check_ok; [exact HG|exact HA|vm_compute; reflexivity]|].
  split_and!; vm_compute; reflexivity.
Qed.
