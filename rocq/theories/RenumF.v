(** * RenumF: counter-example for C60, larger coarse cells are corrected *)

From Coq Require Import QArith Qcanon.
From stdpp Require Import sorting.
From Verif Require Import Inst Spec SpecSub SpecFeat SpecAR SpecHash SpecUse SpecMove SpecFeed SpecWhole SpecGeo SpecRenum
  GraphP FeatE BestE ApiE GrowE HashE UseE FeedE MoveE WholeU WholeE ReordE RenumU RenumE.
#[local] Open Scope Z_scope.
#[local] Open Scope nat_scope.
#[local] Existing Instance qarith | 100.
#[local] Existing Instance ord_id | 100.

(** The coarse cell of cells 0 and 4 is dissolved one cell after the other; with
    this hash order the lowest number comes first. *)
Definition mesh9 : @input qarith :=
  put_prio (mk_input [[3;4;6];[3;5;7];[4;6];[0;1];[0;2];[1];[0;2;8];[1];[6]] [1;0;2;1;1;0;2;2;0]%Z 0 true 3 3 3 2)
    (map (λ z, qc z 1) [7;6;1;4;5;2;3;9;8]%Z).
Definition l9t : list nat := [8;3;6;4;0;5;7;2;1].
Definition k9t : list nat := [4;8;7;1;3;5;2;6;0].
Lemma larger_refuted : ∃ (i i' : @input qarith) o f h,
  @exact_arith qarith ∧ total_order qarith ∧ good_call i o ∧ simple_csr (in_row i) (in_col i) ∧
  sym_weights (in_row i) (in_col i) (in_val i) ∧ in_ar i ≠ 8%Z ∧ in_corr i = true ∧ corr_size i = 2%Z ∧ ¬ aniso_on i o ∧
  relabelled f h i i' ∧ keeps_ties f i ∧ in_order i = 0%Z ∧
  o_fc2cc (agglomerate_one_level i o).1 = [0;0;1;0;1;0;1;0;1] ∧
  f <$> seq 0 9 = [8;3;6;4;0;5;7;2;1] ∧ o_fc2cc (agglomerate_one_level i' o).1 = [1;1;0;0;0;0;1;1;1].
Proof.
  exists mesh9, (renum (qc 1 1) l9t k9t mesh9), o0, (by_list l9t), (by_list k9t).
  assert (good_call mesh9 o0) as HG by (apply good_off; [done|vm_compute; reflexivity]).
  split; [exact q_exact|]. split; [exact q_total|]. split; [exact HG|].
  split; [apply (good_simple _ _ HG); vm_compute; reflexivity|].
  split; [sym_tac HG|]. split; [discriminate|]. split; [done|]. split; [vm_compute; reflexivity|]. split; [by intros [? _]|].
  split; [relabel mesh9 l9t k9t 18|]. split; [apply ties_check_ok; vm_compute; reflexivity|].
  split; [done|]. split_and!; vm_compute; reflexivity.
Qed.
