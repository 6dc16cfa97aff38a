(** * PropsRules: the rules leave no choice (C51) *)

From Verif Require Import Features Neigh Iso Main Spec SpecSub SpecFeat SpecAR SpecBest SpecPool SpecGrow SpecFeed SpecLine SpecMove SpecRules GraphP GrowE FeedE MoveE BestE ApiE Inst RuleT RuleE.

#[local] Existing Instance qarith | 100.
#[local] Existing Instance ord_id | 100.

(** C51.  Among the vectors which have the anisotropic coarse cells of the
    result, the result of a call without correction is the only one which
    follows the rules of C45. *)
Theorem C51_only_result : ∀ {A : Arith} {H : HashOrder} i o r e,
  good_call i o → in_corr i = false → simple_csr (in_row i) (in_col i) →
  weak_order wlt (λ _ : W, True) → agglomerate_one_level i o = (r, e) →
  ∀ r', length (o_fc2cc r') = in_n i → same_lines i o r r' →
    (by_rules i o r' ↔ o_fc2cc r' = o_fc2cc r).
Proof. exact @C51_lem. Qed.
Print Assumptions C51_only_result.

Example C51_only_result_example :
  (by_rules grid9_nc o0 (Outs [0;0;1;0;0;1;2;2;2] [] []) ∧
   ¬ by_rules grid9_nc o0 (Outs [0;0;1;0;1;1;2;2;2] [] [])) ∧
  (by_rules line7_nc o_line5 (Outs [0;0;1;1;1;2;2] [0;2] [0;1]) ∧
   ¬ by_rules line7_nc o_line5 (Outs [0;0;1;1;1;3;2] [0;2] [0;1])).
Proof. exact @C51_ex. Qed.

(** C51.  The rules determine the queues at the start and the whole sequence of
    coarse cells. *)
Theorem C51_sequence : ∀ {A : Arith} {H : HashOrder} ip (g : graph) prio bnd bp one (cpt : gset nat → Z → Prop) aggl nb p p' Xs Ys,
  weak_order wlt (λ _ : W, True) → (∀ X a b, cpt X a → cpt X b → a = b) →
  started prio bnd bp one aggl nb p → made ip g prio cpt aggl p Xs →
  started prio bnd bp one aggl nb p' → made ip g prio cpt aggl p' Ys → p' = p ∧ Ys = Xs.
Proof. exact @C51_sequence_lem. Qed.
Print Assumptions C51_sequence.

Example C51_sequence_example :
  ∃ ip aggl nb p Xs,
  started (in_prio grid9_nc) (fixed_bnd grid9_nc) true false aggl nb p ∧
  made ip (graph_of grid9_nc) (in_prio grid9_nc) (compactness (in_row grid9_nc) (in_col grid9_nc)) aggl p Xs ∧
  (∃ X, Xs !! 0 = Some X ∧ 4 ∈ X ∧ 5 ∉ X).
Proof. exact @C51_sequence_ex. Qed.

(** C51.  If only single cells are corrected, the rules of C41 determine the
    corrected result. *)
Theorem C51_corrected : ∀ {A : Arith} {H : HashOrder} i o r0 e0 r e,
  good_call i o → simple_csr (in_row i) (in_col i) → in_corr i = true →
  (corr_size i <= 1)%Z →
  agglomerate_one_level (uncorrected i) o = (r0, e0) → agglomerate_one_level i o = (r, e) →
  ∀ r', corrected_from i o r0 r' ↔ r' = r.
Proof. exact @C51_corrected_lem. Qed.
Print Assumptions C51_corrected.

Example C51_corrected_example :
  corrected_from (chain7 true) o0 (Outs [0;0;1;1;2;2;3] [] []) (Outs [0;0;1;1;2;2;2] [] []) ∧
  ¬ corrected_from (chain7 true) o0 (Outs [0;0;1;1;2;2;3] [] []) (Outs [0;0;1;1;2;2;1] [] []).
Proof. exact @C51_corrected_ex. Qed.

(** C51.  If coarse cells of two cells are corrected, the rules of C41 may allow
    several results, as the order of the cells of a coarse cell matters. *)
Theorem C51_choice_left :
  ∃ (i : @input qarith) o r0 r r',
  good_call i o ∧ simple_csr (in_row i) (in_col i) ∧ in_corr i = true ∧ corr_size i = 2%Z ∧
  agglomerate_one_level (uncorrected i) o = (r0, Ok ()) ∧
  corrected_from i o r0 r ∧ corrected_from i o r0 r' ∧ r' ≠ r.
Proof. exact @C51_choice_lem. Qed.
Print Assumptions C51_choice_left.
