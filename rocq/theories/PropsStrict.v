(** * PropsStrict: iterators invalidated while coarse cells are renumbered (C65) *)

From Verif Require Import Main Spec SpecSub SpecMove Strict SpecStrict Inst ApiE GrowE MoveE StrictT StrictE.

#[local] Existing Instance qarith | 100.
#[local] Existing Instance ord_id | 100.

(** C65, the part that holds.  With the increment of an invalidated iterator as undefined
    behaviour, a corrected call is defined, with the result of the rest of the model, if
    each removed coarse cell has a higher number than all those which stay; if not, its
    behaviour is undefined. *)
Theorem C65_iterators_partial : ∀ {A : Arith} {H : HashOrder} (i : input) (o : outs) r0 e0 r e,
  good_call i o → simple_csr (in_row i) (in_col i) → in_corr i = true →
  agglomerate_one_level (uncorrected i) o = (r0, e0) → agglomerate_one_level i o = (r, e) →
  e0 = Ok () ∧ e = Ok () ∧ ∃ R, corrected_by i o r0 r R ∧
    ((∀ k k' x, k ∈ R → o_fc2cc r0 !! x = Some k' → k' ∉ R → k' < k) → agglomerate_strict i o = (r, Ok ())) ∧
    (∀ k k' x, k ∈ R → o_fc2cc r0 !! x = Some k' → k' ∉ R → k < k' → (agglomerate_strict i o).2 = Err EUB).
Proof. exact @C65_rule_lem. Qed.
Print Assumptions C65_iterators_partial.

Example C65_iterators_partial_example :
  good_call (chain7 true) o0 ∧ in_corr (chain7 true) = true ∧
  simple_csr (in_row (chain7 true)) (in_col (chain7 true)) ∧
  agglomerate_one_level (uncorrected (chain7 true)) o0 = (Outs [0;0;1;1;2;2;3] [] [], Ok ()) ∧
  agglomerate_one_level (chain7 true) o0 = (Outs [0;0;1;1;2;2;2] [] [], Ok ()) ∧
  agglomerate_strict (chain7 true) o0 = (Outs [0;0;1;1;2;2;2] [] [], Ok ()).
Proof. exact @C65_rule_ex. Qed.

(** C65: calls without correction use no invalidated iterator. *)
Theorem C65_uncorrected_partial : ∀ {A : Arith} {H : HashOrder} (i : input) (o : outs),
  in_corr i = false → agglomerate_strict i o = agglomerate_one_level i o.
Proof. exact @C65_off_lem. Qed.
Print Assumptions C65_uncorrected_partial.

Example C65_uncorrected_partial_example :
  in_corr (fork6_in false) = false ∧ agglomerate_strict (fork6_in false) o0 = (Outs [0;0;1;2;2;3] [] [], Ok ()).
Proof. exact @C65_off_ex. Qed.

(** C65: whatever the call, the result is that of the rest of the model or undefined. *)
Theorem C65_either_partial : ∀ {A : Arith} {H : HashOrder} (i : input) (o : outs),
  agglomerate_strict i o = agglomerate_one_level i o ∨ (agglomerate_strict i o).2 = Err EUB.
Proof. exact @C65_either_lem. Qed.
Print Assumptions C65_either_partial.

Example C65_either_partial_example :
  agglomerate_strict (fork6_in true) o0 = (Outs [] [] [], Err EUB) ∧
  agglomerate_strict (chain7 true) o0 = agglomerate_one_level (chain7 true) o0.
Proof. exact @C65_either_ex. Qed.

(** C65 is false: a mesh of six cells and the default threshold. *)
Theorem C65_iterators_refuted :
  ∃ (i : @input qarith) o r0 r, good_call i o ∧ simple_csr (in_row i) (in_col i) ∧ in_corr i = true ∧
  corr_size i = 1%Z ∧ agglomerate_one_level (uncorrected i) o = (r0, Ok ()) ∧ agglomerate_one_level i o = (r, Ok ()) ∧
  (agglomerate_strict i o).2 = Err EUB ∧ o_fc2cc r0 = [0;0;1;2;2;3] ∧ o_fc2cc r = [0;0;0;1;1;1].
Proof. exact @C65_ref. Qed.
Print Assumptions C65_iterators_refuted.
