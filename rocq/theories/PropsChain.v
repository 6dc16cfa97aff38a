(** * PropsChain: chaining several levels (C32) *)

From Verif Require Import Main UtilM Spec SpecChain ChainT ChainE ApiE Inst.

#[local] Existing Instance qarith | 100.
#[local] Existing Instance ord_id | 100.

(** C32, for a mesh in one piece, when at most single cells are corrected, with
    totally comparable weights and no odd limit for the length of lines: any
    number of levels can be chained, the lines handed on are paths of the coarse
    graph, and the next call is well-formed again.  Missing: meshes in several
    pieces and larger thresholds, for which the property is false (below). *)
Theorem C32_levels_partial : ∀ {A : Arith} {H : HashOrder} (i : input) (o : outs) (cs : list (list nat)),
  good_call i o → in_connected i → given_paths i o → in_corr i = false ∨ thresh_one i →
  weak_order (@wlt A) (λ _, True) → (in_aniso i = true → ∀ L, limit_safe i L) →
  ∃ i' o', levels cs i o = Ok (i', o') ∧ good_call i' o' ∧ in_connected i' ∧ given_paths i' o'.
Proof. exact @C32_lem. Qed.
Print Assumptions C32_levels_partial.

Example C32_levels_partial_example :
  good_call (line7 true None) o_line5 ∧ in_connected (line7 true None) ∧
  given_paths (line7 true None) o_line5 ∧ thresh_one (line7 true None) ∧
  (∀ L, limit_safe (line7 true None) L) ∧
  levels [[]; []] (line7 true None) o_line5 = Ok two_levels ∧
  (in_row two_levels.1, in_col two_levels.1, o_fc2cc two_levels.2, o_idx two_levels.2, o_lines two_levels.2)
  = ([0;1;2], [1;0], [0;0;1], [0;1], [0]).
Proof. exact @C32_ex. Qed.

(** C32 is false when cells have no neighbours: the first level succeeds, but
    building its coarse graph is undefined (an edge weight is read past the end). *)
Theorem C32_levels_refuted :
  ∃ (i : @input qarith) o compl, good_call i o ∧ in_aniso i = false ∧ in_corr i = false ∧
  (∃ r, agglomerate_one_level i o = (r, Ok ())) ∧ levels [compl] i o = Err EUB.
Proof. exact @C32_ref. Qed.
Print Assumptions C32_levels_refuted.

(** C32 is false with a threshold of two, even for a mesh in one piece: the
    coarse graph of the first level has a cell without fine cells and with
    [INT_MIN] boundary faces, and the second level is undefined. *)
Theorem C32_threshold_refuted :
  ∃ (i : @input qarith) o i' o', good_call i o ∧ in_connected i ∧ in_aniso i = false ∧
  levels [[]] i o = Ok (i', o') ∧ ¬ good_call i' o' ∧ levels [[]; []] i o = Err EUB.
Proof. exact @C32_thresh_ref. Qed.
Print Assumptions C32_threshold_refuted.
