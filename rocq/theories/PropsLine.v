(** * PropsLine: anisotropic cells and lines (C42-C44) *)

From Verif Require Import Aniso TagM Main Spec SpecSub SpecFeat SpecLine SpecHash ApiT LineT LineE ApiE Inst.

#[local] Existing Instance qarith | 100.
#[local] Existing Instance ord_id | 100.

(** C42.  Each line is agglomerated from the end which has more boundary faces,
    then the higher priority, then the lower index: the pieces follow each other
    from that end and are the coarse cells of the exported line, in this order.
    This holds with any limit on the lengths of lines. *)
Theorem C42_line_direction : ∀ {A : Arith} {H : HashOrder} i o r e,
  good_call i o → aniso_on i o → agglomerate_one_level i o = (r, e) →
  ∃ lines, call_lines i o = Ok lines ∧
    Forall2 (λ line ids, ∃ l parts rest, oriented i line l ∧ l = concat parts ++ rest ∧
      (∀ p, p ∈ parts → 2 ≤ length p ≤ 3) ∧
      Forall2 (λ p id, ∀ x, o_fc2cc r !! x = Some id ↔ x ∈ p) parts ids)
      lines (split_lines (o_idx r) (o_lines r)).
Proof. exact @C42_lem. Qed.
Print Assumptions C42_line_direction.

Example C42_line_direction_example :
  good_call (line7 true None) (Outs [] [0;5] [4;3;2;1;0]) ∧
  aniso_on (line7 true None) (Outs [] [0;5] [4;3;2;1;0]) ∧
  agglomerate_one_level (line7 true None) (Outs [] [0;5] [4;3;2;1;0]) =
    (Outs [0;0;1;1;1;2;2] [0;2] [0;1], Ok ()).
Proof. exact @C42_ex. Qed.

(** C43.  Tagging gives the compliant cells whose ratio of extreme face weights
    reaches the threshold (all of them if the threshold is negative), by
    decreasing priority, with the couplings used to build lines.
    Missing: the documented effect of the value 3 of [preserving], which has none
    ([kept]; see the next theorem). *)
Theorem C43_tagging_partial : ∀ {A : Arith} {H : HashOrder} i pv,
  total_order A → wf_mesh i → in_dim i = 2%Z ∨ in_dim i = 3%Z → buildable i →
  ∃ alt mw tags seeds,
    tag_anisotropic_cells_p pv (aniso_params_of i) (graph_of i) (in_prio i) (ratio_limit (in_thr i))
      = Ok (alt, mw, tags, seeds) ∧
    (∀ x, x ∈ seeds ↔
       anisotropic (in_row i) (in_col i) (in_val i) (bool_decide (in_dim i = 2%Z)) (in_compl i) (in_thr i) x ∧
       (wlt (ratio_limit (in_thr i)) w0 = true ∨ kept (in_row i) (in_col i) (in_bnd i) pv x)) ∧
    NoDup seeds ∧ prio_sorted (in_prio i) seeds ∧
    length tags = in_n i ∧ (∀ x, tags !! x = Some true ↔ x ∈ seeds) ∧
    (∀ x, x ∈ in_compl i → ∃ m, mw !! x = Some m ∧
       max_coupling (in_row i) (in_col i) (in_val i) (in_cen i) (bool_decide (in_coupling i = 1%Z)) (in_thr i) x m) ∧
    (in_coupling i = 1%Z → ∀ x off k y w, x ∈ in_compl i → in_row i !! x = Some off →
       couplings (in_row i) (in_col i) (in_val i) (in_cen i) true x !! k = Some (y, w) →
       alt !! (off + k) = Some w) ∧
    (pv = 0%Z →
     tag_anisotropic_cells (aniso_params_of i) (graph_of i) (in_prio i) (ratio_limit (in_thr i))
       = Ok (alt, mw, tags, seeds)).
Proof. exact @C43_lem. Qed.
Print Assumptions C43_tagging_partial.

Example C43_tagging_partial_example :
  total_order qarith ∧ wf_mesh (built6 0 false) ∧ in_dim (built6 0 false) = 2%Z ∧
  buildable (built6 0 false) ∧
  ∃ alt mw, tag_anisotropic_cells_p 2 (aniso_params_of (built6 0 false)) (graph_of (built6 0 false))
    (in_prio (built6 0 false)) (ratio_limit (in_thr (built6 0 false))) =
    Ok (alt, mw, [false; true; false; false; true; false], [1; 4]).
Proof. exact @C43_ex. Qed.

(** C43 is false in full: with the value 3 of [preserving], a cell with neither
    six faces, nor five and the boundary, is tagged. *)
Theorem C43_preserving_refuted :
  ∃ i alt mw tags seeds x, wf_mesh i ∧ in_dim i = 3%Z ∧ buildable i ∧
  wlt (ratio_limit (in_thr i)) w0 = false ∧
  tag_anisotropic_cells_p 3 (aniso_params_of i) (graph_of i) (in_prio i) (ratio_limit (in_thr i)) =
    Ok (alt, mw, tags, seeds) ∧
  x ∈ seeds ∧ ¬ layer_faces (in_row i) (in_col i) (in_bnd i) 6 x.
Proof. exact @C43_ref. Qed.
Print Assumptions C43_preserving_refuted.

(** C44.  The lines built are those of the documented rule, and there is only one
    way to build lines by it.  From each seed in turn (anisotropic cells by
    decreasing priority) the line goes on to the most strongly coupled free
    neighbour (the most aligned one if the direction is forced), then on the
    other side of the seed; a cell alone is dropped. *)
Theorem C44_built_lines_rule : ∀ {A : Arith} {H : HashOrder} i o,
  total_order A → good_call i o → aniso_on i o → in_build i = true →
  ∃ lines, call_lines i o = Ok lines ∧ built_lines i lines ∧
    ∀ lines', built_lines i lines' → lines' = lines.
Proof. exact @C44_lem. Qed.
Print Assumptions C44_built_lines_rule.

Example C44_built_lines_rule_example :
  total_order qarith ∧ good_call (built6 0 true) o0 ∧ aniso_on (built6 0 true) o0 ∧
  in_build (built6 0 true) = true ∧ call_lines (built6 0 true) o0 = Ok [[0;1;2;5];[3;4]] ∧
  call_lines (built6 0 false) o0 = Ok [[0;1;2];[3;4;5]].
Proof. exact @C44_ex. Qed.
