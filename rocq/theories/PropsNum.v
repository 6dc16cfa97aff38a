(** * PropsNum: lines built with other numbers than exact ones (C43, C44, C62) *)

From Verif Require Import Main Spec SpecHash SpecLine SpecNum TagM ApiT LineT Inst Double SpecDouble DoubleT DoubleE NumT NumE.

#[local] Existing Instance dbl | 10.
#[local] Existing Instance ord_id | 10.

(** C43 with an order which is total only on the numbers compared.  Missing, as
    in [C43_tagging_partial]: the value 3 of [preserving] has no effect. *)
Theorem C43_numbers_partial : ∀ {A : Arith} {H : HashOrder} (N : W → Prop) i pv,
  line_order N i → wf_mesh i → in_dim i = 2%Z ∨ in_dim i = 3%Z → buildable i →
  ∃ alt mw tags seeds,
    tag_anisotropic_cells_p pv (aniso_params_of i) (graph_of i) (in_prio i) (ratio_limit (in_thr i))
      = Ok (alt, mw, tags, seeds) ∧
    (∀ x, x ∈ seeds ↔
       anisotropic (in_row i) (in_col i) (in_val i) (bool_decide (in_dim i = 2%Z)) (in_compl i) (in_thr i) x ∧
       (wlt (ratio_limit (in_thr i)) w0 = true ∨ kept (in_row i) (in_col i) (in_bnd i) pv x)) ∧
    NoDup seeds ∧ prio_sorted (in_prio i) seeds ∧
    length tags = in_n i ∧ (∀ x, tags !! x = Some true ↔ x ∈ seeds) ∧
    (∀ x, x ∈ in_compl i → ∃ m, mw !! x = Some m ∧
       max_coupling (in_row i) (in_col i) (in_val i) (in_cen i) (bool_decide (in_coupling i = 1%Z)) (in_thr i) x m) ∧
    (in_coupling i = 1%Z → ∀ x off k y w, x ∈ in_compl i → in_row i !! x = Some off →
       couplings (in_row i) (in_col i) (in_val i) (in_cen i) true x !! k = Some (y, w) →
       alt !! (off + k) = Some w) ∧
    (pv = 0%Z →
     tag_anisotropic_cells (aniso_params_of i) (graph_of i) (in_prio i) (ratio_limit (in_thr i))
       = Ok (alt, mw, tags, seeds)).
Proof. exact @C43_numbers_lem. Qed.
Print Assumptions C43_numbers_partial.

Example C43_numbers_partial_example :
  let i := with_lines drows (seq 0 6) 1 true in
  line_order (A := dbl) d_plain i ∧ wf_mesh i ∧ in_dim i = 2%Z ∧ buildable i ∧
  match tag_anisotropic_cells_p 0 (aniso_params_of i) (graph_of i) (in_prio i) (ratio_limit (in_thr i)) with
  | Ok (_, _, tags, seeds) => (tags, seeds) = (replicate 6 true, seq 0 6)
  | Err _ => False
  end.
Proof. exact @C43_numbers_ex. Qed.

(** C44 with an order which is total only on the numbers compared. *)
Theorem C44_numbers : ∀ {A : Arith} {H : HashOrder} (N : W → Prop) i o,
  line_order N i → good_call i o → aniso_on i o → in_build i = true →
  ∃ lines, call_lines i o = Ok lines ∧ built_lines i lines ∧
    ∀ lines', built_lines i lines' → lines' = lines.
Proof. exact @C44_numbers_lem. Qed.
Print Assumptions C44_numbers.

Example C44_numbers_example :
  let i := with_lines drows (seq 0 6) 1 true in
  line_order (A := dbl) d_plain i ∧ good_call i o0 ∧ aniso_on i o0 ∧ in_build i = true ∧
  ¬ total_order dbl ∧ call_lines i o0 = Ok [[0;1;2];[3;4;5]].
Proof. exact @C44_numbers_ex. Qed.

(** C62.  In double precision the cells tagged are those over the threshold, if no
    weight of a face is a NaN or a negative zero (and the centres are finite, if the
    coupling is by distance). *)
Theorem C62_double_tagging : ∀ (sum : list spec_float → spec_float) (H : HashOrder) (i : @input (double sum)) (o : outs),
  double_call sum i o → double_faces sum i → aniso_on i o → in_build i = true →
  ∃ alt mw tags seeds,
    tag_anisotropic_cells (aniso_params_of i) (graph_of i) (in_prio i) (ratio_limit (in_thr i))
      = Ok (alt, mw, tags, seeds) ∧
    (∀ x, x ∈ seeds ↔
       anisotropic (in_row i) (in_col i) (in_val i) (bool_decide (in_dim i = 2%Z)) (in_compl i) (in_thr i) x) ∧
    NoDup seeds ∧ prio_sorted (in_prio i) seeds ∧
    length tags = in_n i ∧ (∀ x, tags !! x = Some true ↔ x ∈ seeds) ∧
    (∀ x, x ∈ in_compl i → ∃ m, mw !! x = Some m ∧
       max_coupling (in_row i) (in_col i) (in_val i) (in_cen i) (bool_decide (in_coupling i = 1%Z)) (in_thr i) x m).
Proof. exact @C62_tag_lem. Qed.
Print Assumptions C62_double_tagging.

Example C62_double_tagging_example :
  let i := with_lines drows (seq 0 6) in
  (∀ coupling force, double_call d_sum (i coupling force) o0 ∧ double_faces d_sum (i coupling force) ∧
    aniso_on (i coupling force) o0 ∧ in_build (i coupling force) = true) ∧
  call_lines (i 0%Z false) o0 = Ok [[0;1;2]] ∧
  call_lines (i 1%Z true) o0 = Ok [[0;1;2];[3;4;5]].
Proof. exact @C62_lines_ex. Qed.

(** C62.  Then the lines are those of the documented rule, computed with rounded
    numbers, and there is only one way to build lines by it. *)
Theorem C62_double_lines : ∀ (sum : list spec_float → spec_float) (H : HashOrder) (i : @input (double sum)) (o : outs),
  double_call sum i o → double_faces sum i → aniso_on i o → in_build i = true →
  ∃ lines, call_lines i o = Ok lines ∧ built_lines i lines ∧
    ∀ lines', built_lines i lines' → lines' = lines.
Proof. exact @C62_lines_lem. Qed.
Print Assumptions C62_double_lines.

Example C62_double_lines_example :
  let i := with_lines drows (seq 0 6) in
  (∀ coupling force, double_call d_sum (i coupling force) o0 ∧ double_faces d_sum (i coupling force) ∧
    aniso_on (i coupling force) o0 ∧ in_build (i coupling force) = true) ∧
  call_lines (i 0%Z false) o0 = Ok [[0;1;2]] ∧
  call_lines (i 1%Z true) o0 = Ok [[0;1;2];[3;4;5]].
Proof. exact @C62_lines_ex. Qed.

(** C62 is false with negative zeros: of a cell with faces of weights -0, 0 and 1 the
    ratio is 1/0 or 1/-0, as the faces are listed. *)
Theorem C62_negative_zero_refuted :
  ∃ (i : @input dbl) o alt mw tags seeds x,
  double_call d_sum i o ∧ aniso_on i o ∧ in_build i = true ∧ S754_nan ∉ (in_val i : list spec_float) ∧
  tag_anisotropic_cells (aniso_params_of i) (graph_of i) (in_prio i) (ratio_limit (in_thr i))
    = Ok (alt, mw, tags, seeds) ∧
  anisotropic (in_row i) (in_col i) (in_val i) (bool_decide (in_dim i = 2%Z)) (in_compl i) (in_thr i) x ∧
  x ∉ seeds.
Proof. exact @C62_zero_ref. Qed.
Print Assumptions C62_negative_zero_refuted.
