(** * PropsChecks: the checks of the arguments (C08, C33-C35) *)

From Verif Require Import CheckT CheckE.

#[local] Existing Instance qarith | 100.
#[local] Existing Instance ord_id | 100.

(** C08.  For any arguments the call throws [invalid_argument] for a reason other
    than the aspect ratio exactly when this is the first thing wrong. *)
Theorem C08_rejected_exactly : ∀ {A : Arith} {H : HashOrder} (i : input) (o : outs) (k : chk),
  k ≠ KAR →
  (agglomerate_one_level i o).2 = Err (EInvalid k) ↔ first_bad i o k.
Proof. exact @C08_lem. Qed.
Print Assumptions C08_rejected_exactly.

Example C08_rejected_exactly_example :
  (agglomerate_one_level bad2 o0).2 = Err (EInvalid KCard) ∧
  bad_arg bad2 o0 KCard ∧ bad_arg bad2 o0 KSing.
Proof. exact @C08_ex. Qed.

(** C08.  The aspect ratio is rejected only when it is unknown and everything else
    is right; conversely an unknown aspect ratio is rejected unless the call
    fails before the aspect ratio is looked at, in the same way for any
    aspect ratio (which does not happen for well-formed calls, see next). *)
Theorem C08_aspect_ratio : ∀ {A : Arith} {H : HashOrder} (i : input) (o : outs),
  ((agglomerate_one_level i o).2 = Err (EInvalid KAR) → first_bad i o KAR) ∧
  (first_bad i o KAR →
     (agglomerate_one_level i o).2 = Err (EInvalid KAR) ∨
     ∃ e, (∀ k, e ≠ EInvalid k) ∧ ∀ ar, agglomerate_one_level (with_ar ar i) o = (o, Err e)).
Proof. exact @C08_ar_lem. Qed.
Print Assumptions C08_aspect_ratio.

Example C08_aspect_ratio_example1 :
  (agglomerate_one_level (with_ar 10 (chain7 true)) o0).2 = Err (EInvalid KAR) ∧
  first_bad (with_ar 10 (chain7 true)) o0 KAR ∧ good_call (with_ar 0 (with_ar 10 (chain7 true))) o0.
Proof. exact @C08_ar_ex. Qed.

Example C08_aspect_ratio_example2 :
  ∃ i : @input qarith, first_bad i o0 KAR ∧ agglomerate_one_level i o0 = (o0, Err EUB).
Proof. exact @C08_first_ex. Qed.

(** C08.  A call well-formed but for its aspect ratio is rejected for it. *)
Theorem C08_aspect_ratio_good_call : ∀ {A : Arith} {H : HashOrder} (i : input) (o : outs) (ar : Z),
  good_call (with_ar ar i) o → ¬ (0 <= in_ar i <= 9)%Z →
  (agglomerate_one_level i o).2 = Err (EInvalid KAR).
Proof. exact @C08_good_lem. Qed.
Print Assumptions C08_aspect_ratio_good_call.

Example C08_aspect_ratio_good_call_example :
  (agglomerate_one_level (with_ar 10 (chain7 true)) o0).2 = Err (EInvalid KAR) ∧
  first_bad (with_ar 10 (chain7 true)) o0 KAR ∧ good_call (with_ar 0 (with_ar 10 (chain7 true))) o0.
Proof. exact @C08_ar_ex. Qed.

(** C33.  A rejected call leaves [fc_to_cc] unchanged, and all the output arguments
    when the reason is not the aspect ratio or when there is no anisotropy.
    Missing: the situation of the next theorem. *)
Theorem C33_outputs_unchanged_partial : ∀ {A : Arith} {H : HashOrder} (i : input) (o : outs) (r : outs) (k : chk),
  agglomerate_one_level i o = (r, Err (EInvalid k)) →
  o_fc2cc r = o_fc2cc o ∧ (k ≠ KAR ∨ ¬ aniso_on i o → r = o).
Proof. exact @C33_lem. Qed.
Print Assumptions C33_outputs_unchanged_partial.

Example C33_outputs_unchanged_partial_example :
  (agglomerate_one_level (with_ar 10 (chain7 true)) o_line5).2 = Err (EInvalid KAR) ∧
  (agglomerate_one_level (with_sing 0 (line7 false None)) o_line5).2 = Err (EInvalid KSing).
Proof. exact @C33_ex. Qed.

(** C33 is false with anisotropy and an unknown aspect ratio: the given lines have
    been overwritten when the exception is thrown. *)
Theorem C33_outputs_unchanged_refuted :
  ∃ i o ar, good_call (with_ar ar i) o ∧ ∃ r, agglomerate_one_level i o = (r, Err (EInvalid KAR)) ∧
  o_idx r ≠ o_idx o ∧ o_lines r ≠ o_lines o.
Proof. exact @C33_ref. Qed.
Print Assumptions C33_outputs_unchanged_refuted.

(** C34.  Two calls whose boundary counts are the same once cut down to the
    dimension have the same outcome. *)
Theorem C34_boundary_counts_clipped : ∀ {A : Arith} {H : HashOrder} (i : input) (o : outs) (bnd : list Z),
  map (Z.min (in_dim i)) bnd = map (Z.min (in_dim i)) (in_bnd i) →
  agglomerate_one_level (with_bnd bnd i) o = agglomerate_one_level i o.
Proof. exact @C34_lem. Qed.
Print Assumptions C34_boundary_counts_clipped.

Example C34_boundary_counts_clipped_example :
  map (Z.min (in_dim (chain7 true))) [5; 1; 1; 1; 1; 1; 1]%Z
    = map (Z.min (in_dim (chain7 true))) (in_bnd (chain7 true)) ∧
  [5; 1; 1; 1; 1; 1; 1]%Z ≠ in_bnd (chain7 true) ∧
  ∃ f, agglomerate_one_level (chain7 true) o0 = (f, Ok ()).
Proof. exact @C34_ex. Qed.

(** C35.  Any threshold not less than [min_card] acts as [min_card - 1]. *)
Theorem C35_threshold_clipped : ∀ {A : Arith} {H : HashOrder} (i : input) (o : outs) (s : Z),
  (in_min i <= s)%Z →
  agglomerate_one_level (with_sing s i) o = agglomerate_one_level (with_sing (in_min i - 1) i) o.
Proof. exact @C35_lem. Qed.
Print Assumptions C35_threshold_clipped.

Example C35_threshold_clipped_example :
  (in_min (tree10_in true 1) <= 7)%Z ∧
  (agglomerate_one_level (with_sing 7 (tree10_in true 1)) o0).2 = Ok () ∧
  agglomerate_one_level (with_sing 7 (tree10_in true 1)) o0 ≠ agglomerate_one_level (tree10_in true 1) o0.
Proof. exact @C35_ex. Qed.
