(** * PropsInt: 32-bit integers (C54) *)

From Verif Require Import Main Machine Spec SpecInt Inst ApiE IntE.

#[local] Existing Instance qarith | 100.
#[local] Existing Instance ord_id | 100.

(** C54.  With valid data of moderate size no number overflows: the program
    with 32-bit integers succeeds with the outputs of the one with unbounded
    integers. *)
Theorem C54_no_overflow : ∀ {A : Arith} {H : HashOrder} (i : input) o D,
  good_call i o → fits_int i D →
  agglomerate_checked i o = agglomerate_one_level i o ∧ (agglomerate_checked i o).2 = Ok ().
Proof. exact @C54_no_overflow_lem. Qed.
Print Assumptions C54_no_overflow.

Example C54_no_overflow_example1 :
  good_call grid9_in o0 ∧ fits_int grid9_in 4 ∧
  agglomerate_checked grid9_in o0 = agglomerate_one_level grid9_in o0 ∧ length (o_fc2cc (agglomerate_checked grid9_in o0).1) = 9.
Proof. exact @C54_no_overflow_ex. Qed.

Example C54_no_overflow_example2 :
  good_call grid9_max o0 ∧ fits_int grid9_max 4 ∧
  (agglomerate_checked grid9_max o0).2 = Ok ().
Proof. exact @C54_no_overflow_max. Qed.

(** C54.  Whatever the call, either the two programs agree or the one with
    32-bit integers meets an overflow. *)
Theorem C54_only_overflow : ∀ {A : Arith} {H : HashOrder} (i : input) o,
  agglomerate_checked i o = agglomerate_one_level i o ∨ (agglomerate_checked i o).2 = Err EUB.
Proof. exact @C54_only_overflow_lem. Qed.
Print Assumptions C54_only_overflow.

Example C54_only_overflow_example :
  agglomerate_checked (neg2 (-1)) o0 = agglomerate_one_level (neg2 (-1)) o0 ∧
  (agglomerate_checked (neg2 (-2147483648)) o0).2 = Err EUB.
Proof. exact @C54_only_overflow_ex. Qed.

(** C54.  Nothing rejects a negative number of boundary faces, and then a
    number may overflow on a mesh of two cells. *)
Theorem C54_negative_counts :
  ∃ (i : @input qarith) (o : outs),
  accepted i ∧ fits_int i 1 ∧ (∀ b, b ∈ in_bnd i → (-2147483648 <= b <= 0)%Z) ∧
  (agglomerate_one_level i o).2 = Ok () ∧ (agglomerate_checked i o).2 = Err EUB.
Proof. exact @C54_negative_counts_lem. Qed.
Print Assumptions C54_negative_counts.
