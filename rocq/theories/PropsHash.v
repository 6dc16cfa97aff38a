(** * PropsHash: independence of hash iteration orders (C26) *)

From Verif Require Import Main Spec SpecHash HashW HashE ApiE Inst.

#[local] Existing Instance qarith | 100.

(** C26, when there is no correction or only single cells are corrected: a
    well-formed call gives the same outputs and the same outcome whatever the
    order in which unordered containers are iterated.  If the aspect ratio is
    computed from distances, the extremum of a set of distances must be unique:
    [dist_order], which holds for every totally ordered number type and, always,
    for doubles (C59).  Missing: larger thresholds, for which the property is
    false (below). *)
Theorem C26_order_independent_partial : ∀ {A : Arith} (H1 H2 : HashOrder) i o,
  good_call i o → (dist_ratio i → dist_order A) →
  in_corr i = false ∨ thresh_one i →
  @agglomerate_one_level A H1 i o = @agglomerate_one_level A H2 i o.
Proof. exact @C26_lem. Qed.
Print Assumptions C26_order_independent_partial.

Example C26_order_independent_partial_example :
  good_call grid9_in o0 ∧ dist_ratio grid9_in ∧ dist_order qarith ∧ thresh_one grid9_in ∧
  @hset ord_id 0 {[1; 2]} ≠ @hset ord_rev 0 {[1; 2]} ∧
  o_fc2cc (@agglomerate_one_level qarith ord_rev grid9_in o0).1 = [0; 0; 1; 0; 0; 1; 2; 2; 2].
Proof. exact @C26_ex. Qed.

(** C26 is false with a threshold of two: the cells of a coarse cell which is
    corrected cell by cell are visited in the order of an [unordered_map], and
    two orders give different coarse cells. *)
Theorem C26_order_refuted :
  ∃ (i : @input qarith) o, good_call i o ∧ total_order qarith ∧
  (@agglomerate_one_level qarith ord_id i o).2 = Ok () ∧
  (@agglomerate_one_level qarith ord_rev i o).2 = Ok () ∧
  o_fc2cc (@agglomerate_one_level qarith ord_id i o).1 ≠ o_fc2cc (@agglomerate_one_level qarith ord_rev i o).1.
Proof. exact @C26_ref. Qed.
Print Assumptions C26_order_refuted.
