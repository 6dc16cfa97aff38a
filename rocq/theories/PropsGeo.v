(** * PropsGeo: moving the mesh and changing units (C55, C56) *)

From Verif Require Import Main Spec SpecFeat SpecGeo Inst ApiE GeoU GeoW GeoE.

#[local] Existing Instance qarith | 100.
#[local] Existing Instance ord_id | 100.

(** C55.  If the vectors between the centres stay the same, so do outcome and
    outputs of any call.  Missing: aspect ratios 7 and 8. *)
Theorem C55_differences_partial : ∀ {A : Arith} {H : HashOrder} (i : input) (o : outs) (cen' : list (list W)),
  same_differences (in_cen i) cen' → in_ar i ≠ 7%Z → in_ar i ≠ 8%Z →
  agglomerate_one_level (put_cen i cen') o = agglomerate_one_level i o.
Proof. exact @differences. Qed.
Print Assumptions C55_differences_partial.

Example C55_differences_partial_example :
  same_differences (in_cen grid9_in) (translated vec (in_cen grid9_in)) ∧ in_ar grid9_in ≠ 7%Z ∧ in_ar grid9_in ≠ 8%Z ∧
  translated vec (in_cen grid9_in) ≠ in_cen grid9_in ∧ (agglomerate_one_level grid9_in o0).2 = Ok ().
Proof. exact @C55_differences_ex. Qed.

(** C55.  Moving all the centres by one vector changes nothing, if subtraction is
    exact.  Missing: aspect ratios 7 and 8. *)
Theorem C55_translation_partial : ∀ {A : Arith} {H : HashOrder} (i : input) (o : outs) (t : list W),
  (∀ a b s, wsub (wadd a s) (wadd b s) = wsub a b) → Forall (λ c, length c ≤ length t) (in_cen i) →
  in_ar i ≠ 7%Z → in_ar i ≠ 8%Z →
  agglomerate_one_level (put_cen i (translated t (in_cen i))) o = agglomerate_one_level i o.
Proof. exact @translation. Qed.
Print Assumptions C55_translation_partial.

Example C55_translation_partial_example :
  (∀ a b s : @W qarith, wsub (wadd a s) (wadd b s) = wsub a b) ∧
  Forall (λ c, length c ≤ length vec) (in_cen (built6 0 true)) ∧
  in_ar (built6 0 true) ≠ 7%Z ∧ in_ar (built6 0 true) ≠ 8%Z ∧
  in_cen (put_cen (built6 0 true) (translated vec (in_cen (built6 0 true)))) !! 1 = Some [qc 9 2; qc (-5) 1] ∧
  in_cen (built6 0 true) !! 1 = Some [qc 1 1; qc 0 1] ∧
  (agglomerate_one_level (built6 0 true) o0).2 = Ok ().
Proof. exact @C55_translation_ex. Qed.

(** C55.  If the distances between the centres stay the same (rotations,
    reflections), so do outcome and outputs.  Missing: aspect ratios 7 and 8, and
    lines to be built. *)
Theorem C55_rigid_motion_partial : ∀ {A : Arith} {H : HashOrder} (i : input) (o : outs) (cen' : list (list W)),
  exact_arith → same_distances (in_cen i) cen' → in_ar i ≠ 7%Z → in_ar i ≠ 8%Z → in_aniso i = false ∨ in_build i = false →
  agglomerate_one_level (put_cen i cen') o = agglomerate_one_level i o.
Proof. exact @distances. Qed.
Print Assumptions C55_rigid_motion_partial.

Example C55_rigid_motion_partial_example :
  @exact_arith qarith ∧ same_distances (in_cen grid9_in) (map reverse (in_cen grid9_in)) ∧
  in_ar grid9_in ≠ 7%Z ∧ in_ar grid9_in ≠ 8%Z ∧ in_aniso grid9_in = false ∧
  map reverse (in_cen grid9_in) ≠ in_cen grid9_in ∧ (agglomerate_one_level grid9_in o0).2 = Ok ().
Proof. exact @C55_distances_ex. Qed.

(** C55.  For the aspect ratios which do not look at the centres and without
    lines to be built the coordinates do not matter. *)
Theorem C55_centres_unused : ∀ {A : Arith} {H : HashOrder} (i : input) (o : outs) (cen' : list (list W)),
  same_shape (in_cen i) cen' → in_ar i ∉ [0; 1; 2; 7; 8]%Z → in_aniso i = false ∨ in_build i = false →
  agglomerate_one_level (put_cen i cen') o = agglomerate_one_level i o.
Proof. exact @centres_unused. Qed.
Print Assumptions C55_centres_unused.

Example C55_centres_unused_example :
  same_shape (in_cen (with_ar 3 grid9_in)) (replicate 9 [qc 0 1; qc 0 1]) ∧
  in_ar (with_ar 3 grid9_in) ∉ [0; 1; 2; 7; 8]%Z ∧ in_aniso (with_ar 3 grid9_in) = false ∧
  in_cen (with_ar 3 grid9_in) !! 1 ≠ Some [qc 0 1; qc 0 1] ∧
  (agglomerate_one_level (with_ar 3 grid9_in) o0).2 = Ok ().
Proof. exact @C55_unused_ex. Qed.

(** C55 does not hold for aspect ratio 7: on three cells the choice depends on the
    distance of the mesh from the origin. *)
Theorem C55_translation_refuted :
  exists (i : @input qarith) (o : outs) (t : list (@W qarith)),
    (∀ a b s : @W qarith, wsub (wadd a s) (wadd b s) = wsub a b) ∧
    good_call i o ∧ Forall (λ c, length c ≤ length t) (in_cen i) ∧
    (agglomerate_one_level i o).2 = Ok () ∧
    (agglomerate_one_level (put_cen i (translated t (in_cen i))) o).2 = Ok () ∧
    o_fc2cc (agglomerate_one_level i o).1 = [0; 1; 0] ∧
    o_fc2cc (agglomerate_one_level (put_cen i (translated t (in_cen i))) o).1 = [0; 0; 1].
Proof. exact @translation_refuted. Qed.
Print Assumptions C55_translation_refuted.

(** C56.  Multiplying all weights of the faces by u, all volumes by v and all
    coordinates by l changes nothing.  Missing: aspect ratios 7 and 8. *)
Theorem C56_units_partial : ∀ {A : Arith} {H : HashOrder} (i : input) (o : outs) (u v l : W),
  exact_field → good_call i o → units_ok i u v l → in_ar i ≠ 7%Z → in_ar i ≠ 8%Z →
  agglomerate_one_level (rescaled i u v l) o = agglomerate_one_level i o.
Proof. exact @units. Qed.
Print Assumptions C56_units_partial.

Example C56_units_partial_example1 :
  @exact_field qarith ∧ good_call (built6 0 false) o0 ∧ units_ok (built6 0 false) (qc 2 1) (qc 1 1000) (qc 1 2) ∧
  in_ar (built6 0 false) ≠ 7%Z ∧ in_ar (built6 0 false) ≠ 8%Z ∧
  (agglomerate_one_level (built6 0 false) o0).2 = Ok ().
Proof. exact @C56_ex. Qed.

Example C56_units_partial_example2 :
  @exact_field qarith ∧ good_call (built6 0 true) o0 ∧ units_ok (built6 0 true) (qc 2 1) (qc 1 1000) (qc 1 1) ∧
  in_force (built6 0 true) = true ∧ in_aniso (built6 0 true) = true ∧ in_build (built6 0 true) = true.
Proof. exact @C56_force_ex. Qed.

(** C56 does not hold for aspect ratio 7: on three cells the choice depends on the
    unit of the volumes. *)
Theorem C56_units_refuted :
  exists (i : @input qarith) (o : outs) (v : @W qarith),
    @exact_field qarith ∧ good_call i o ∧ above0 v ∧ units_ok i w1 v w1 ∧
    (agglomerate_one_level i o).2 = Ok () ∧ (agglomerate_one_level (rescaled i w1 v w1) o).2 = Ok () ∧
    o_fc2cc (agglomerate_one_level i o).1 = [0; 0; 1] ∧
    o_fc2cc (agglomerate_one_level (rescaled i w1 v w1) o).1 = [0; 1; 0].
Proof. exact @units_refuted. Qed.
Print Assumptions C56_units_refuted.
