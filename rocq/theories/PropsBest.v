(** * PropsBest: the next cell of a growing coarse cell (C38) *)

From Verif Require Import Features Neigh Iso Spec SpecSub SpecFeat SpecAR SpecBest FeatU BestT BestE FeatE ApiE SearchT Inst.

#[local] Existing Instance qarith | 100.
#[local] Existing Instance ord_id | 100.

(** C38, biconnected agglomerator.  The chosen candidate shares a face with the
    coarse cell and is the first of the best ones by number of faces, then order,
    then aspect ratio; the features returned are those with the chosen cell. *)
Theorem C38_best_candidate : ∀ {A : Arith} {H : HashOrder} (g : graph) (dim : nat) (k : ar_kind) (seed : nat) (l : list nat) (h : nbh) (dn : gmap nat Z),
  weak_order (@wlt A) (λ _, True) → mesh_shape g dim →
  NoDup (seed :: l) → (∀ x, x ∈ seed :: l → x < g_n g) →
  let X := list_to_set (seed :: l) in
  nb_cand h ≠ [] →
  (∀ x, x ∈ nb_cand h → x < g_n g ∧ x ∉ X ∧ is_Some (dn !! x) ∧
    ∃ y, y ∈ X ∧ y ∈ nb_list (g_row g) (g_col g) x) →
  let faces x := Z.of_nat (nb_in (g_row g) (g_col g) X (λ y, y ≠ x) x) in
  ∃ f b (ar : nat → W), features_of k g seed l = Ok f ∧
    best_biconnected k g h dn f X 0 0%Z feats_default = Ok b ∧
    (∀ x, x ∈ nb_cand h → ∃ f', compute_features k g x f X = Ok (faces x, ar x, f')) ∧
    first_best (λ x, (faces x, default 0%Z (dn !! x), ar x)) (nb_cand h) (b_arg b) ∧
    b_faces b = faces (b_arg b) ∧ (0 < b_faces b)%Z ∧
    compute_features k g (b_arg b) f X = Ok (faces (b_arg b), ar (b_arg b), b_feats b).
Proof. exact @C38_best. Qed.
Print Assumptions C38_best_candidate.

Example C38_best_candidate_example :
  weak_order (@wlt qarith) (λ _, True) ∧ mesh_shape grid9_g 2 ∧
  features_of OverMeasure grid9_g 0 [1; 3] = Ok f9 ∧ grow9 = Ok h9 ∧ nb_cand h9 = [2; 4; 6] ∧
  best_biconnected OverMeasure grid9_g h9 dn9 f9 X9 0 0%Z feats_default = Ok b9 ∧
  b_arg b9 = 4 ∧ b_faces b9 = 2%Z ∧
  best_iterative 0 OverMeasure grid9_g prio9 h9 dn9 f9 X9 0 0%Z feats_default = Ok (i9 0) ∧
  b_arg (i9 0) = 4 ∧
  best_iterative 1 OverMeasure grid9_g prio9 h9 dn9 f9 X9 0 0%Z feats_default = Ok (i9 1) ∧
  b_arg (i9 1) = 2.
Proof. exact @C38_ex. Qed.

(** C38, iterative agglomerator.  The chosen candidate shares a face with the
    coarse cell and is the first of the best ones, when each candidate is judged
    with the cells that could be added after it.  Missing: with look-ahead it need
    not be among the best ones by its own faces. *)
Theorem C38_look_ahead_partial : ∀ {A : Arith} {H : HashOrder} (g : graph) (prio : list W) (dim : nat) (k : ar_kind) (seed : nat) (l : list nat) (allowed : gset nat) (front : option Z) (dn : gmap nat Z) (n : nat),
  weak_order (@wlt A) (λ _, True) → mesh_shape g dim → length prio = g_n g →
  (∀ b, b ∈ g_bnd g → (0 <= b <= 3)%Z) →
  NoDup (seed :: l) → (∀ x, x ∈ seed :: l → x < g_n g) →
  (∀ d, front = Some d → (2 <= d)%Z) →
  (∀ x, x ∈ allowed → x < g_n g ∧ (x ∉ seed :: l → is_Some (dn !! x))) →
  (∃ x y, x ∈ allowed ∧ x ∉ seed :: l ∧ y ∈ seed :: l ∧ x ∈ nb_list (g_row g) (g_col g) y) →
  let X := list_to_set (seed :: l) in
  let faces x := Z.of_nat (nb_in (g_row g) (g_col g) X (λ y, y ≠ x) x) in
  ∃ f h b (ar : nat → W) (look : nat → Z * W), features_of k g seed l = Ok f ∧
    foldM (λ h c, l ← nbrs g c; nbh_update prio h c l) (seed :: l) (nbh_create allowed front) = Ok h ∧
    best_iterative n k g prio h dn f X 0 0%Z feats_default = Ok b ∧
    (∀ x, x ∈ nb_cand h → ∃ f', compute_features k g x f X = Ok (faces x, ar x, f') ∧
      match n with
      | O => look x = (faces x, ar x)
      | S n' => ∃ h' b', (l ← nbrs g x; nbh_update prio h x l) = Ok h' ∧
          best_iterative n' k g prio h' dn f' ({[x]} ∪ X) 0 0%Z feats_default = Ok b' ∧
          look x = ahead (faces x) (ar x) (b_faces b')
      end) ∧
    first_best (λ x, ((look x).1, default 0%Z (dn !! x), (look x).2)) (nb_cand h) (b_arg b) ∧
    b_faces b = faces (b_arg b) ∧ (0 < b_faces b)%Z ∧
    compute_features k g (b_arg b) f X = Ok (faces (b_arg b), ar (b_arg b), b_feats b).
Proof. exact @C38_look. Qed.
Print Assumptions C38_look_ahead_partial.

Example C38_look_ahead_partial_example :
  weak_order (@wlt qarith) (λ _, True) ∧ mesh_shape grid9_g 2 ∧
  features_of OverMeasure grid9_g 0 [1; 3] = Ok f9 ∧ grow9 = Ok h9 ∧ nb_cand h9 = [2; 4; 6] ∧
  best_biconnected OverMeasure grid9_g h9 dn9 f9 X9 0 0%Z feats_default = Ok b9 ∧
  b_arg b9 = 4 ∧ b_faces b9 = 2%Z ∧
  best_iterative 0 OverMeasure grid9_g prio9 h9 dn9 f9 X9 0 0%Z feats_default = Ok (i9 0) ∧
  b_arg (i9 0) = 4 ∧
  best_iterative 1 OverMeasure grid9_g prio9 h9 dn9 f9 X9 0 0%Z feats_default = Ok (i9 1) ∧
  b_arg (i9 1) = 2.
Proof. exact @C38_ex. Qed.

(** C38 is false of the iterative agglomerator with look-ahead: a candidate
    sharing fewer faces can be preferred. *)
Theorem C38_look_ahead_refuted :
  ∃ g prio dim k seed l h f dn b x,
  mesh_shape g dim ∧ weak_order (@wlt qarith) (λ _, True) ∧ features_of k g seed l = Ok f ∧
  foldM (λ h c, l ← nbrs g c; nbh_update prio h c l) (seed :: l) (nbh_create al9 None) = Ok h ∧
  best_iterative 1 k g prio h dn f (list_to_set (seed :: l)) 0 0%Z feats_default = Ok b ∧
  x ∈ nb_cand h ∧
  let faces x := Z.of_nat (nb_in (g_row g) (g_col g) (list_to_set (seed :: l)) (λ y, y ≠ x) x) in
  ∀ ar : nat → @W qarith, beats (faces x, default 0%Z (dn !! x), ar x)
                     (faces (b_arg b), default 0%Z (dn !! b_arg b), ar (b_arg b)).
Proof. exact @C38_look_ref. Qed.
Print Assumptions C38_look_ahead_refuted.
