(** * SpecAR: which features and which aspect ratio a set of cells has
    (C28, C39)

    From the model, only the types [graph], [feats] and [ar_kind] are used. *)

From Verif Require Import Base Features Spec SpecSub SpecFeat.

Section ar.
Context {A : Arith} (g : graph).
Implicit Types (X : gset nat) (k : ar_kind) (f : feats).

Notation row := (g_row g).
Notation col := (g_col g).
Notation val := (g_val g).
Notation vol := (g_vol g).
Notation cen := (g_cen g).
Notation bnd := (g_bnd g).

(** The data of a mesh with centres of [dim] coordinates. *)
Record mesh_data (dim : nat) : Prop := {
  md_csr : csr (g_n g) row col;
  md_sym : csr_sym row col;
  md_val : length val = length col;
  md_sym_val : sym_weights row col val;
  md_vol : length vol = g_n g;
  md_cen : length cen = g_n g;
  md_dim : ∀ x c, cen !! x = Some c → length c = dim;
  md_bnd : length bnd = g_n g;
}.

(** The features that each aspect ratio needs. *)
Definition needs_weights k : bool :=
  match k with PerimOverRadius _ | AlgPerimOverMeasure | ExternalW | OverInternal => true | _ => false end.
Definition needs_distances k : bool :=
  match k with DiamOverRadius _ | DiamOverMinEdge | Diameter => true | _ => false end.
Definition needs_moments k : bool :=
  match k with MaxBaryOverRadius _ | MaxOverMinBary => true | _ => false end.
Definition needs_facets k : bool :=
  match k with MaxOverMinBary => true | _ => false end.

(** [f] holds the features of the set of cells [X] needed by [k]; centres have
    [dim] coordinates. *)
Record feats_right (dim : nat) k X f : Prop := {
  fr_meas : f_meas f = measure vol X;
  fr_nint : f_nint f = internal_faces row col X;
  fr_int : needs_weights k = true → f_int f = internal_weight row col val X;
  fr_ext : needs_weights k = true → f_ext f = external_weight row col val bnd X;
  fr_diam : needs_distances k = true → is_diam cen X (f_sqdiam f);
  fr_edge : needs_distances k = true → is_min_edge cen X (f_sqmin f);
  fr_dim : needs_moments k = true → length (f_sum f) = dim;
  fr_sum : needs_moments k = true → ∀ d, d < dim → f_sum f !! d = Some (moment vol cen X d);
  fr_facets : needs_facets k = true → ∀ x, x ∈ X → f_facets f !! x = Some (outer_faces row col bnd X x);
}.

(** [sqx] is the square of a length: it is compared to the square of the
    radius, both being raised to a power to avoid roots. *)
Definition over_radius (is2d : bool) (sqx m : W) : W :=
  if is2d then wdiv sqx m else wdiv (wmul (wmul sqx sqx) sqx) (wmul m m).

(** The point the distances are taken from by the last two kinds: the sum of
    the centres weighted by the volumes, divided by [q]. *)
Definition centre_of (q : W) X (b : list W) : Prop :=
  ∀ d, b !! d = (if decide (d < length b) then Some (wmul (moment vol cen X d) (wdiv w1 q)) else None).
Definition bary_dist (b : list W) X (w : W) : Prop :=
  ∃ x c, x ∈ X ∧ cen !! x = Some c ∧ w = dist2 b c.
(** Cells without outer face and cells centred at [b] do not count. *)
Definition outer_bary_dist (b : list W) X (w : W) : Prop :=
  ∃ x c, x ∈ X ∧ cen !! x = Some c ∧ w = wsqrt (dist2 b c) ∧ (0 < outer_faces row col bnd X x)%Z ∧ wlt wtol w = true.

(** [a] is the aspect ratio [k] of [X], [q] being the divisor used for the
    barycentre.  The documentation calls the barycentre a weighted average,
    that is, [q] the measure of [X]. *)
Definition is_ar (dim : nat) (q : W) k X (a : W) : Prop :=
  let m := measure vol X in
  match k with
  | DiamOverRadius is2d => ∃ D, is_diam cen X D ∧ a = over_radius is2d D m
  | DiamOverMinEdge => ∃ D E, is_diam cen X D ∧ is_min_edge cen X E ∧ a = wdiv D E
  | Diameter => is_diam cen X a
  | OverMeasure => a = wdiv w1 m
  | OverInternal => a = wdiv w1 (internal_weight row col val X)
  | PerimOverRadius is2d =>
      let p := external_weight row col val bnd X in
      a = (if is2d then wdiv (wmul p p) m else wdiv (wmul (wmul p p) p) (wmul m m))
  | ExternalW => a = external_weight row col val bnd X
  | MaxBaryOverRadius is2d => ∃ b D, length b = dim ∧ centre_of q X b ∧
      greatest (bary_dist b X) D ∧ a = over_radius is2d D m
  | MaxOverMinBary => ∃ b D E, length b = dim ∧ centre_of q X b ∧
      greatest (λ w, w = wminv ∨ outer_bary_dist b X w) D ∧
      least (λ w, w = wmaxv ∨ outer_bary_dist b X w) E ∧ a = wdiv D E
  | AlgPerimOverMeasure => a = wdiv (external_weight row col val bnd X) m
  end.

(** [DIAMETER_OVER_MIN_EDGE] makes an exception of cells of two fine cells. *)
Definition two_cells_edge k X : bool :=
  match k with DiamOverMinEdge => bool_decide (size X = 2) | _ => false end.

(** The conventional extreme values used by the last kind are extreme. *)
Definition extremes_ok (q : W) X : Prop :=
  ∀ b w, centre_of q X b → outer_bary_dist b X w → wlt w wminv = false ∧ wlt wmaxv w = false.
End ar.
