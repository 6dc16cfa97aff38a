(** * SpecLine: vocabulary of the statements about anisotropic lines
    (C42, C43, C44)

    Nothing in here uses a function of the model. *)

From Verif Require Import Main Spec SpecSub SpecFeat.

Section line.
Context {A : Arith}.

(** ** Vectors *)

(** Squared distance, scalar product and the unit vector from [a] to [b]. *)
Definition sqd (a b : list W) : W :=
  foldl (λ s d, wadd s (wmul d d)) w0 (zip_with wsub a b).
Definition scalar (a b : list W) : W := foldl wadd w0 (zip_with wmul a b).
Definition unit_vec (a b : list W) : list W :=
  let d := zip_with (λ x y, wsub y x) a b in
  let norm := wsqrt (foldl (λ s x, wadd s (wmul x x)) w0 d) in
  (λ x, wmul x (wdiv w1 norm)) <$> d.
Definition opposite (v : list W) : list W := wmul (wofZ (-1)) <$> v.

(** [y] is the one with the highest value among the pairs satisfying [P]; the
    lowest index is taken when values are equal. *)
Definition preferred (P : nat → W → Prop) (y : nat) : Prop :=
  ∃ w, P y w ∧ ∀ y' w', P y' w' → wlt w' w = true ∨ wlt w w' = false ∧ y ≤ y'.

Section data.
Context (row col : list nat) (val : list W) (cen : list (list W)).

(** ** Which cells are anisotropic *)

(** The ratio of the greatest weight of the faces of [x] to the least one (its
    square root in 3D) is [a].  Faces of a cell with itself do not count. *)
Definition face_ratio (is2d : bool) (x : nat) (a : W) : Prop :=
  ∃ mx mn, greatest (λ w, w = w0 ∨ w ∈ faces_to row col val (λ y, y ≠ x) x) mx ∧
    least (λ w, w = wmaxv ∨ w ∈ faces_to row col val (λ y, y ≠ x) x) mn ∧
    a = if is2d then wdiv mx mn else wsqrt (wdiv mx mn).

(** The threshold to which the ratio is compared: a number between 0 and 1
    stands for its inverse. *)
Definition ratio_limit (thr : W) : W :=
  if wlt w1 thr || wlt thr w0 then thr else wdiv w1 thr.

(** With a negative threshold all the compliant cells are anisotropic,
    otherwise those whose ratio is not below the threshold. *)
Definition anisotropic (is2d : bool) (compl : list nat) (thr : W) (x : nat) : Prop :=
  x ∈ compl ∧
  (wlt (ratio_limit thr) w0 = true ∨
   ∃ a, face_ratio is2d x a ∧ wle (ratio_limit thr) a = true).

(** Boundary layers: the documented effect of the argument [preserving] is to
    keep only cells with 4 faces in 2D and 6 faces in 3D (value 2 and 3), a face
    more or less being on the boundary. *)
Definition layer_faces (bnd : list Z) (k : nat) (x : nat) : Prop :=
  let others := length (filter (λ y, y ≠ x) (nb_list row col x)) in
  (0 < default 0 (bnd !! x))%Z ∧ S others = k ∨ others = k.
(** What the program does: the value 3 has no effect. *)
Definition kept (bnd : list Z) (preserving : Z) (x : nat) : Prop :=
  preserving = 2%Z → layer_faces bnd 4 x.

(** ** How strongly cells are coupled *)

Section coupled.
Context (mindist : bool) (thr : W).

Definition centre (x : nat) : list W := default [] (cen !! x).

(** The neighbours of [x] and how strongly they are coupled to it: the inverse
    of the squared distance of the centres or the weight of the face. *)
Definition couplings (x : nat) : list (nat * W) :=
  if mindist then (λ y, (y, wdiv w1 (sqd (centre x) (centre y)))) <$> nb_list row col x
  else entries row col val x.

(** The highest coupling of [x]. *)
Definition max_coupling (x : nat) : W → Prop :=
  if mindist then greatest (λ w, w = w0 ∨ w ∈ (couplings x).*2)
  else if wlt (ratio_limit thr) w0 then greatest (λ w, w ∈ (couplings x).*2)
  else greatest (λ w, w = w0 ∨ w ∈ faces_to row col val (λ y, y ≠ x) x).

(** [y] is coupled to [x] with [w], above 90% of the highest coupling. *)
Definition high_coupled (x y : nat) (w : W) : Prop :=
  (y, w) ∈ couplings x ∧ ∃ m, max_coupling x m ∧ wlt (wmul w090 m) w = true.

(** The cosine [c] between [dir] and the step from [x] to [y], both taken
    backwards, when the line goes forward and does not deviate too much. *)
Definition aligned (x : nat) (dir : list W) (y : nat) (c : W) : Prop :=
  c = scalar dir (unit_vec (centre y) (centre x)) ∧ wlt w0 c = true ∧ wlt (wabs c) wdev = false.

(** ** How lines are built *)

Context (force : bool).
Implicit Types F : gset nat.

(** The cell of [F] by which a line ending in [x] is continued.  [dir] is the
    direction of the last step, if there is one. *)
Definition continued F (x : nat) (dir : option (list W)) (y : nat) : Prop :=
  match dir, force with
  | Some d, true =>
      let high := λ y c, y ∈ F ∧ (∃ w, high_coupled x y w) ∧ aligned x d y c in
      preferred high y ∨
      (∀ y' c, ¬ high y' c) ∧
      preferred (λ y c, y ∈ F ∧ y ∈ nb_list row col x ∧ aligned x d y c) y
  | _, _ => preferred (λ y w, y ∈ F ∧ high_coupled x y w) y
  end.

(** The cells [l], all in [F], continue a line ending in [x] as far as
    possible. *)
Inductive prolonged : gset nat → nat → option (list W) → list nat → Prop :=
| prol_end F x dir : (∀ y, ¬ continued F x dir y) → prolonged F x dir []
| prol_step F x dir y l : continued F x dir y →
    prolonged (F ∖ {[y]}) y (Some (unit_vec (centre y) (centre x))) l →
    prolonged F x dir (y :: l).

(** [l] is the line built from the seed [s] with the cells of [F]: from the
    seed on, and then on the other side of it. *)
Definition built_from F (s : nat) (l : list nat) : Prop :=
  ∃ fwd bwd, prolonged (F ∖ {[s]}) s None fwd ∧
    match fwd with
    | [] => bwd = []
    | y :: _ => prolonged (F ∖ {[s]} ∖ list_to_set fwd) s
        (Some (opposite (unit_vec (centre y) (centre s)))) bwd
    end ∧
    l = reverse bwd ++ s :: fwd.

(** The lines built from the seeds [ss] with the cells of [F]; a line of a
    single cell is dropped, but its cell is not used again. *)
Inductive all_built : gset nat → list nat → list (list nat) → Prop :=
| ab_end F : all_built F [] []
| ab_used F s ss ls : s ∉ F → all_built F ss ls → all_built F (s :: ss) ls
| ab_line F s ss l ls : s ∈ F → built_from F s l → 2 ≤ length l →
    all_built (F ∖ list_to_set l) ss ls → all_built F (s :: ss) (l :: ls)
| ab_alone F s ss ls : s ∈ F → built_from F s [s] →
    all_built (F ∖ {[s]}) ss ls → all_built F (s :: ss) ls.
End coupled.
End data.

(** The lines of a call which builds them: the seeds are the anisotropic cells by
    decreasing priority. *)
Definition built_lines (i : input) (lines : list (list nat)) : Prop :=
  ∃ seeds (F : gset nat), NoDup seeds ∧ prio_sorted (in_prio i) seeds ∧
    (∀ x, x ∈ seeds ↔ anisotropic (in_row i) (in_col i) (in_val i)
       (bool_decide (in_dim i = 2%Z)) (in_compl i) (in_thr i) x) ∧
    (∀ x, x ∈ F ↔ x ∈ seeds) ∧
    all_built (in_row i) (in_col i) (in_val i) (in_cen i)
      (bool_decide (in_coupling i = 1%Z)) (in_thr i) (in_force i) F seeds lines.

(** ** From which end lines are agglomerated *)

(** Numbers of boundary faces as the program uses them (Spec of C16). *)
Definition clipped (i : input) (x : nat) : Z :=
  Z.min (default 0%Z (in_bnd i !! x)) (in_dim i).
Definition prio_of (i : input) (x : nat) : W := default w0 (in_prio i !! x).

(** [x] comes before [y]: more boundary faces, then higher priority, then
    lower index. *)
Definition comes_first (i : input) (x y : nat) : Prop :=
  (clipped i y < clipped i x)%Z ∨
  clipped i x = clipped i y ∧
  (wlt (prio_of i y) (prio_of i x) = true ∨
   weq (prio_of i x) (prio_of i y) = true ∧ x < y).

(** The line as it is agglomerated. *)
Definition oriented (i : input) (line l : list nat) : Prop :=
  ∃ x y, head line = Some x ∧ last line = Some y ∧
    (comes_first i x y ∧ l = line ∨ ¬ comes_first i x y ∧ l = reverse line).
End line.
