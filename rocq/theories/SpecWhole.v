(** * SpecWhole: the whole result of a call, without any function of the model
    (C57)

    The specifications of the parts of a call (C28, C29, C38-C45, C41) put
    together.  From the model, only the types [graph], [ar_kind], [iso_params],
    [pool], [input] and [outs] are used: candidates, aspect ratios, look-ahead
    and growth are described by what they should be, not by calls of the
    functions of the model. *)

From Verif Require Import Features Iso Main Spec SpecSub SpecFeat SpecAR SpecBest SpecFront SpecPool SpecGrow SpecFeed
  SpecLine SpecMove.

(** ** The next cell of a growing coarse cell *)
Section pick.
Context {A : Arith} (g : graph) (prio : list W) (k : ar_kind).
(** The number of coordinates, the cells which may be added, the dimension if
    the neighbourhood is the pure front, and the distances from the seed. *)
Context (dim : nat) (allowed : gset nat) (front : option Z) (dist : nat → Z).
Notation row := (g_row g).
Notation col := (g_col g).

(** The candidates after the cells [cs] for the extended neighbourhood: when a
    cell is added, its neighbours which are not yet candidates are appended,
    the most urgent ones first (Neighbourhood.h:171-251). *)
Inductive appended : list nat → list nat → Prop :=
| ap_none : appended [] []
| ap_more cs L c new : appended cs L →
    listing prio (λ y, edge row col c y ∧ y ∈ allowed ∧ y ∉ cs ++ [c] ∧ y ∉ L) new →
    appended (cs ++ [c]) (filter (λ y, y ≠ c) L ++ new).

Definition candidates (cs L : list nat) : Prop :=
  match front with
  | None => appended cs L
  | Some d => front_candidates row col allowed d cs L ∧ StronglySorted (more_urgent prio) L
  end.

(** The aspect ratio of the coarse cell made of [cs] and [x]. *)
Definition ratio (cs : list nat) (x : nat) (a : W) : Prop :=
  let Y : gset nat := list_to_set (x :: cs) in
  if two_cells_edge k Y then is_diam (g_cen g) Y a
  else is_ar g dim (wofZ (Z.of_nat (size Y))) k Y a.

(** The faces shared by [x] and the cells [cs]. *)
Definition shared_faces (cs : list nat) (x : nat) : Z :=
  Z.of_nat (nb_in row col (list_to_set cs) (λ y, y ≠ x) x).

Definition key_of (look : nat → Z * W) (x : nat) : Z * Z * W := ((look x).1, dist x, (look x).2).

(** By what candidate [x] is judged after the cells [cs], looking [n] cells
    further: if [x] were added, what would be the best candidate? *)
Fixpoint judged (n : nat) (cs : list nat) (x : nat) (v : Z * W) : Prop :=
  ∃ a, ratio cs x a ∧
  match n with
  | O => v = (shared_faces cs x, a)
  | S n' => ∃ L m, candidates (cs ++ [x]) L ∧ v = ahead (shared_faces cs x) a m ∧
      (L = [] ∧ m = 0%Z ∨
       ∃ look c, (∀ y, y ∈ L → judged n' (cs ++ [x]) y (look y)) ∧
         first_best (key_of look) L c ∧ m = shared_faces (cs ++ [x]) c)
  end.

(** After the cells [cs], [c] is the first best candidate. *)
Definition picked (n : nat) (cs : list nat) (c : nat) : Prop :=
  ∃ L look, candidates cs L ∧ (∀ y, y ∈ L → judged n cs y (look y)) ∧ first_best (key_of look) L c.
End pick.

(** ** Growth of a coarse cell and sequence of coarse cells *)
Section grow.
Context {A : Arith} (ip : iso_params) (g : graph) (prio : list W) (dim : nat).
Notation row := (g_row g).
Notation col := (g_col g).

(** [X] is grown from [seed] when the cells satisfying [free] are available: as
    in C40, but for the choice of the cells. *)
Record grown_cell (free : nat → Prop) (seed : nat) (X : gset nat) : Prop := {
  gr_seed : free seed;
  gr_cells : ∃ K dn, hood ip g free seed K dn ∧
    let avail := Z.of_nat (1 + size dn) in
    if bool_decide (avail < ip_goal ip)%Z then X = {[seed]} ∪ dom dn
    else ∃ (l : list nat) (C : nat → Z) (k : nat),
      NoDup (seed :: l) ∧ Z.of_nat (1 + length l) = Z.min (ip_max ip) avail ∧
      (∀ j c, l !! j = Some c →
        picked g prio (ip_ar ip) dim (dom dn) (if ip_front ip then Some (ip_dim ip) else None)
          (λ x, default 0%Z (dn !! x))
          (if ip_it ip then Z.to_nat (Z.min (Z.of_nat (length l - j)) (ip_iter ip) - 1) else 0)
          (seed :: take j l) c) ∧
      let first j : gset nat := list_to_set (take j (seed :: l)) in
      (∀ j, admissible (ip_min ip) (Z.of_nat (1 + length l)) j → compactness row col (first j) (C j)) ∧
      size_kept C (λ j, ext_of g (first j)) (ip_min ip) (Z.of_nat (1 + length l)) (ip_goal ip) k ∧
      X = first k;
}.

(** The coarse cells built one after the other, as in C45. *)
Inductive sequence : list bool → pool → list (gset nat) → Prop :=
| seq_end aggl p : (∀ x, ¬ is_free aggl x) → sequence aggl p []
| seq_step aggl p seed p1 X K dn p2 aggl' Xs :
    takes prio (g_bnd g) aggl p seed p1 →
    grown_cell (is_free aggl) seed X →
    hood ip g (is_free aggl) seed K dn →
    fed prio (g_bnd g) (λ x, dn !! x)
      (λ y, is_free aggl y ∧ y ∉ X ∧ ∃ x, x ∈ X ∧ edge row col x y) p1 p2 →
    length aggl' = length aggl → (∀ x, is_free aggl' x ↔ is_free aggl x ∧ x ∉ X) →
    sequence aggl' p2 Xs →
    sequence aggl p (X :: Xs).
End grow.

(** ** The whole call *)
Section whole.
Context {A : Arith}.
Implicit Types (i : input) (o r : outs).

(** The mesh as it is used: a cell has at most as many boundary faces as there
    are dimensions. *)
Definition mesh_of i : graph :=
  Graph _ (in_n i) (in_row i) (in_col i) (in_val i) (in_vol i) (in_cen i)
    ((λ b, Z.min b (in_dim i)) <$> in_bnd i) (list_to_set (in_compl i))
    (bool_decide (in_dim i = 2%Z)).

(** How many of the [n] cells of a line are agglomerated: all of them without
    limit; one more than an even limit if there is just one more cell. *)
Definition used i (n : nat) : nat :=
  match in_maxline i with
  | None => n
  | Some m =>
      if in_build i && bool_decide (m <= 0)%Z then n
      else if bool_decide (Z.even m = true ∧ Z.of_nat n = m + 1)%Z then n
      else Z.to_nat (Z.max 0 (Z.min m (Z.of_nat n)))
  end.

(** The lines: built as in C44, or those given by the caller which have at
    least two cells. *)
Definition lines_right i o (lines : list (list nat)) : Prop :=
  if in_build i then built_lines i lines
  else lines = filter (λ l, 2 ≤ length l) (split_lines (o_idx o) (o_lines o)).

(** The numbers from which the coarse cells of the lines start, line by line,
    and the number of all of them. *)
Fixpoint starts (n : nat) (pieces : list (list (list nat))) : list nat :=
  match pieces with
  | [] => [n]
  | p :: pieces => n :: starts (n + length p) pieces
  end.

(** The parameters of the isotropic agglomeration. *)
Record params_right i (ip : iso_params) : Prop := {
  pr_dim : ip_dim ip = in_dim i;
  pr_min : ip_min ip = in_min i;
  pr_goal : ip_goal ip = in_goal i;
  pr_max : ip_max ip = in_max i;
  pr_ar : ar_kinds (bool_decide (in_dim i = 2%Z)) !! Z.to_nat (in_ar i) = Some (ip_ar ip);
  pr_front : ip_front ip = negb (bool_decide (in_nbh i = 0%Z));
  pr_iter : ip_iter ip = in_iter i;
  pr_it : ip_it ip = bool_decide (1 < in_iter i)%Z;
}.

(** [r] is the result without correction of small cells.  The lines are cut in
    [pieces], line by line; the pieces come first, then the isotropic coarse
    cells [Xs] in the order in which they are built. *)
Definition whole i o r : Prop :=
  ∃ (lines walked : list (list nat)) (pieces : list (list (list nat))) ip dim aggl p (Xs : list (gset nat)),
    (aniso_on i o → lines_right i o lines) ∧ (¬ aniso_on i o → lines = []) ∧
    Forall2 (oriented i) lines walked ∧
    Forall2 (λ l parts, ∃ rest, cut_spec (in_odd i) (take (used i (length l)) l) parts rest) walked pieces ∧
    params_right i ip ∧ (∀ x c, in_cen i !! x = Some c → length c = dim) ∧
    length aggl = in_n i ∧ (∀ x, is_free aggl x ↔ x < in_n i ∧ x ∉ concat (concat pieces)) ∧
    started (in_prio i) (g_bnd (mesh_of i)) (bool_decide (in_order i = 0 ∨ in_order i = 10)%Z)
      (bool_decide (in_order i = 10 ∨ in_order i = 11)%Z) aggl (line_neighbours i aggl walked) p ∧
    sequence ip (mesh_of i) (in_prio i) dim aggl p Xs ∧
    length (o_fc2cc r) = in_n i ∧
    (∀ x c, o_fc2cc r !! x = Some c ↔
      ∃ X, ((list_to_set <$> concat pieces) ++ Xs) !! c = Some X ∧ x ∈ X) ∧
    (aniso_on i o → o_lines r = seq 0 (length (concat pieces)) ∧
      o_idx r = if decide (lines = []) then [] else starts 0 pieces) ∧
    (¬ aniso_on i o → o_lines r = o_lines o ∧ o_idx r = o_idx o).

(** [r] is the result, with or without correction (C41). *)
Definition result_right i o r : Prop :=
  if in_corr i then ∃ r0, whole (uncorrected i) o r0 ∧ corrected_from i o r0 r
  else whole i o r.

(** With the ratio of the barycentre distances, the conventional extreme values
    are extreme. *)
Definition extremes_fine i : Prop :=
  in_ar i = 8%Z → ∀ Y : gset nat, (∀ x, x ∈ Y → x < in_n i) →
    extremes_ok (mesh_of i) (wofZ (Z.of_nat (size Y))) Y.
End whole.
