(** * SpecFeed: the queues of seeds from the first coarse cell to the last
    (C45)

    How the queues are filled at the start, what is left of them when a seed is
    taken and what is appended when a coarse cell has been built: comments of
    Seeds_Pool.h and of Agglomerator.h:433-460 and 1443-1467.  A pool is the
    list of its queues, one per number of boundary faces, the level of the
    queue in use, and its kind. *)

From Verif Require Import Spec SpecPool SpecSub SpecFeat SpecBest SpecGrow Main.

Section feed.
Context {A : Arith}.
Context (prio : list W) (bnd : list Z).
Implicit Types (aggl : list bool) (p : pool) (free : nat → Prop).

(** ** Which of two cells comes first *)

(** [x] has the higher priority, or the lower index if priorities do not
    differ. *)
Definition more_urgent (x y : nat) : Prop :=
  ∃ wx wy, prio !! x = Some wx ∧ prio !! y = Some wy ∧
    (wlt wy wx = true ∨ wlt wy wx = false ∧ wlt wx wy = false ∧ x < y).

(** [a] is less than [b]; no number is less than any of them. *)
Definition nearer (a b : option Z) : Prop :=
  match a, b with
  | Some a, Some b => (a < b)%Z
  | Some _, None => True
  | None, _ => False
  end.

(** Cells are queued by increasing distance from the seed (those which are out
    of reach at the end), then by decreasing number of boundary faces, then by
    decreasing priority, then by increasing index. *)
Definition queued_before (d : nat → option Z) (x y : nat) : Prop :=
  nearer (d x) (d y) ∨
  d x = d y ∧ ∃ bx b_y, bnd !! x = Some bx ∧ bnd !! y = Some b_y ∧
    ((b_y < bx)%Z ∨ bx = b_y ∧ more_urgent x y).

(** ** Adding the neighbours of a coarse cell *)

(** The queue of a cell with [b] boundary faces: that of its number of boundary
    faces; with the other kind of pool never above the queue in use. *)
Definition level_of p (b : Z) : Z :=
  if sp_bp p then b else match sp_top p with Some t => Z.min b t | None => b end.

(** The cells satisfying [N] are appended to the queues of [p]; [d] is the
    distance from the seed. *)
Record fed (d : nat → option Z) (N : nat → Prop) p p' : Prop := {
  fd_kind : sp_bp p' = sp_bp p ∧ sp_one p' = sp_one p ∧ length (sp_q p') = length (sp_q p);
  fd_q : ∀ l q, sp_q p !! l = Some q → ∃ add, sp_q p' !! l = Some (q ++ add) ∧
    (∀ x, x ∈ add ↔ N x ∧ ∃ b, bnd !! x = Some b ∧ level_of p b = Z.of_nat l) ∧
    StronglySorted (queued_before d) add;
  fd_top : if sp_bp p then ∃ t t', sp_top p = Some t ∧ sp_top p' = Some t' ∧ (t <= t')%Z ∧
      (∀ x b, N x → bnd !! x = Some b → (b <= t')%Z) ∧
      (t' = t ∨ ∃ x, N x ∧ bnd !! x = Some t')
    else sp_top p' = sp_top p;
}.

(** ** Taking a seed *)

(** The queues inspected first when the one in use is [t]. *)
Definition inspected p (t : Z) (l : nat) : Prop :=
  if sp_bp p then l = Z.to_nat t else l ≤ Z.to_nat t.
(** No cell of the queue is free. *)
Definition spent aggl p (l : nat) : Prop := ∀ c, queued p l c → ¬ is_free aggl c.
(** The queues satisfying [P] are emptied, the others are left as they are. *)
Definition emptied (P : nat → Prop) p p' : Prop :=
  sp_bp p' = sp_bp p ∧ sp_one p' = sp_one p ∧ length (sp_q p') = length (sp_q p) ∧
  ∀ l q, sp_q p !! l = Some q → (P l → sp_q p' !! l = Some []) ∧ (¬ P l → sp_q p' !! l = Some q).
(** The queue [l] becomes [q] and is the one in use. *)
Definition left_with p (l : nat) (q : list nat) p' : Prop :=
  p' = Pool (<[l := q]> (sp_q p)) (Some (Z.of_nat l)) (sp_one p) (sp_bp p).
(** [s] is the first free cell of queue [l]; what comes after it is left. *)
Definition taken aggl p (l s : nat) p' : Prop :=
  is_free aggl s ∧ ∃ pre post, sp_q p !! l = Some (pre ++ s :: post) ∧
    (∀ c, c ∈ pre → ¬ is_free aggl c) ∧ left_with p l post p'.

(** The cells satisfying [P], the most urgent ones first. *)
Definition listing (P : nat → Prop) (l : list nat) : Prop :=
  (∀ x, x ∈ l ↔ P x) ∧ StronglySorted more_urgent l.

(** Seed [s] is taken from [p], leaving [p'].  Levels above the one of the seed
    which have been inspected are empty.  If the inspected queues have no free
    cell, the next level is that of a free cell; if there is no free cell in
    its queue either, the free cells with that number of boundary faces are
    queued. *)
Definition takes aggl p (s : nat) p' : Prop :=
  ∃ t, sp_top p = Some t ∧
  ((∃ l p0, inspected p t l ∧ (∀ l', inspected p t l' → l < l' → spent aggl p l') ∧
     emptied (λ l', inspected p t l' ∧ l < l') p p0 ∧ taken aggl p0 l s p') ∨
   (∀ l, inspected p t l → spent aggl p l) ∧
   ∃ b p0, (first_above bnd aggl t b ∨ highest_free bnd aggl b ∧ (b < t)%Z) ∧
     emptied (inspected p t) p p0 ∧
     (taken aggl p0 (Z.to_nat b) s p' ∨
      spent aggl p0 (Z.to_nat b) ∧ ∃ rest,
        listing (λ x, is_free aggl x ∧ bnd !! x = Some b) (s :: rest) ∧
        left_with p0 (Z.to_nat b) rest p')).

(** ** The start *)

(** Queue [t] of [p] is given the cells with at least [t] boundary faces, or
    just the most urgent one. *)
Definition initialised p (t : Z) p' : Prop :=
  ∃ l q, sp_q p !! Z.to_nat t = Some q ∧
    listing (λ x, ∃ b, bnd !! x = Some b ∧ (t <= b)%Z) l ∧
    left_with p (Z.to_nat t) (q ++ if sp_one p then take 1 l else l) p'.

(** [b] is the highest number of boundary faces. *)
Definition highest_bnd (b : Z) : Prop := b ∈ bnd ∧ ∀ b', b' ∈ bnd → (b' <= b)%Z.

(** The pool when isotropic agglomeration starts; [nb] are the free neighbours
    of the cells agglomerated so far, in the order of those cells. *)
Definition started (bp one : bool) aggl (nb : list nat) p : Prop :=
  let empty t := Pool (replicate 4 []) t one bp in
  match nb with
  | [] => ∃ t, highest_bnd t ∧ initialised (empty None) t p
  | x :: _ => ∃ b t, bnd !! x = Some b ∧
      (if bp then (∃ y, y ∈ nb ∧ bnd !! y = Some t) ∧ (∀ y b', y ∈ nb → bnd !! y = Some b' → (b' <= t)%Z)
       else t = b) ∧
      let p1 := Pool ((λ l, filter (λ y, level_of (empty (Some b)) <$> bnd !! y = Some (Z.of_nat l)) nb)
          <$> seq 0 4) (Some t) one bp in
      if bp then
        (∃ m, highest_free bnd aggl m ∧ (t < m)%Z ∧ initialised p1 m p) ∨
        (∀ y b', is_free aggl y → bnd !! y = Some b' → (b' <= t)%Z) ∧ p = p1
      else p = p1
  end.
End feed.

(** ** All the coarse cells *)

Section made.
Context {A : Arith} {H : HashOrder}.
Context (ip : iso_params) (g : graph) (prio : list W) (cpt : gset nat → Z → Prop).
Notation bnd := (g_bnd g).

(** The coarse cells built one after the other from a state of the pool and of
    the cells: a seed is taken, a coarse cell is grown from it (C40), its free
    neighbours are queued, until no cell is free. *)
Inductive made : list bool → pool → list (gset nat) → Prop :=
| made_end aggl p : (∀ x, ¬ is_free aggl x) → made aggl p []
| made_step aggl p seed p1 X K dn p2 aggl' Xs :
    takes prio bnd aggl p seed p1 →
    grown_from ip g prio cpt (ext_of g) (is_free aggl) seed X →
    hood ip g (is_free aggl) seed K dn →
    fed prio bnd (λ x, dn !! x)
      (λ y, is_free aggl y ∧ y ∉ X ∧ ∃ x, x ∈ X ∧ edge (g_row g) (g_col g) x y) p1 p2 →
    length aggl' = length aggl → (∀ x, is_free aggl' x ↔ is_free aggl x ∧ x ∉ X) →
    made aggl' p2 Xs →
    made aggl p (X :: Xs).
End made.

(** ** Start of a call *)

(** The neighbours of the cells of the lines which are agglomerated, in the
    order in which these cells are met ([lines] are the lines in the direction
    in which they are walked along); those which are free are kept. *)
Definition line_neighbours {A : Arith} (i : input) (aggl : list bool) (lines : list (list nat)) : list nat :=
  filter (λ y, aggl !! y = Some false)
    (concat (nb_list (in_row i) (in_col i) <$> filter (λ x, aggl !! x ≠ Some false) (concat lines))).
