(** * Spec: vocabulary of the property statements

    Nothing in here uses a function of the model; the only model type used is
    the record [input] of the arguments of the library call. *)

From Verif Require Import Base Main.

(** ** Graphs given by CSR vectors *)

(** [j] is listed among the neighbours of [i]. *)
Definition edge (row col : list nat) (i j : nat) : Prop :=
  ∃ a b k, row !! i = Some a ∧ row !! S i = Some b ∧ a ≤ k < b ∧ col !! k = Some j.

(** [n]-cell CSR vectors: row pointers non-decreasing and ending at the size
    of the column vector; column indices are cells. *)
Record csr (n : nat) (row col : list nat) : Prop := {
  csr_len : length row = S n;
  csr_mono : ∀ i a b, row !! i = Some a → row !! S i = Some b → a ≤ b;
  csr_last : row !! n = Some (length col);
  csr_col : ∀ k j, col !! k = Some j → j < n;
}.

Definition csr_sym (row col : list nat) : Prop :=
  ∀ i j, edge row col i j → edge row col j i.

(** The neighbours of [i] as listed. *)
Definition nb_list (row col : list nat) (i : nat) : list nat :=
  match row !! i, row !! S i with
  | Some a, Some b => take (b - a) (drop a col)
  | _, _ => []
  end.

(** No cell is its own neighbour, no neighbour is listed twice. *)
Definition simple_csr (row col : list nat) : Prop :=
  ∀ i, NoDup (nb_list row col i) ∧ ¬ edge row col i i.

(** The compactness of a set of cells: the smallest number of neighbours that
    one of its cells has inside the set; zero for a single cell. *)
Definition compactness (row col : list nat) (X : gset nat) (c : Z) : Prop :=
  let inner x := Z.of_nat (length (filter (λ y, y ∈ X) (nb_list row col x))) in
  if decide (1 < size X) then
    (∃ x, x ∈ X ∧ inner x = c) ∧ ∀ x, x ∈ X → (c <= inner x)%Z
  else c = 0%Z.

(** [walk E P S k x]: there is a walk of [k] steps along [E] from an element
    of [S] to [x], all of whose points but the first satisfy [P]. *)
Inductive walk (E : nat → nat → Prop) (P S : nat → Prop) : nat → nat → Prop :=
  | walk_0 x : S x → walk E P S 0 x
  | walk_S k x y : walk E P S k x → E x y → P y → walk E P S (Datatypes.S k) y.

(** [x] is at distance exactly [k]. *)
Definition at_dist (E : nat → nat → Prop) (P S : nat → Prop) (k x : nat) : Prop :=
  walk E P S k x ∧ ∀ k', walk E P S k' x → k ≤ k'.

(** [X] is connected: any two of its points are joined inside [X]. *)
Definition connected (E : nat → nat → Prop) (X : nat → Prop) : Prop :=
  ∀ x y, X x → X y → ∃ k, walk E X (λ z, z = x) k y.

(** ** Orders on weights *)

(** [lt] orders the elements of [P] as [<] does on numbers which are not NaN. *)
Record weak_order {T} (lt : T → T → bool) (P : T → Prop) : Prop := {
  wo_irr : ∀ x, P x → lt x x = false;
  wo_tr : ∀ x y z, P x → P y → P z → lt x y = true → lt y z = true → lt x z = true;
  wo_neg : ∀ x y z, P x → P y → P z → lt x z = true → lt x y = true ∨ lt y z = true;
}.

(** [l] lists cells by decreasing priority, then by increasing index. *)
Definition prio_sorted {A : Arith} (prio : list W) (l : list nat) : Prop :=
  ∀ i j a b wa wb, i < j → l !! i = Some a → l !! j = Some b →
    prio !! a = Some wa → prio !! b = Some wb →
    wlt wb wa = true ∨ wlt wa wb = false ∧ a < b.

(** ** Lines of cells *)

(** Consecutive elements of [l] are related. *)
Definition path (E : nat → nat → Prop) (l : list nat) : Prop :=
  ∀ k x y, l !! k = Some x → l !! S k = Some y → E x y.

(** ** Well-formed calls *)

Section input.
Context {A : Arith}.

Definition in_n (i : input) : nat := length (in_row i) - 1.
Definition in_edge (i : input) : nat → nat → Prop := edge (in_row i) (in_col i).

(** The mesh given to the library: the code checks hardly any of this. *)
Record wf_mesh (i : input) : Prop := {
  wf_pos : 0 < in_n i;
  wf_csr : csr (in_n i) (in_row i) (in_col i);
  wf_sym : csr_sym (in_row i) (in_col i);
  wf_val : length (in_val i) = length (in_col i);
  wf_vol : length (in_vol i) = in_n i;
  wf_cen : length (in_cen i) = in_n i;
  wf_dim : ∃ d, ∀ k c, in_cen i !! k = Some c → length c = d;
  wf_prio : length (in_prio i) = in_n i;
  wf_prio_ord : weak_order wlt (λ w, w ∈ in_prio i);
  wf_bnd : length (in_bnd i) = in_n i;
  wf_bnd_pos : ∀ k b, in_bnd i !! k = Some b → (0 <= b)%Z;
  wf_compl : ∀ c, c ∈ in_compl i → c < in_n i;
}.

(** The priority weights exceed the smallest positive weight in the sense
    needed by the one-point pools: none is below it. *)
Definition prio_pos (i : input) : Prop := ∀ w, w ∈ in_prio i → wlt w wminv = false.

(** ** Accepted calls *)

(** The documented restrictions on the scalar arguments: dimension, cardinals,
    depth of the look-ahead, threshold, seeds-pool strategies (CoMMADefs.h:47-62)
    and aspect ratios (CoMMADefs.h:77-108). *)
Record accepted (i : input) : Prop := {
  ac_dim : in_dim i = 2%Z ∨ in_dim i = 3%Z;
  ac_min : (1 < in_min i)%Z;
  ac_goal : (in_min i <= in_goal i)%Z;
  ac_max : (in_goal i <= in_max i)%Z;
  ac_iter : (1 <= in_iter i <= 4)%Z;
  ac_sing : (0 < in_sing i)%Z;
  ac_order : in_order i ∈ [0; 1; 10; 11]%Z;
  ac_ar : (0 <= in_ar i <= 9)%Z;
}.

(** The limit on the number of cells of a line does not meet a line of [L]
    cells at the one length which makes the code leave the line. *)
Definition limit_safe (i : input) (L : nat) : Prop :=
  ∀ m, in_maxline i = Some m → Z.odd m = true → Z.of_nat L ≠ (m - 1)%Z.

(** Anisotropic lines handed in by the caller. *)
Record wf_lines (n : nat) (idx cells : list nat) : Prop := {
  ul_ne : idx ≠ [];
  ul_mono : ∀ k a b, idx !! k = Some a → idx !! S k = Some b → a ≤ b;
  ul_last : last idx = Some (length cells);
  ul_nd : NoDup cells;
  ul_lt : ∀ x, x ∈ cells → x < n;
}.
(** [l] is line number [k]. *)
Definition line_at (idx cells : list nat) (k : nat) (l : list nat) : Prop :=
  ∃ a b, idx !! k = Some a ∧ idx !! S k = Some b ∧ l = take (b - a) (drop a cells).

(** All the lines. *)
Definition split_lines (idx cells : list nat) : list (list nat) :=
  zip_with (λ a b, take (b - a) (drop a cells)) idx (tail idx).

(** Anisotropy is asked for, and there are lines if they are to be given. *)
Definition aniso_on (i : input) (o : outs) : Prop :=
  in_aniso i = true ∧
  (in_build i = false → 2 ≤ length (o_idx o) ∧ o_lines o ≠ []).

(** What is needed to build lines: with the coupling [MAX_WEIGHT] and a
    negative threshold, each compliant cell needs a neighbour. *)
Definition buildable (i : input) : Prop :=
  in_coupling i = 1%Z ∨ (∀ c, c ∈ in_compl i → ∃ j, in_edge i c j) ∨
  (wlt (in_thr i) w0 = false ∧
   (wlt w1 (in_thr i) = true ∨ wlt (wdiv w1 (in_thr i)) w0 = false)).

(** A call made as documented. *)
Record good_call (i : input) (o : outs) : Prop := {
  gc_mesh : wf_mesh i;
  gc_acc : accepted i;
  gc_one : in_order i = 10%Z ∨ in_order i = 11%Z → prio_pos i;
  gc_build : aniso_on i o → in_build i = true →
    buildable i ∧ ∀ L, 2 ≤ L ≤ in_n i → limit_safe i L;
  gc_given : aniso_on i o → in_build i = false →
    wf_lines (in_n i) (o_idx o) (o_lines o) ∧
    ∀ k l, line_at (o_idx o) (o_lines o) k l → 2 ≤ length l → limit_safe i (length l);
}.

(** Consecutive cells of the given lines are neighbours. *)
Definition given_paths (i : input) (o : outs) : Prop :=
  aniso_on i o → in_build i = false →
  ∀ k l, line_at (o_idx o) (o_lines o) k l → path (in_edge i) l.

(** Only single fine cells are corrected. *)
Definition thresh_one (i : input) : Prop := in_sing i = 1%Z ∨ in_min i = 2%Z.

(** [c] is a coarse cell made of cells of a line, given the result [r] of the
    call. *)
Definition aniso_id (i : input) (o r : outs) (c : nat) : Prop :=
  aniso_on i o ∧ c ∈ o_lines r.

(** The same call with the correction switched on or off. *)
Definition with_corr (b : bool) (i : input) : input :=
  Input _ (in_row i) (in_col i) (in_val i) (in_vol i) (in_cen i) (in_prio i) (in_compl i)
    (in_bnd i) (in_build i) (in_aniso i) (in_odd i) (in_thr i) (in_order i) b (in_dim i)
    (in_goal i) (in_min i) (in_max i) (in_ar i) (in_sing i) (in_maxline i) (in_coupling i)
    (in_force i) (in_iter i) (in_nbh i).

End input.

(** ** Partitions *)

(** The cells of coarse cell [c] in [fc_to_cc]. *)
Definition cells_of (f : list nat) (c : nat) : nat → Prop := λ x, f !! x = Some c.

(** [f] numbers the coarse cells from 0 without gaps. *)
Definition contiguous (f : list nat) : Prop :=
  ∃ k, ∀ c, c < k ↔ ∃ x, f !! x = Some c.

(** A line [l] cut in pieces of two cells, but for the last one which has three
    if the number of cells is odd and [odd] is set; [rest] is left over. *)
Record cut_spec (odd : bool) (l : list nat) (parts : list (list nat)) (rest : list nat) : Prop := {
  cs_concat : concat parts ++ rest = l;
  cs_two : ∀ k p, parts !! k = Some p → S k < length parts → length p = 2;
  cs_last : ∀ p, last parts = Some p →
    length p = if odd && Nat.odd (length l) then 3 else 2;
  cs_rest : length rest = if negb odd && Nat.odd (length l) || bool_decide (length l = 1) then 1 else 0;
}.
