(** * SpecReord: the same call with the faces of the cells listed in another
    order (C58) *)

From Verif Require Import Main Spec SpecSub SpecWhole.

Section reord.
Context {A : Arith}.
Implicit Types (i : input) (o : outs) (row col : list nat) (val : list W).

Definition put_csr i row col val : input :=
  @Input A row col val (in_vol i) (in_cen i) (in_prio i) (in_compl i) (in_bnd i) (in_build i) (in_aniso i)
    (in_odd i) (in_thr i) (in_order i) (in_corr i) (in_dim i) (in_goal i) (in_min i) (in_max i) (in_ar i) (in_sing i)
    (in_maxline i) (in_coupling i) (in_force i) (in_iter i) (in_nbh i).

(** The vectors describe the same faces with the same weights; those of a cell
    may be listed in another order. *)
Record relisted i row col val : Prop := {
  rl_csr : csr (in_n i) row col;
  rl_val : length val = length col;
  rl_faces : ∀ x, entries row col val x ≡ₚ entries (in_row i) (in_col i) (in_val i) x;
}.

(** The faces of the cells of the lines are listed in the same order. *)
Definition same_along_lines i o row col : Prop :=
  aniso_on i o → ∀ lines x, lines_right i o lines → x ∈ concat lines →
    nb_list row col x = nb_list (in_row i) (in_col i) x.
End reord.
