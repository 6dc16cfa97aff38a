(** * SpecUse: which data of a call matter (C52, C53) *)

From Verif Require Import Main.

Section use.
Context {A : Arith}.

(** ** Priorities *)

(** [prio'] has as many weights as [prio] and orders the cells in the same way. *)
Record same_order (prio prio' : list W) : Prop := {
  so_len : length prio' = length prio;
  so_cmp : ∀ x y a b a' b', prio !! x = Some a → prio !! y = Some b → prio' !! x = Some a' → prio' !! y = Some b' →
    wlt a' b' = wlt a b ∧ weq a' b' = weq a b;
}.
(** The weights compare in the same way with the smallest positive weight. *)
Definition same_floor (prio prio' : list W) : Prop :=
  ∀ x a a', prio !! x = Some a → prio' !! x = Some a' → wlt a' wminv = wlt a wminv ∧ wlt wminv a' = wlt wminv a.

Definition put_prio (i : input) (prio : list W) : input :=
  Input _ (in_row i) (in_col i) (in_val i) (in_vol i) (in_cen i) prio (in_compl i) (in_bnd i) (in_build i) (in_aniso i)
    (in_odd i) (in_thr i) (in_order i) (in_corr i) (in_dim i) (in_goal i) (in_min i) (in_max i) (in_ar i) (in_sing i)
    (in_maxline i) (in_coupling i) (in_force i) (in_iter i) (in_nbh i).

(** ** The other arguments *)

Definition put_bnd (i : input) (bnd : list Z) : input :=
  Input _ (in_row i) (in_col i) (in_val i) (in_vol i) (in_cen i) (in_prio i) (in_compl i) bnd (in_build i) (in_aniso i)
    (in_odd i) (in_thr i) (in_order i) (in_corr i) (in_dim i) (in_goal i) (in_min i) (in_max i) (in_ar i) (in_sing i)
    (in_maxline i) (in_coupling i) (in_force i) (in_iter i) (in_nbh i).
(** The anisotropic arguments: compliant cells, whether lines are to be built,
    whether lines may be odd, threshold, limit on the length, cell coupling,
    whether the direction is imposed. *)
Definition put_aniso (i : input) (compl : list nat) (build odd : bool) (thr : W) (maxline : option Z) (coupling : Z)
    (force : bool) : input :=
  Input _ (in_row i) (in_col i) (in_val i) (in_vol i) (in_cen i) (in_prio i) compl (in_bnd i) build (in_aniso i)
    odd thr (in_order i) (in_corr i) (in_dim i) (in_goal i) (in_min i) (in_max i) (in_ar i) (in_sing i)
    maxline coupling force (in_iter i) (in_nbh i).
Definition put_sing (i : input) (sing : Z) : input :=
  Input _ (in_row i) (in_col i) (in_val i) (in_vol i) (in_cen i) (in_prio i) (in_compl i) (in_bnd i) (in_build i)
    (in_aniso i) (in_odd i) (in_thr i) (in_order i) (in_corr i) (in_dim i) (in_goal i) (in_min i) (in_max i) (in_ar i)
    sing (in_maxline i) (in_coupling i) (in_force i) (in_iter i) (in_nbh i).
Definition put_nbh (i : input) (nbh : Z) : input :=
  Input _ (in_row i) (in_col i) (in_val i) (in_vol i) (in_cen i) (in_prio i) (in_compl i) (in_bnd i) (in_build i)
    (in_aniso i) (in_odd i) (in_thr i) (in_order i) (in_corr i) (in_dim i) (in_goal i) (in_min i) (in_max i) (in_ar i)
    (in_sing i) (in_maxline i) (in_coupling i) (in_force i) (in_iter i) nbh.
(** The initial contents of [fc_to_cc]. *)
Definition put_fc2cc (o : outs) (f : list nat) : outs := Outs f (o_idx o) (o_lines o).
End use.
