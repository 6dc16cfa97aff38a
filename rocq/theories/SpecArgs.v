(** * SpecArgs: what the documentation says about the arguments of a call

    Used in the statements about rejected calls and about arguments which act
    as others. *)

From Verif Require Import Main.

Section args.
Context {A : Arith}.
Implicit Types (i : input) (o : outs).

(** What is wrong with the arguments when a check throws. *)
Definition bad_arg i o (k : chk) : Prop :=
  match k with
  | KDim => in_dim i ≠ 2%Z ∧ in_dim i ≠ 3%Z
  | KCard => (in_min i <= 1 ∨ in_goal i <= 1 ∨ in_max i <= 1)%Z
  | KCardOrder => ¬ (in_min i <= in_goal i <= in_max i)%Z
  | KIterMin => (in_iter i < 1)%Z
  | KIterMax => (4 < in_iter i)%Z
  | KCSREmpty => in_row i = []
  | KCSRCol => last (in_row i) ≠ Some (length (in_col i))
  | KCSRVal => last (in_row i) ≠ Some (length (in_val i))
  | KLines => in_aniso i = true ∧ in_build i = false ∧ 2 ≤ length (o_idx o) ∧ o_lines o ≠ []
      ∧ last (o_idx o) ≠ Some (length (o_lines o))
  | KSing => (in_sing i <= 0)%Z
  | KSeedsPool => in_order i ∉ [0; 1; 10; 11]%Z
  | KAR => ¬ (0 <= in_ar i <= 9)%Z
  end.

(** The order in which the arguments are looked at. *)
Definition chk_order : list chk :=
  [KDim; KCard; KCardOrder; KIterMin; KIterMax; KCSREmpty; KCSRCol; KCSRVal; KLines; KSing;
   KSeedsPool; KAR].

(** [k] is the first of the checks, in that order, which finds something wrong. *)
Definition first_bad i o (k : chk) : Prop :=
  ∃ before after, chk_order = before ++ k :: after ∧ bad_arg i o k ∧
    ∀ k', k' ∈ before → ¬ bad_arg i o k'.

(** The same call with other boundary counts, another threshold, another
    aspect ratio. *)
Definition with_bnd (bnd : list Z) i : input :=
  Input _ (in_row i) (in_col i) (in_val i) (in_vol i) (in_cen i) (in_prio i) (in_compl i)
    bnd (in_build i) (in_aniso i) (in_odd i) (in_thr i) (in_order i) (in_corr i) (in_dim i)
    (in_goal i) (in_min i) (in_max i) (in_ar i) (in_sing i) (in_maxline i) (in_coupling i)
    (in_force i) (in_iter i) (in_nbh i).
Definition with_sing (s : Z) i : input :=
  Input _ (in_row i) (in_col i) (in_val i) (in_vol i) (in_cen i) (in_prio i) (in_compl i)
    (in_bnd i) (in_build i) (in_aniso i) (in_odd i) (in_thr i) (in_order i) (in_corr i) (in_dim i)
    (in_goal i) (in_min i) (in_max i) (in_ar i) s (in_maxline i) (in_coupling i)
    (in_force i) (in_iter i) (in_nbh i).
Definition with_ar (ar : Z) i : input :=
  Input _ (in_row i) (in_col i) (in_val i) (in_vol i) (in_cen i) (in_prio i) (in_compl i)
    (in_bnd i) (in_build i) (in_aniso i) (in_odd i) (in_thr i) (in_order i) (in_corr i) (in_dim i)
    (in_goal i) (in_min i) (in_max i) ar (in_sing i) (in_maxline i) (in_coupling i)
    (in_force i) (in_iter i) (in_nbh i).

End args.
