(** * SpecAlone: the arguments which only concern isotropic coarse cells (C84) *)

From Verif Require Import Main.

Section alone.
Context {A : Arith}.

(** The call with other volumes and other arguments for the seeds, the growth and
    the correction of isotropic coarse cells. *)
Definition put_iso (i : input) (vol : list W) (order : Z) (corr : bool) (goal mn mx ar sing iter nbh : Z) : input :=
  Input _ (in_row i) (in_col i) (in_val i) vol (in_cen i) (in_prio i) (in_compl i) (in_bnd i) (in_build i)
    (in_aniso i) (in_odd i) (in_thr i) order corr (in_dim i) goal mn mx ar sing
    (in_maxline i) (in_coupling i) (in_force i) iter nbh.
End alone.
