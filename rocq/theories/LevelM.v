(** * LevelM: the levels of the example scripts

    The loop of ex_several_agglo_levels.py:179-253 and ex_rae.py:215-300: the library is
    called, and the coarse graph for the next call is built in Python.  What is
    drawn (lines 243-249) is not modelled here. *)

From Verif Require Export Main ToolsM.

Section levels.
Context {A : Arith} {H : HashOrder}.

(** How the script ends: normally, with an exception of Python, or in the library. *)
Inductive outcome (T : Type) := LOk (x : T) | LPy (e : pyerr) | LCpp (e : err).
Arguments LOk {T} x.
Arguments LPy {T} e.
Arguments LCpp {T} e.

(** The arguments of the next call (lines 181-203): all cells are compliant, lines are
    not built any more; the other arguments do not change. *)
Definition py_next (i : input) (g : pgraph) (prio : list W) : input :=
  Input _ (map Z.to_nat (pg_row g)) (map Z.to_nat (pg_col g)) (pg_val g) (pg_vol g) (pg_cen g) prio
    (seq 0 (length (pg_bnd g))) (pg_bnd g) false (in_aniso i) (in_odd i) (in_thr i) (in_order i) (in_corr i) (in_dim i)
    (in_goal i) (in_min i) (in_max i) (in_ar i) (in_sing i) (in_maxline i) (in_coupling i)
    (in_force i) (in_iter i) (in_nbh i).

(** [k] levels at most; [prio n] are the priorities given for [n] cells (in the
    scripts, [py_weights n]); [cur] is [fc_to_cur_lvl]; [maps] are the [fc_to_cc] so far.
    The loop is left when there is one coarse cell only (lines 250-253). *)
Fixpoint py_levels (prio : nat → list W) (k : nat) (i : input) (o : outs) (cur : list Z) (maps : list (list nat))
    : outcome (list Z * list (list nat)) :=
  match k with
  | O => LOk (cur, maps)
  | S k =>
      match agglomerate_one_level i o with
      | (_, Err e) => LCpp e
      | (r, Ok _) =>
          match py_update (Z.of_nat <$> o_fc2cc r) cur, o_fc2cc r with
          | PRaise e, _ => LPy e
          | POk _, [] => LPy ValueError
          | POk cur, f2c =>
              if bool_decide (k = 0 ∨ foldl max 0 f2c = 0) then LOk (cur, maps ++ [f2c]) else
              match py_build_coarse (Z.of_nat <$> f2c) (Z.of_nat <$> in_row i) (Z.of_nat <$> in_col i) (in_val i) (in_vol i) (in_bnd i) (in_cen i) with
              | PRaise e => LPy e
              | POk g => py_levels prio k (py_next i g (prio (length (pg_bnd g)))) r cur (maps ++ [f2c])
              end
          end
      end
  end.

End levels.
Arguments LOk {T} x.
Arguments LPy {T} e.
Arguments LCpp {T} e.
