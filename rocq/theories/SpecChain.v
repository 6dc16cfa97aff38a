(** * SpecChain: several levels of agglomeration (C32)

    What a caller does to chain levels: agglomerate, build the coarse graph
    from the result, use it as the next fine graph with the same options, and
    hand in the exported lines as the lines of the coarse cells. *)

From Verif Require Import Spec Main UtilM.

Section chain.
Context {A : Arith} {H : HashOrder}.

Definition fine_graph (i : input) : fgraph :=
  FGraph (in_row i) (in_col i) (in_val i) (in_vol i) (in_cen i) (in_prio i) (in_bnd i).

(** The call for the coarse graph [g], with compliant cells [compl] (those of
    them which exist); lines are given, not built. *)
Definition next_input (i : input) (g : cgraph) (compl : list nat) : input :=
  Input _ (cg_idx g) (cg_adj g) (cg_wgt g) (cg_vol g) (cg_cen g) (cg_prio g)
    (filter (λ c, c < length (cg_vol g)) compl)
    (cg_bnd g) false (in_aniso i) (in_odd i) (in_thr i) (in_order i) (in_corr i) (in_dim i)
    (in_goal i) (in_min i) (in_max i) (in_ar i) (in_sing i) (in_maxline i) (in_coupling i)
    (in_force i) (in_iter i) (in_nbh i).

(** One level for each element of [cs], the compliant cells of the next level.
    The result is the call that can be made after them. *)
Fixpoint levels (cs : list (list nat)) (i : input) (o : outs) : res (input * outs) :=
  match cs with
  | [] => Ok (i, o)
  | compl :: cs =>
      match agglomerate_one_level i o with
      | (r, Ok _) => g ← build_coarse_graph (fine_graph i) (o_fc2cc r);
                     levels cs (next_input i g compl) r
      | (_, Err e) => Err e
      end
  end.

(** The mesh is in one piece. *)
Definition in_connected (i : input) : Prop := connected (in_edge i) (λ x, x < in_n i).
End chain.
