(** * Strict: the iterators of the correction, by the letter of the standard

    While the coarse cells are renumbered, each node is taken out of the map and
    put back with its new key (Coarse_Cell_Container.h:242-253).  Extraction
    invalidates the iterators to the element ([associative.reqmts]: "the extract
    members invalidate only iterators to the removed element"), and the loop goes
    on with [++it_cc].  The rest of the model assumes that the iterator still
    designates the node, as it does with the implementations in use.  Here the
    functions concerned are written once more with the increment of an
    invalidated iterator as undefined behaviour. *)

From Verif Require Export Main.

Section strict.
Context {A : Arith} {H : HashOrder}.
Implicit Types (g : graph) (ct : container).

(** Coarse_Cell_Container.h:242-253.  The body is run once; the increment which
    follows is undefined. *)
Definition renumber_s (keys : list nat) (new_id : nat) (ccs : gmap nat ccell)
    (f : list (option nat)) : res (gmap nat ccell * list (option nat)) :=
  match keys with
  | [] => Ok (ccs, f)
  | k :: _ =>
      cc ← mapat ccs k;
      _ ← set_ids f new_id (hset s_corr_fcs (cc_fcs cc));
      Err EUB
  end.

(** Coarse_Cell_Container.h:230-254. *)
Definition correct_renumber_s ct (rem : gset nat) : res container :=
  match sset rem with
  | [] => Ok ct
  | first :: _ =>
      start ← (if bool_decide (0 < first) then
                 match ct_ccs ct !! (first - 1) with
                 | Some _ => Ok first
                 | None => Err EUB
                 end
               else Ok 0);
      let keys := filter (λ k, start ≤ k) (skeys (ct_ccs ct)) in
      r ← renumber_s keys first (ct_ccs ct) (ct_fc2cc ct);
      Ok (set_ccs_ids ct r.1 r.2)
  end.

(** Coarse_Cell_Container.h:164-255. *)
Definition correct_s g ct : res container :=
  r ← foldM (λ '(rem, ct) old, correct_step g ct rem old) (ct_sing ct) (∅, ct);
  correct_renumber_s r.2 r.1.

(** Agglomerator.h:1092-1137. *)
Definition iso_agglomerate_s ip g (prio : list W) (correction : bool)
    ct (p : pool) : res container :=
  r ← iso_loop (S (g_n g)) ip g prio ct p;
  ct ← create_all_delayed r.1;
  if correction then correct_s g ct else Ok ct.

(** CoMMA.h:402-433. *)
Definition phase2_s (i : input) ct (p : pool) : res container :=
  ip ← iso_params_of i;
  iso_agglomerate_s ip (graph_of i) (in_prio i) (in_corr i) ct p.

(** CoMMA.h:137-444. *)
Definition agglomerate_strict (i : input) (o : outs) : outs * res unit :=
  match phase1 i o with
  | Err e => (o, Err e)
  | Ok (ct, p, lines) =>
      let o := match lines with
               | None => o
               | Some l => let '(idx, cells) := export_lines l in
                           Outs (o_fc2cc o) idx cells
               end in
      match phase2_s i ct p with
      | Err e => (o, Err e)
      | Ok ct =>
          let '(l, r) := fill (ct_fc2cc ct) in
          (Outs l (o_idx o) (o_lines o), r)
      end
  end.

End strict.
