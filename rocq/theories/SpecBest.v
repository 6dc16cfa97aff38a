(** * SpecBest: which candidate is the best one (C38)

    A candidate is judged by the number of faces it shares with the coarse cell
    (the more the better), by its order of neighbourhood with respect to the
    seed (the lower the better) and by the aspect ratio of the coarse cell it
    would give (the lower the better): documentation of
    [compute_best_fc_to_add], Agglomerator.h:1643-1648. *)

From Verif Require Import Base Graph Spec.

(** The vectors describing a mesh fit together; centres have [dim]
    coordinates. *)
Record mesh_shape {A : Arith} (g : graph) (dim : nat) : Prop := {
  ms_csr : csr (g_n g) (g_row g) (g_col g);
  ms_sym : csr_sym (g_row g) (g_col g);
  ms_val : length (g_val g) = length (g_col g);
  ms_vol : length (g_vol g) = g_n g;
  ms_cen : length (g_cen g) = g_n g;
  ms_dim : ∀ x c, g_cen g !! x = Some c → length c = dim;
  ms_bnd : length (g_bnd g) = g_n g;
}.

Section best.
Context {A : Arith}.

(** Faces, order, aspect ratio. *)
Definition beats (p q : Z * Z * W) : Prop :=
  (q.1.1 < p.1.1)%Z ∨
  p.1.1 = q.1.1 ∧ ((p.1.2 < q.1.2)%Z ∨ p.1.2 = q.1.2 ∧ wlt p.2 q.2 = true).

(** [i] is the first of the best candidates of [l]: it beats those before it
    and is not beaten by those after it. *)
Definition first_best (key : nat → Z * Z * W) (l : list nat) (i : nat) : Prop :=
  ∃ pre post, l = pre ++ i :: post ∧
    (∀ j, j ∈ pre → beats (key i) (key j)) ∧ (∀ j, j ∈ post → ¬ beats (key j) (key i)).

(** One step of the look-ahead: by what candidate [x], with [nf] faces and
    aspect ratio [a], is judged when the best cell to add after it has [m]
    faces. *)
Definition ahead (nf : Z) (a : W) (m : Z) : Z * W :=
  if bool_decide (nf < m)%Z then (m, a)
  else if bool_decide (m = nf) && wlt w0 a then (nf, w0) else (nf, a).
End best.
