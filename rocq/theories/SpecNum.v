(** * SpecNum: the numbers compared while lines are built (C43, C44, C62)

    Nothing in here uses a function of the model. *)

From Coq Require Import SpecFloat.
From Verif Require Import Main Spec SpecLine Double.

Section num.
Context {A : Arith}.

(** [wlt] is a strict total order on the numbers of [N], among which are all
    those compared while lines are built: zero and the greatest number, the
    weights of the faces, the couplings by distance and the cosines, if these
    are used. *)
Record line_order (N : W → Prop) (i : input) : Prop := {
  lo_weak : weak_order (@wlt A) N;
  lo_total : ∀ a b : W, N a → N b → wlt a b = false → wlt b a = false → a = b;
  lo_0 : N w0;
  lo_max : N wmaxv;
  lo_val : ∀ w, w ∈ in_val i → N w;
  lo_dist : in_coupling i = 1%Z → ∀ x y, in_edge i x y →
    N (wdiv w1 (sqd (centre (in_cen i) x) (centre (in_cen i) y)));
  lo_cos : in_force i = true → ∀ c, wlt w0 c = true → N c;
}.
End num.

(** Double precision: zero or a number which is neither infinite nor NaN. *)
Definition finite (x : spec_float) : Prop :=
  match x with
  | S754_zero _ | S754_finite _ _ _ => True
  | S754_infinity _ | S754_nan => False
  end.

(** No weight of a face is a NaN or the negative zero; if the coupling is by
    distance, the coordinates of the centres are finite. *)
Record double_faces (sum : list spec_float → spec_float) (i : @input (double sum)) : Prop := {
  df_val : ∀ w : spec_float, w ∈ (in_val i : list spec_float) → w ≠ S754_nan ∧ w ≠ S754_zero true;
  df_cen : in_coupling i = 1%Z → ∀ (x : nat) (c : list spec_float) a, in_cen i !! x = Some c → a ∈ c → finite a;
}.
