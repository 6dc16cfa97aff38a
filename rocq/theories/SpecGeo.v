(** * SpecGeo: moving a mesh and changing units (C55, C56) *)

From Verif Require Import Main SpecFeat.

Section geo.
Context {A : Arith}.

(** The same call with other weights of the faces, volumes and centres. *)
Definition put_geom (i : input) (val vol : list W) (cen : list (list W)) : input :=
  Input _ (in_row i) (in_col i) val vol cen (in_prio i) (in_compl i) (in_bnd i) (in_build i) (in_aniso i)
    (in_odd i) (in_thr i) (in_order i) (in_corr i) (in_dim i) (in_goal i) (in_min i) (in_max i) (in_ar i) (in_sing i)
    (in_maxline i) (in_coupling i) (in_force i) (in_iter i) (in_nbh i).
Definition put_cen (i : input) (cen : list (list W)) : input := put_geom i (in_val i) (in_vol i) cen.

(** ** Moving *)

(** As many centres, with as many coordinates. *)
Record same_shape (cen cen' : list (list W)) : Prop := {
  ss_len : length cen' = length cen;
  ss_dim : ∀ x c c', cen !! x = Some c → cen' !! x = Some c' → length c' = length c;
}.
(** The vector from one centre to another is always the same. *)
Record same_differences (cen cen' : list (list W)) : Prop := {
  sd_shape : same_shape cen cen';
  sd_diff : ∀ x y a b a' b', cen !! x = Some a → cen !! y = Some b → cen' !! x = Some a' → cen' !! y = Some b' →
    zip_with wsub a' b' = zip_with wsub a b;
}.
(** The distance from one centre to another is always the same. *)
Record same_distances (cen cen' : list (list W)) : Prop := {
  st_shape : same_shape cen cen';
  st_dist : ∀ x y a b a' b', cen !! x = Some a → cen !! y = Some b → cen' !! x = Some a' → cen' !! y = Some b' →
    dist2 a' b' = dist2 a b;
}.
(** All the centres moved by the vector [t]. *)
Definition translated (t : list W) (cen : list (list W)) : list (list W) := map (λ c, zip_with wadd c t) cen.

(** ** Units *)

Definition above0 (a : W) : Prop := wlt w0 a = true.

(** Exact arithmetic with an exact division and a compatible order. *)
Record exact_field : Prop := {
  ef_ring : exact_arith;
  ef_div : ∀ a b, wdiv a b = wmul a (wdiv w1 b);
  ef_inv : ∀ a b, wdiv w1 (wmul a b) = wmul (wdiv w1 a) (wdiv w1 b);
  ef_unit : ∀ a, above0 a → wmul a (wdiv w1 a) = w1;
  ef_inv_pos : ∀ a, above0 a → above0 (wdiv w1 a);
  ef_mul : ∀ k a b, above0 k → wlt (wmul k a) (wmul k b) = wlt a b;
}.
(** The call in which weights of the faces, volumes and coordinates are
    multiplied by [u], [v] and [l]. *)
Definition rescaled (i : input) (u v l : W) : input :=
  put_geom i (map (wmul u) (in_val i)) (map (wmul v) (in_vol i)) (map (map (wmul l)) (in_cen i)).
(** The square of the distance between two different centres lies between the
    smallest and the greatest number. *)
Definition in_range (cen : list (list W)) : Prop :=
  ∀ x y a b, x ≠ y → cen !! x = Some a → cen !! y = Some b →
    wlt wminv (dist2 a b) = true ∧ wlt (dist2 a b) wmaxv = true.
(** The weights of the faces are below the greatest number. *)
Definition weights_below (val : list W) : Prop := ∀ w, w ∈ val → wlt w wmaxv = true.
(** The square root respects a change of the unit of length. *)
Definition sqrt_units (l : W) : Prop := ∀ a, wsqrt (wmul (wmul l l) a) = wmul l (wsqrt a).
(** What the data must satisfy for a change of units: it stays in range. *)
Record units_ok (i : input) (u v l : W) : Prop := {
  un_u : above0 u;
  un_v : above0 v;
  un_l : above0 l;
  un_cen : (in_ar i = 0 ∨ in_ar i = 1 ∨ in_ar i = 2)%Z → in_range (in_cen i) ∧ in_range (in_cen (rescaled i u v l));
  un_val : in_aniso i = true → in_build i = true → weights_below (in_val i) ∧ weights_below (in_val (rescaled i u v l));
  un_sqrt : in_aniso i = true → in_build i = true → in_force i = true → sqrt_units l;
}.
End geo.
