(** * Neigh: neighbourhood of a growing coarse cell
    (include/CoMMA/Neighbourhood.h) *)

From Verif Require Export Graph.

(** Neighbourhood.h:42-157 (base class), 171-251 ([Neighbourhood_Extended]),
    266-414 ([Neighbourhood_Pure_Front]).  [nb_allowed] is
    [_s_neighbours_of_seed], [nb_fc] is [_s_fc], [nb_cand] is [_candidates],
    [nb_q] is [_q_neighs_w_weights] (used by the pure-front variant only) and
    [nb_front] tells which derived class it is, with its [_dimension].
    The priority weights, kept by reference in the class, are passed as an
    argument to the update functions. *)
Record nbh `{Arith} := Nbh {
  nb_allowed : gset nat;
  nb_fc : gset nat;
  nb_cand : list nat;
  nb_q : list (list (nat * W));
  nb_front : option Z;
}.

Section neigh.
Context {A : Arith}.
Implicit Types h : nbh.

(** The constructors, Neighbourhood.h:77-84, 195-201, 291-300, as called by the
    creators 505-514 and 573-581. *)
Definition nbh_create (allowed : gset nat) (front : option Z) : nbh :=
  Nbh _ allowed ∅ [] [] front.

(** [std::find] + [erase]: remove the first occurrence. *)
Fixpoint remove_first (x : nat) (l : list nat) : list nat :=
  match l with
  | [] => []
  | y :: l => if bool_decide (x = y) then l else y :: remove_first x l
  end.
Fixpoint premove_first (x : nat) (l : list (nat * W)) : list (nat * W) :=
  match l with
  | [] => []
  | p :: l => if bool_decide (x = p.1) then l else p :: premove_first x l
  end.

(** Neighbourhood.h:235-245 and 341-348: the ordered set of the neighbours of
    the new cell satisfying [keep]. *)
Definition collect (keep : nat → bool) (prio : list W) (l : list nat)
    : res (list (nat * W)) :=
  foldM (λ s n, if keep n then w ← vget prio n; Ok (pset_insert (n, w) s)
                else Ok s) l [].

(** Neighbourhood.h:375-387: look for a non-empty queue from the front and from
    the back.  [cur_back] is unsigned; [fuel] bounds the iterations. *)
Fixpoint scan_queues (fuel : nat) (q : list (list (nat * W)))
    (front back : nat) : res (list (nat * W)) :=
  match fuel with
  | O => Err EFuel
  | S fuel =>
    if bool_decide (front ≤ back) then
      a ← vget q front;
      match a with
      | _ :: _ => Ok a
      | [] =>
          b ← vget q back;
          match b with
          | _ :: _ => Ok b
          | [] =>
              (* [cur_back--] on an unsigned zero would wrap around *)
              match back with
              | O => Err EUB
              | S back' => scan_queues fuel q (S front) back'
              end
          end
      end
    else Ok []
  end.

(** Neighbourhood.h:221-250 ([Extended::update_it]) and 320-389
    ([Pure_Front::update_it]).  [l] is the range of neighbours of [c]. *)
Definition nbh_update (prio : list W) h (c : nat) (l : list nat) : res nbh :=
  let fc := {[c]} ∪ nb_fc h in
  match nb_front h with
  | None =>
      let cand := remove_first c (nb_cand h) in
      s ← collect (λ n, bool_decide (n ∉ cand) && bool_decide (n ∉ fc)
                        && bool_decide (n ∈ nb_allowed h)) prio l;
      Ok (Nbh _ (nb_allowed h) fc (cand ++ map fst s) (nb_q h) None)
  | Some dim =>
      let q := map (premove_first c) (nb_q h) in
      cur ← collect (λ n, bool_decide (n ∉ fc)
                          && bool_decide (n ∈ nb_allowed h)) prio l;
      let q' := cur :: q in
      cand ← (if bool_decide (Z.of_nat (length q') <= dim)%Z
              then Ok (foldl (λ s p, pset_insert_all p s) cur q)
              else scan_queues (length q') q' 0 (length q' - 1));
      Ok (Nbh _ (nb_allowed h) fc (map fst cand) q' (Some dim))
  end.

End neigh.
