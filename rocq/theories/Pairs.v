(** * Pairs: geometry helpers, pair orderings and ordered sets of pairs
    (include/CoMMA/Util.h) *)

From Verif Require Export Base.

Section pairs.
Context {A : Arith}.

(** Util.h:105-116 [dot_product].  [b[i]] is read for every [i < a.size()]:
    if [b] is shorter this is an out-of-bounds read. *)
Fixpoint dot_acc (acc : W) (a b : list W) : res W :=
  match a, b with
  | [], _ => Ok acc
  | _ :: _, [] => Err EUB
  | x :: a, y :: b => dot_acc (wadd acc (wmul x y)) a b
  end.
Definition dot_product (a b : list W) : res W := dot_acc w0 a b.

(** Util.h:154-170 [squared_euclidean_distance]. *)
Fixpoint sqd_acc (acc : W) (a b : list W) : res W :=
  match a, b with
  | [], _ => Ok acc
  | _ :: _, [] => Err EUB
  | x :: a, y :: b => let d := wsub x y in sqd_acc (wadd acc (wmul d d)) a b
  end.
Definition sqdist (a b : list W) : res W := sqd_acc w0 a b.

(** Util.h:127-142 [get_direction]: fills [dir] (which the callers size as the
    number of coordinates of a centre) with the unit vector from [a] to [b].
    Modelled as returning the vector; [b[i]] and [dir[i]] out of bounds is UB.
    The returned norm is not used by any caller and is dropped. *)
Fixpoint dir_diff (a b : list W) : res (list W) :=
  match a, b with
  | [], _ => Ok []
  | _ :: _, [] => Err EUB
  | x :: a, y :: b => r ← dir_diff a b; Ok (wsub y x :: r)
  end.
Definition get_direction (a b dir : list W) : res (list W) :=
  d ← dir_diff a b;
  if decide (length d ≤ length dir) then
    let norm := wsqrt (foldl (λ acc di, wadd acc (wmul di di)) w0 d) in
    let ov_norm := wdiv w1 norm in
    Ok (map (λ di, wmul di ov_norm) (d ++ drop (length d) dir))
  else Err EUB.

(** Util.h:93-96 [dot_deviate]: [fabs(dot) < deviate_thresh]. *)
Definition dot_deviate (dot : W) : bool := wlt (wabs dot) wdev.

(** Util.h:200-218 [CustomPairGreaterFunctor]. *)
Definition pair_gt (l r : nat * W) : bool :=
  if wlt r.2 l.2 then true
  else if wlt l.2 r.2 then false
  else bool_decide (l.1 < r.1).

(** Util.h:177-193 [CustomPairLessFunctor]. *)
Definition pair_lt (l r : nat * W) : bool :=
  if wlt l.2 r.2 then true
  else if wlt r.2 l.2 then false
  else bool_decide (r.1 < l.1).

(** [std::set<std::pair<index,weight>, CustomPairGreaterFunctor>] is modelled
    by the list of its elements in iteration order; [emplace]/[insert] of an
    element equivalent to one already present leaves the set unchanged.
    Simplification: the red-black tree search is replaced by a linear search,
    which finds the same position whenever the comparison is a strict weak
    order on the elements inserted (anything else is UB in C++). *)
Fixpoint pset_insert (p : nat * W) (l : list (nat * W)) : list (nat * W) :=
  match l with
  | [] => [p]
  | q :: l' =>
      if pair_gt p q then p :: l
      else if pair_gt q p then q :: pset_insert p l'
      else l
  end.

(** Range insertion [s.insert(first, last)]. *)
Definition pset_insert_all (ps l : list (nat * W)) : list (nat * W) :=
  foldl (λ s p, pset_insert p s) l ps.

End pairs.
