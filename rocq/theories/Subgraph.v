(** * Subgraph: CSR graphs of coarse cells
    (include/CoMMA/Dual_Graph.h:320-535, Coarse_Cell.h:140-205) *)

From Verif Require Export Container.

Section subgraph.
Context {A : Arith} {H : HashOrder}.

(** Members of [Subgraph] (Dual_Graph.h:344-390); [_is_isotropic] is dropped. *)
Record subg := SubG {
  sg_row : list nat;
  sg_col : list nat;
  sg_val : list W;
  sg_vol : list W;
  sg_map : list nat;   (* _mapping_l_to_g *)
  sg_cpt : Z;          (* _compactness *)
  sg_card : Z;         (* _cardinality *)
}.

(** [std::find] followed by the distance from [begin]. *)
Fixpoint index_of (x : nat) (l : list nat) : option nat :=
  match l with
  | [] => None
  | y :: l => if bool_decide (y = x) then Some 0 else S <$> index_of x l
  end.

(** Dual_Graph.h:344-369, the constructor: compactness computation. *)
Definition sub_compactness (n : nat) (row : list nat) : res Z :=
  foldM (λ c k, b ← vget row (S k); a ← vget row k;
                let d := (Z.of_nat b - Z.of_nat a)%Z in
                Ok (if bool_decide (d < c)%Z then d else c))
    (seq 0 n) (Z.of_nat n).

(** Coarse_Cell.h:170-200: rows of the subgraph, one fine cell at a time.
    State: row pointer, global columns, values, volumes, mapping. *)
Definition sub_row (g : graph) (s : gset nat)
    (st : list nat * list nat * list W * list W * list nat) (i : nat)
    : res (list nat * list nat * list W * list W * list nat) :=
  let '(row, col, val, vol, mp) := st in
  l ← nbrs_wgts g i;
  v ← vget (g_vol g) i;
  let l := filter (λ '(n, _), n ∈ s) l in
  let col := col ++ l.*1 in
  Ok (row ++ [length col], col, val ++ l.*2, vol ++ [v], mp ++ [i]).

(** Coarse_Cell.h:158-206: constructor of [Coarse_Cell_Subgraph]. *)
Definition make_subgraph (g : graph) (s : gset nat) : res subg :=
  r ← foldM (sub_row g s) (hset s_subgraph s) ([0], [], [], [], []);
  let '(row, col, val, vol, mp) := r in
  cpt ← sub_compactness (size s) row;
  Ok (SubG row (map (λ c, default (length mp) (index_of c mp)) col) val vol mp
        cpt (Z.of_nat (size s))).

(** [std::vector::insert] and [erase] at a position; UB outside. *)
Definition ins_at {B} (l : list B) (p : nat) (x : B) : res (list B) :=
  if decide (p ≤ length l) then Ok (take p l ++ x :: drop p l) else Err EUB.
Definition del_at {B} (l : list B) (p : nat) : res (list B) :=
  if decide (p < length l) then Ok (take p l ++ drop (S p) l) else Err EUB.

(** [++] (or [--]) on each element from position [k] on. *)
Definition incr_from (k : nat) (l : list nat) : list nat :=
  take k l ++ map S (drop k l).
Definition decr_from (k : nat) (l : list nat) : list nat :=
  take k l ++ map pred (drop k l).

(** One neighbour of [insert_node], Dual_Graph.h:419-447. *)
Definition ins_neigh (loc : nat) (w : list W)
    (st : list nat * list nat * list W * nat) (e : nat)
    : res (list nat * list nat * list W * nat) :=
  let '(row, col, val, k) := st in
  p ← vget row e;
  col ← ins_at col p loc;
  x ← vget w k;
  val ← ins_at val p x;
  Ok (incr_from e row, col ++ [e], val ++ [x], S k).

(** Dual_Graph.h:395-452 [insert_node]; [_compactness] and [_cardinality] are
    not updated. *)
Definition insert_node (s : subg) (neigh : list nat) (i : nat) (vol : W)
    (w : list W) : res subg :=
  let lneigh := omap (λ e, index_of e (sg_map s)) neigh in
  let loc := length (sg_row s) - 1 in
  r ← foldM (ins_neigh loc w) lneigh (sg_row s, sg_col s, sg_val s, 0);
  let '(row, col, val, _) := r in
  b ← match last row with Some b => Ok b | None => Err EUB end;
  Ok (SubG (row ++ [b + length neigh]) col val (sg_vol s ++ [vol])
        (sg_map s ++ [i]) (sg_cpt s) (sg_card s)).

(** Dual_Graph.h:466-486: erasing [i] from the row of neighbour [e].  Iterators
    are modelled as positions (formally, [erase] invalidates them). *)
Fixpoint rm_scan (i e : nat) (k pos : nat) (row col : list nat) (val : list W)
    : res (list nat * list nat * list W) :=
  match k with
  | O => Ok (row, col, val)
  | S k =>
      c ← vget col pos;
      if bool_decide (c = i) then
        col ← del_at col pos;
        val ← del_at val pos;
        rm_scan i e k (S pos) (decr_from (S e) row) col val
      else rm_scan i e k (S pos) row col val
  end.

(** Dual_Graph.h:488-503: erasing the row of [i]. *)
Fixpoint rm_own (i : nat) (k pos : nat) (row col : list nat) (val : list W)
    : res (list nat * list nat * list W) :=
  match k with
  | O => Ok (row, col, val)
  | S k =>
      col ← del_at col pos;
      val ← del_at val pos;
      rm_own i k (S pos) (decr_from (S i) row) col val
  end.

(** Dual_Graph.h:457-533 [remove_node].  An unknown node makes the local index
    the end of the mapping: [get_neighbours] then reads out of bounds. *)
Definition remove_node (s : subg) (x : nat) : res subg :=
  let i := default (length (sg_map s)) (index_of x (sg_map s)) in
  a ← vget (sg_row s) i;
  b ← vget (sg_row s) (S i);
  l ← vrange (sg_col s) a b;
  r ← foldM (λ '(row, col, val) e,
        a ← vget row e; b ← vget row (S e);
        if bool_decide (a ≤ b) then rm_scan i e (b - a) a row col val
        else Err EUB) l (sg_row s, sg_col s, sg_val s);
  let '(row, col, val) := r in
  a ← vget row i;
  b ← vget row (S i);
  r ← (if bool_decide (a ≤ b) then rm_own i (b - a) a row col val else Err EUB);
  let '(row, col, val) := r in
  vol ← del_at (sg_vol s) i;
  row ← del_at row i;
  mp ← del_at (sg_map s) i;
  col ← foldM (λ acc c,
          if bool_decide (c < length row + 1) then
            _ ← massert (negb (bool_decide (c = i)));
            Ok (acc ++ [if bool_decide (i < c) then c - 1 else c])
          else Err EUB) col [];
  Ok (SubG row col val vol mp (sg_cpt s) (sg_card s)).

End subgraph.
