(** * Graph: the CSR graph and the dual graph (include/CoMMA/Dual_Graph.h) *)

From Verif Require Export Pairs.

(** Dual_Graph.h:46-102 (class [Graph]) and 548-628 (class [Dual_Graph]).
    [g_n] is [_number_of_cells]; [g_row], [g_col], [g_val] are the CSR vectors
    [_m_CRS_Row_Ptr], [_m_CRS_Col_Ind], [_m_CRS_Values]; [g_vol] the volumes;
    [g_cen] the centres; [g_bnd] the number of boundary faces; [g_compl] the
    set of anisotropy-compliant cells; [g_2d] tells whether [dimension == 2]
    (it selects the aspect-ratio function, Dual_Graph.h:597-603). *)
Record graph `{Arith} := Graph {
  g_n : nat;
  g_row : list nat;
  g_col : list nat;
  g_val : list W;
  g_vol : list W;
  g_cen : list (list W);
  g_bnd : list Z;
  g_compl : gset nat;
  g_2d : bool;
}.

(** Program points at which an unordered container is iterated. *)
Definition s_compact := 0.
Definition s_tag := 1.
Definition s_neighcc := 2.
Definition s_seeds := 3.
Definition s_order := 4.
Definition s_keys := 5.
Definition s_approx := 6.
Definition s_facets := 7.
Definition s_bary := 8.
Definition s_min := 9.
Definition s_newseeds := 10.
Definition s_corr_fcs := 11.
Definition s_corr_by_fc := 12.
Definition s_sharedf := 13.
Definition s_create := 14.
Definition s_subgraph := 15.

Section graph.
Context {A : Arith} {H : HashOrder}.
Implicit Types g : graph.

(** Dual_Graph.h:183-196 and 166-177: the neighbours of cell [i], i.e. the
    range [neighbours_cbegin(i) .. neighbours_cend(i)]. *)
Definition nbrs g (i : nat) : res (list nat) :=
  a ← vget (g_row g) i; b ← vget (g_row g) (S i); vrange (g_col g) a b.

(** Dual_Graph.h:221-233 and 204-215: the weights of the edges of cell [i]. *)
Definition wgts g (i : nat) : res (list W) :=
  a ← vget (g_row g) i; b ← vget (g_row g) (S i); vrange (g_val g) a b.

(** Dual_Graph.h:156-159 [get_nb_of_neighbours]. *)
Definition nb_nbrs g (i : nat) : res Z :=
  b ← vget (g_row g) (S i); a ← vget (g_row g) i;
  Ok (Z.of_nat b - Z.of_nat a)%Z.

(** Iterating over neighbours and weights of cell [i] in parallel, as done by
    [for (; n_it != neighbours_cend(i); ++n_it, ++w_it)]. *)
Definition nbrs_wgts g (i : nat) : res (list (nat * W)) :=
  n ← nbrs g i; w ← wgts g i; Ok (zip n w).

(** Dual_Graph.h:634-636, 643-645, 651-653. *)
Definition n_bnd g (i : nat) : res Z := vget (g_bnd g) i.
Definition total_n_faces g (i : nat) : res Z :=
  b ← n_bnd g i; k ← nb_nbrs g i; Ok (b + k)%Z.
Definition is_on_boundary g (i : nat) : res bool :=
  b ← n_bnd g i; Ok (bool_decide (0 < b)%Z).

(** Dual_Graph.h:661-685 [estimated_boundary_weight] (the branch [#if 1]):
    [n_bnd == 0 ? 0. : n_bnd * reduce(weights, 0.) / nb_of_neighbours]. *)
Definition estimated_boundary_weight g (i : nat) : res W :=
  b ← n_bnd g i;
  if bool_decide (b = 0%Z) then Ok w0
  else w ← wgts g i; k ← nb_nbrs g i;
       Ok (wdiv (wmul (wofZ b) (wsum w)) (wofZ k)).

(** Dual_Graph.h:693-697 [estimated_total_weight]. *)
Definition estimated_total_weight g (i : nat) : res W :=
  w ← wgts g i; e ← estimated_boundary_weight g i; Ok (wadd (wsum w) e).

(** Dual_Graph.h:286-305 [compute_fc_compactness_inside_a_cc]: for each cell of
    the set the number of its neighbours inside the set. *)
Definition count_in (s : gset nat) (l : list nat) : Z :=
  Z.of_nat (length (filter (λ x, x ∈ s) l)).
Definition fc_compactness g (s : gset nat) : res (gmap nat Z) :=
  if bool_decide (size s = 0) then Ok ∅
  else if bool_decide (size s = 1) then
    match hset s_compact s with
    | i :: _ => Ok {[ i := 0%Z ]}
    | [] => Err EUB
    end
  else foldM (λ d i, l ← nbrs g i; Ok (<[i := count_in s l]> d))
         (hset s_compact s) ∅.

(** [std::min_element] over an [unordered_map] comparing the mapped values,
    followed by [->second]: the first minimal value in iteration order; UB on
    an empty map. *)
Definition min_step (best : option Z) (v : Z) : option Z :=
  match best with
  | None => Some v
  | Some b => if bool_decide (v < b)%Z then Some v else Some b
  end.
Definition map_min (d : gmap nat Z) : res Z :=
  best ← foldM (λ b k, v ← mapat d k; Ok (min_step b v)) (hkeys s_min d) None;
  match best with Some v => Ok v | None => Err EUB end.

(** Dual_Graph.h:258-278 [compute_min_fc_compactness_inside_a_cc]. *)
Definition min_compactness g (s : gset nat) : res Z :=
  if bool_decide (1 < size s) then
    d ← fc_compactness g s;
    if bool_decide (d = ∅) then Ok 0%Z else map_min d
  else Ok 0%Z.

(** Dual_Graph.h:889-901 [get_neighbourhood_of_cc]. *)
Definition neighbourhood_of_cc g (s : gset nat) (aggl : list bool)
    : res (gset nat) :=
  foldM (λ acc fc,
    l ← nbrs g fc;
    foldM (λ acc n,
      b ← vget aggl n;
      Ok (if negb b && bool_decide (n ∉ s) then {[n]} ∪ acc else acc)) l acc)
    (hset s_neighcc s) ∅.

(** Dual_Graph.h:947-979: the body of the [while] loop that builds the next
    layer [d_n_of_order_o].  [dn] is [d_n_of_seed] (already containing the
    previous layer [dm]), [ord] is [i_order]. *)
Definition next_layer g (aggl : list bool) (dn dm : gmap nat Z) (iord : Z)
    : res (gmap nat Z) :=
  foldM (λ d s,
    l ← nbrs g s;
    foldM (λ d n,
      if bool_decide (dn !! n = None) then
        b ← vget aggl n;
        if negb b && bool_decide (d !! n = None) then
          match dm !! n with
          | Some o => if bool_decide (iord < o)%Z then Ok (<[n := iord]> d) else Ok d
          | None => Ok (<[n := iord]> d)
          end
        else Ok d
      else Ok d) l d)
    (hkeys s_order dm) ∅.

(** Dual_Graph.h:935-993: the [while] loop.  Returns the final
    [d_n_of_seed], [d_n_of_order_o_m_one] and [i_order].  [m1 ∪ m2] is the map
    whose entries are those of [m1] overriding those of [m2] (lines 943-945). *)
Fixpoint nbh_loop (fuel : nat) g (aggl : list bool) (nb_order max_card : Z)
    (dn dm : gmap nat Z) (iord : Z) : res (gmap nat Z * gmap nat Z * Z) :=
  match fuel with
  | O => Err EFuel
  | S fuel =>
    if bool_decide (iord < nb_order + 1)%Z
       || bool_decide (Z.of_nat (size dn + size dm) < max_card)%Z
    then
      let dn' := dm ∪ dn in
      d ← next_layer g aggl dn' dm iord;
      if bool_decide (d = ∅) then Ok (dn', dm, iord)
      else nbh_loop fuel g aggl nb_order max_card dn' d (iord + 1)%Z
    else Ok (dn, dm, iord)
  end.

(** Dual_Graph.h:917-1006 [compute_neighbourhood_of_cc].  The callers pass an
    empty [d_n_of_seed].  Returns the neighbourhood and the updated
    [nb_of_order_of_neighbourhood].  The fuel covers one iteration per cell
    plus one per requested order; theorem [nbh_ok] shows it never runs out. *)
Definition compute_neighbourhood_of_cc g (seeds : gset nat) (nb_order : Z)
    (max_card : Z) (aggl : list bool) : res (gmap nat Z * Z) :=
  _ ← massert (bool_decide (1 < max_card)%Z);
  let dm := gset_to_gmap 0%Z seeds in
  r ← nbh_loop (S (S (g_n g))) g aggl nb_order max_card ∅ dm 1%Z;
  let '(dn, dm, iord) := r in
  let dn := dm ∪ dn in
  Ok (foldr delete dn (hset s_seeds seeds), iord).

(** Dual_Graph.h:107-114 [DFS], the recursion being bounded by fuel. *)
Fixpoint dfs (fuel : nat) g (i : nat) (vis : list bool) : res (list bool) :=
  match fuel with
  | O => Err EFuel
  | S fuel =>
    vis ← vset vis i true;
    l ← nbrs g i;
    foldM (λ vis j, b ← vget vis j;
                    if b : bool then Ok vis else dfs fuel g j vis) l vis
  end.

(** Dual_Graph.h:238-252 [check_connectivity].  [vis] is the member
    [_visited], which the function extends (it never clears it). *)
Fixpoint all_visited (n : nat) (vis : list bool) (i : nat) : res bool :=
  match n with
  | O => Ok true
  | S n => b ← vget vis i; if b : bool then all_visited n vis (S i) else Ok false
  end.
Definition check_connectivity g (vis : list bool) : res (bool * list bool) :=
  let vis := vis ++ replicate (g_n g) false in
  if bool_decide (g_n g = 1) then Ok (true, vis)
  else
    c ← vget (g_col g) 0;
    vis ← dfs (S (length vis)) g c vis;
    r ← all_visited (g_n g) vis 0;
    Ok (r, vis).

End graph.
