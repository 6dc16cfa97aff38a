(** * Iso: the isotropic agglomerators
    (include/CoMMA/Agglomerator.h:855-1798) *)

From Verif Require Export Features Neigh Seeds Container.

(** Members of [Agglomerator] and [Agglomerator_Isotropic]
    (Agglomerator.h:120-159, 855-1067) used by the isotropic algorithm.
    [ip_front] selects [NeighbourhoodPureFrontCreator] (Agglomerator.h:910-913);
    [ip_iter] is [_fc_iter]; [ip_it] tells whether the object is an
    [Agglomerator_Iterative] (true) or an [Agglomerator_Biconnected] (false). *)
Record iso_params := IsoP {
  ip_dim : Z;
  ip_goal : Z;
  ip_min : Z;
  ip_max : Z;
  ip_ar : ar_kind;
  ip_front : bool;
  ip_iter : Z;
  ip_it : bool;
}.

(** Agglomerator.h:1025-1067 [set_agglomeration_parameter]: 0 stands for the
    default value.  [_threshold_card], never read, is dropped.  The dimension
    is 2 or 3 (constructor, Agglomerator.h:80-82), so that [.at(_dimension)]
    does not throw. *)
Definition set_agglomeration_parameter (ip : iso_params) (goal min max : Z)
    : iso_params :=
  let two := bool_decide (ip_dim ip = 2)%Z in
  IsoP (ip_dim ip)
    (if bool_decide (goal = 0)%Z then (if two then 4 else 8)%Z else goal)
    (if bool_decide (min = 0)%Z then (if two then 3 else 6)%Z else min)
    (if bool_decide (max = 0)%Z then (if two then 5 else 10)%Z else max)
    (ip_ar ip) (ip_front ip) (ip_iter ip) (ip_it ip).

(** Agglomerator.h:83-87. *)
Definition min_neighbourhood (ip : iso_params) : Z :=
  if bool_decide (ip_dim ip = 2)%Z then 2%Z else 3%Z.

Section iso.
Context {A : Arith} {H : HashOrder}.
Implicit Types (g : graph) (ip : iso_params) (ct : container).

(** The variables updated by [compute_best_fc_to_add]: [argmin_ar],
    [max_faces_in_common], [min_ar_cc_feats] (outputs) and the locals
    [min_ar] / [outer_ar], [arg_max_faces_in_common] / [outer_argmax_faces],
    [ref_max_faces] (the last one only in the iterative version; in the other
    one it coincides with [max_faces_in_common]). *)
Record best := Best {
  b_arg : nat; b_faces : Z; b_feats : feats;
  b_ar : W; b_argmax : nat; b_ref : Z;
}.

(** Agglomerator.h:1543-1582 and 1743-1795: the decision about candidate [i]
    whose number of faces in common is [nf], aspect ratio [ar] and features
    [ft]; [own] is what [max_faces_in_common] is set to when [i] is taken.
    [is_order_primary] is the constant [false] (Agglomerator.h:1229). *)
Definition best_step (dn : gmap nat Z) (b : best) (i : nat) (nf : Z) (ar : W)
    (ft : feats) (own : Z) : res best :=
  order ← mapat dn i;
  let take := Best i own ft ar i nf in
  if bool_decide (b_ref b <= nf)%Z then
    if bool_decide (nf = b_ref b) then
      o ← mapat dn (b_argmax b);
      if bool_decide (order <= o)%Z then
        if bool_decide (order = o) then
          if wlt ar (b_ar b) && bool_decide (0 < nf)%Z then Ok take else Ok b
        else Ok take
      else Ok b
    else Ok take
  else Ok b.

(** Agglomerator.h:1497-1584 [Agglomerator_Biconnected::compute_best_fc_to_add].
    [neighbours[0]] on an empty list of candidates is UB. *)
Definition best_biconnected (k : ar_kind) g (h : nbh) (dn : gmap nat Z)
    (ft : feats) (cc : gset nat) (arg : nat) (faces : Z) (out : feats)
    : res best :=
  c0 ← vget (nb_cand h) 0;
  foldM (λ b i,
    r ← compute_features k g i ft cc;
    let '(nf, ar, ft') := r in
    best_step dn b i nf ar ft' nf)
    (nb_cand h) (Best arg faces out wmaxv c0 faces).

(** Agglomerator.h:1669-1797 [Agglomerator_Iterative::compute_best_fc_to_add].
    [n] is [fc_iter - 1].  [cur_min_ar] (line 1716) is not passed to the
    recursive call and stays 0. *)
Fixpoint best_iterative (n : nat) (k : ar_kind) g (prio : list W) (h : nbh)
    (dn : gmap nat Z) (ft : feats) (cc : gset nat) (arg : nat) (faces : Z)
    (out : feats) : res best :=
  foldM (λ b i,
    r ← compute_features k g i ft cc;
    let '(nf, ar, ft') := r in
    l ← nbrs g i;
    h' ← nbh_update prio h i l;
    inner ← (match n with
             | O => Ok (nf, ar)
             | S n' =>
                 r ← best_iterative n' k g prio h' dn ft' ({[i]} ∪ cc) 0 0%Z
                       feats_default;
                 Ok (if bool_decide (nf < b_faces r)%Z then (b_faces r, ar)
                     else if bool_decide (b_faces r = nf) && wlt w0 ar
                          then (nf, w0) else (nf, ar))
             end);
    let '(nf', ar') := inner in
    best_step dn b i nf' ar' ft' nf)
    (nb_cand h) (Best arg faces out wmaxv 0 faces).

Definition compute_best ip g (prio : list W) (h : nbh) (dn : gmap nat Z)
    (ft : feats) (cc : gset nat) (fc_iter : Z) : res best :=
  if ip_it ip
  then best_iterative (Z.to_nat (fc_iter - 1)) (ip_ar ip) g prio h dn ft cc 0
         0%Z feats_default
  else best_biconnected (ip_ar ip) g h dn ft cc 0 0%Z feats_default.

(** The variables of the [while] loop of Agglomerator.h:1334-1427.
    [gw_dict] is [dict_cc_in_creation]; the dictionary stored with each set
    has the single entry [next_cell -> order], so it is kept as a pair. *)
Record grow := Grow {
  gw_h : nbh;                 (* neighbourhood *)
  gw_next : nat;              (* next_cell *)
  gw_size : nat;              (* size_current_cc *)
  gw_cc : gset nat;           (* tmp_cc *)
  gw_ft : feats;              (* cur_cc_feats *)
  gw_dn : gmap nat Z;         (* d_n_of_seed *)
  gw_ext : Z;                 (* number_of_external_faces_current_cc *)
  gw_cpt : gmap nat Z;        (* cur_compact_by_fc *)
  gw_maxc : Z;                (* max_compact *)
  gw_minext : Z;              (* min_external_faces *)
  gw_arg : Z;                 (* arg_min_card *)
  gw_dict : gmap nat (gset nat * (nat * Z));
}.

(** Agglomerator.h:1372-1381: incremental update of the compactness.
    [++m[k]] inserts 0 first if [k] is missing. *)
Definition compact_update (tmp : gset nat) (m : gmap nat Z) (c : nat)
    (l : list nat) : gmap nat Z :=
  let '(k, m) := foldl (λ '(k, m) n,
      if bool_decide (n ∈ tmp)
      then ((k + 1)%Z, <[n := (default 0 (m !! n) + 1)%Z]> m) else (k, m))
      (0%Z, m) l in
  <[c := k]> m.

(** Agglomerator.h:1334-1427: one iteration. *)
Definition grow_step ip g (prio : list W) (max_ind : Z) (s : grow) : res grow :=
  l ← nbrs g (gw_next s);
  h ← nbh_update prio (gw_h s) (gw_next s) l;
  let szZ := Z.of_nat (gw_size s) in
  b ← compute_best ip g prio h (gw_dn s) (gw_ft s) (gw_cc s)
        (Z.min (max_ind - szZ) (ip_iter ip));
  let c := b_arg b in
  nn ← nb_nbrs g c;
  nb ← n_bnd g c;
  let ext := (gw_ext s + (nn + nb - 1 - 2 * b_faces b))%Z in
  let size := S (gw_size s) in
  let sz := Z.of_nat size in
  let tmp := {[c]} ∪ gw_cc s in
  lc ← nbrs g c;
  let cpt := compact_update tmp (gw_cpt s) c lc in
  cur ← map_min cpt;
  let elig := bool_decide (ip_min ip <= sz)%Z || bool_decide (sz = max_ind) in
  let '(maxc, minext, arg) :=
    if elig then
      if bool_decide (gw_maxc s < cur)%Z then (cur, ext, sz)
      else if bool_decide (cur = gw_maxc s) then
        if bool_decide (ext < gw_minext s)%Z
           || (bool_decide (ext = gw_minext s)
               && negb (bool_decide (gw_arg s = ip_goal ip)))
        then (gw_maxc s, ext, sz)
        else (gw_maxc s, gw_minext s, gw_arg s)
      else (gw_maxc s, gw_minext s, gw_arg s)
    else (gw_maxc s, gw_minext s, gw_arg s) in
  let dict := if elig then
                <[size := (tmp, (c, default 0%Z (gw_dn s !! c)))]> (gw_dict s)
              else gw_dict s in
  Ok (Grow h c size tmp (b_feats b) (delete c (gw_dn s)) ext cpt maxc minext arg
        dict).

(** The [while (size_current_cc < max_ind)] loop: [size_current_cc] starts at 1
    and is incremented by one at each iteration, so the loop makes exactly
    [max_ind - 1] iterations. *)
Fixpoint grow_loop (k : nat) ip g prio (max_ind : Z) (s : grow) : res grow :=
  match k with
  | O => Ok s
  | S k => s ← grow_step ip g prio max_ind s; grow_loop k ip g prio max_ind s
  end.

(** Agglomerator.h:1434-1441: putting the cells not kept back in
    [d_n_of_seed].  [sizes] are the sizes from [arg_min_card + 1] to
    [max_ind]. *)
Definition put_back (dict : gmap nat (gset nat * (nat * Z))) (sizes : list nat)
    (dn : gmap nat Z) : gmap nat Z :=
  foldl (λ d i, match dict !! i with
                | Some (_, (c, o)) => <[c := o]> d
                | None => d
                end) dn sizes.

(** [std::map<int, unordered_set>] as the list of its entries in ascending
    order of keys, and [m[k].insert(x)]. *)
Fixpoint byord_insert (k : Z) (x : nat) (m : list (Z * gset nat))
    : list (Z * gset nat) :=
  match m with
  | [] => [(k, {[x]})]
  | (k', s) :: m' =>
      if bool_decide (k < k')%Z then (k, {[x]}) :: m
      else if bool_decide (k' < k)%Z then (k', s) :: byord_insert k x m'
      else (k', {[x]} ∪ s) :: m'
  end.

(** Agglomerator.h:1443-1467: feeding the seeds pool with the neighbours of the
    new coarse cell. *)
Definition feed_pool g (prio : list W) (p : pool) (cc : gset nat)
    (dn : gmap nat Z) (aggl : list bool) : res pool :=
  neighs ← neighbourhood_of_cc g cc aggl;
  let '(by_ord, lost) :=
    foldl (λ '(m, lost) n,
      match dn !! n with
      | Some o => (byord_insert o n m, lost)
      | None => (m, {[n]} ∪ lost)
      end) ([], ∅) (hset s_keys neighs) in
  p ← foldM (λ p '(_, s),
        if bool_decide (s = ∅) then Ok p
        else order_new_seeds_and_update prio (g_bnd g) p s) by_ord p;
  if bool_decide (lost = ∅) then Ok p
  else order_new_seeds_and_update prio (g_bnd g) p lost.

(** Agglomerator.h:1224-1474 [choose_optimal_cc_and_update_seeds_pool]: the
    coarse cell, its compactness and the updated pool. *)
Definition choose_optimal ip g (prio : list W) ct (p : pool) (seed : nat)
    : res (gset nat * Z * pool) :=
  _ ← massert (bool_decide (1 < ip_goal ip)%Z);
  let max_order := Z.max (min_neighbourhood ip) (ip_max ip `quot` ip_dim ip) in
  r ← compute_neighbourhood_of_cc g {[seed]} max_order (ip_max ip) (ct_aggl ct);
  let dn := r.1 in
  let nd := Z.of_nat (size dn) in
  if bool_decide (dn = ∅) then Ok ({[seed]}, 0%Z, p)
  else if bool_decide (nd + 1 < ip_goal ip)%Z then
    let cc := {[seed]} ∪ dom dn in
    cpt ← min_compactness g cc;
    Ok (cc, cpt, p)
  else
    ft ← feats_of_cell g seed;
    let max_ind := Z.min (ip_max ip) (nd + 1) in
    nn ← nb_nbrs g seed;
    nb ← n_bnd g seed;
    let h := nbh_create (dom dn) (if ip_front ip then Some (ip_dim ip) else None) in
    s ← grow_loop (Z.to_nat (max_ind - 1)) ip g prio max_ind
          (Grow h seed 1 {[seed]} ft dn (nn + nb - 1)%Z {[ seed := 0%Z ]} 0%Z
             int_max (ip_min ip) ∅);
    let arg := gw_arg s in
    let cc := from_option fst ∅ (gw_dict s !! Z.to_nat arg) in
    let dn := put_back (gw_dict s)
                (seq (Z.to_nat (arg + 1)) (Z.to_nat max_ind - Z.to_nat arg))
                (gw_dn s) in
    p ← feed_pool g prio p cc dn (ct_aggl ct);
    _ ← massert (bool_decide (arg = Z.of_nat (size cc)));
    Ok (cc, gw_maxc s, p).

(** Agglomerator.h:1103-1127: the main loop.  Each iteration agglomerates at
    least the seed, so that [S n] units of fuel suffice (theorem). *)
Fixpoint iso_loop (fuel : nat) ip g (prio : list W) ct (p : pool)
    : res (container * pool) :=
  match fuel with
  | O => Err EFuel
  | S fuel =>
      if bool_decide (ct_nagg ct < g_n g) then
        r ← choose_new_seed prio (g_bnd g) (ct_aggl ct) p;
        let '(o, p) := r in
        _ ← massert (bool_decide (o ≠ None));
        seed ← opt_value o;
        r ← choose_optimal ip g prio ct p seed;
        let '(cc, cpt, p) := r in
        ct ← create_cc ct cc cpt false false;
        iso_loop fuel ip g prio ct p
      else Ok (ct, p)
  end.

(** Agglomerator.h:1092-1137 [Agglomerator_Isotropic::agglomerate_one_level].
    [_l_nb_of_cells], which nobody reads afterwards, is dropped. *)
Definition iso_agglomerate ip g (prio : list W) (correction : bool)
    ct (p : pool) : res container :=
  r ← iso_loop (S (g_n g)) ip g prio ct p;
  ct ← create_all_delayed r.1;
  if correction then correct g ct else Ok ct.

End iso.
