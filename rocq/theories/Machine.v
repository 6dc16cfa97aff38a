(** * Machine: the isotropic part with 32-bit integers

    The rest of the model computes with unbounded integers.  Here the functions
    which do arithmetic on [CoMMAIntType] ([int], CoMMATypes.h) are written
    once more, with a test at each addition, subtraction, multiplication and
    increment of such numbers and at each conversion of a size to such a
    number.  A result which does not fit is an overflow, hence undefined
    behaviour (for the conversions, a wrong value).

    What has no such arithmetic is taken from the model as it is: the seeds
    pool, whose counters are below five; the neighbourhoods; the aspect
    ratios once the features are known; and the anisotropic part, where the
    lines are counted with indices and the only numbers of this type are the
    cardinals of pieces of two or three cells. *)

From Verif Require Export Main.

(** [CoMMAIntType] is [int], taken to have 32 bits. *)
Definition int_min := (-2147483648)%Z.
Definition fits (z : Z) : Prop := (int_min <= z <= int_max)%Z.
#[global] Instance fits_dec z : Decision (fits z).
Proof. unfold fits. apply _. Defined.
Definition cint (z : Z) : res Z := if bool_decide (fits z) then Ok z else Err EUB.

Section machine.
Context {A : Arith} {H : HashOrder}.
Implicit Types (g : graph) (f : feats) (ip : iso_params) (ct : container).

(** Dual_Graph.h:156-159, 643-645, 661-697. *)
Definition nb_nbrs_c g (i : nat) : res Z := k ← nb_nbrs g i; cint k.
Definition total_n_faces_c g (i : nat) : res Z :=
  b ← n_bnd g i; k ← nb_nbrs_c g i; cint (b + k)%Z.
Definition estimated_boundary_weight_c g (i : nat) : res W :=
  b ← n_bnd g i;
  if bool_decide (b = 0%Z) then Ok w0
  else w ← wgts g i; k ← nb_nbrs_c g i;
       Ok (wdiv (wmul (wofZ b) (wsum w)) (wofZ k)).
Definition estimated_total_weight_c g (i : nat) : res W :=
  w ← wgts g i; e ← estimated_boundary_weight_c g i; Ok (wadd (wsum w) e).

(** Dual_Graph.h:258-305; [count_if] returns a signed size, stored in a
    [CoMMAIntType]. *)
Definition fc_compactness_c g (s : gset nat) : res (gmap nat Z) :=
  if bool_decide (size s = 0) then Ok ∅
  else if bool_decide (size s = 1) then
    match hset s_compact s with
    | i :: _ => Ok {[ i := 0%Z ]}
    | [] => Err EUB
    end
  else foldM (λ d i, l ← nbrs g i; c ← cint (count_in s l); Ok (<[i := c]> d))
         (hset s_compact s) ∅.
Definition min_compactness_c g (s : gset nat) : res Z :=
  if bool_decide (1 < size s) then
    d ← fc_compactness_c g s;
    if bool_decide (d = ∅) then Ok 0%Z else map_min d
  else Ok 0%Z.

(** Dual_Graph.h:935-1006.  The second condition of the loop is evaluated even
    if the first one holds: there are more tests than in the code. *)
Fixpoint nbh_loop_c (fuel : nat) g (aggl : list bool) (nb_order max_card : Z)
    (dn dm : gmap nat Z) (iord : Z) : res (gmap nat Z * gmap nat Z * Z) :=
  match fuel with
  | O => Err EFuel
  | S fuel =>
    lim ← cint (nb_order + 1)%Z;
    sz ← cint (Z.of_nat (size dn + size dm));
    if bool_decide (iord < lim)%Z || bool_decide (sz < max_card)%Z
    then
      let dn' := dm ∪ dn in
      d ← next_layer g aggl dn' dm iord;
      if bool_decide (d = ∅) then Ok (dn', dm, iord)
      else iord' ← cint (iord + 1)%Z;
           nbh_loop_c fuel g aggl nb_order max_card dn' d iord'
    else Ok (dn, dm, iord)
  end.
Definition compute_neighbourhood_c g (seeds : gset nat) (nb_order : Z)
    (max_card : Z) (aggl : list bool) : res (gmap nat Z * Z) :=
  _ ← massert (bool_decide (1 < max_card)%Z);
  let dm := gset_to_gmap 0%Z seeds in
  r ← nbh_loop_c (S (S (g_n g))) g aggl nb_order max_card ∅ dm 1%Z;
  let '(dn, dm, iord) := r in
  let dn := dm ∪ dn in
  Ok (foldr delete dn (hset s_seeds seeds), iord).

(** ARComputer.h:104-118. *)
Definition feats_of_cell_c g (i : nat) : res feats :=
  vol ← vget (g_vol g) i;
  ext ← estimated_total_weight_c g i;
  nf ← total_n_faces_c g i;
  cen ← vget (g_cen g) i;
  Ok (Feats _ vol ext w0 0%Z wmaxv wminv (map (λ x, wmul x vol) cen)
        {[ i := nf ]}).

(** ARComputer.h:298-325. *)
Definition update_basic_c (cw uf : bool) g (i : nat) f (cc : gset nat)
    : res (Z * feats) :=
  vol ← vget (g_vol g) i;
  sh ← compute_shared_faces g i cc;
  let '(sw, sf) := sh in
  nsf ← cint (Z.of_nat (size sf));
  nint ← cint (f_nint f + nsf)%Z;
  ext_int ← (if cw then
               tot ← estimated_total_weight_c g i;
               Ok (wsub (wadd (f_ext f) tot) (wmul (wofZ 2) sw),
                   wadd (f_int f) sw)
             else Ok (f_ext feats_default, f_int feats_default));
  fac ← (if uf then
           m ← foldM (λ m k, v ← mapat m k; v ← cint (v - 1)%Z; Ok (<[k := v]> m))
                 (hset s_facets sf) (f_facets f);
           nf ← total_n_faces_c g i;
           v ← cint (nf - nsf)%Z;
           Ok (<[i := v]> m)
         else Ok ∅);
  Ok (nsf, Feats _ (wadd (f_meas f) vol) (ext_int.1) (ext_int.2)
             nint (f_sqmin feats_default) (f_sqdiam feats_default) [] fac).

(** ARComputer.h:387-902: the ten [compute_and_update_features]. *)
Definition compute_features_c (k : ar_kind) g (i : nat) f (cc : gset nat)
    : res (Z * W * feats) :=
  match k with
  | DiamOverRadius is2d =>
      b ← update_basic_c false false g i f cc;
      a ← approx_features g i f cc;
      let nf := set_approx b.2 a.1 a.2 in
      Ok (b.1, x_over_radius is2d (f_sqdiam nf) (f_meas nf), nf)
  | OverMeasure =>
      b ← update_basic_c false false g i f cc;
      Ok (b.1, wdiv w1 (f_meas b.2), b.2)
  | DiamOverMinEdge =>
      b ← update_basic_c false false g i f cc;
      a ← approx_features g i f cc;
      let nf := set_approx b.2 a.1 a.2 in
      Ok (b.1, if bool_decide (size cc = 1) then f_sqdiam nf
               else wdiv (f_sqdiam nf) (f_sqmin nf), nf)
  | PerimOverRadius is2d =>
      b ← update_basic_c true false g i f cc;
      let nf := b.2 in
      Ok (b.1, if is2d : bool then wdiv (wsq (f_ext nf)) (f_meas nf)
               else wdiv (wcb (f_ext nf)) (wsq (f_meas nf)), nf)
  | AlgPerimOverMeasure =>
      b ← update_basic_c true false g i f cc;
      Ok (b.1, wdiv (f_ext b.2) (f_meas b.2), b.2)
  | Diameter =>
      b ← update_basic_c false false g i f cc;
      a ← approx_features g i f cc;
      let nf := set_approx b.2 a.1 a.2 in
      Ok (b.1, f_sqdiam nf, nf)
  | ExternalW =>
      b ← update_basic_c true false g i f cc;
      Ok (b.1, f_ext b.2, b.2)
  | OverInternal =>
      b ← update_basic_c true false g i f cc;
      Ok (b.1, wdiv w1 (f_int b.2), b.2)
  | MaxBaryOverRadius is2d =>
      b ← update_basic_c false false g i f cc;
      s ← update_barycenter g i f cc;
      let nf := set_sum b.2 s.1 in
      m ← max_bary g i cc s.2;
      Ok (b.1, x_over_radius is2d m (f_meas nf), nf)
  | MaxOverMinBary =>
      b ← update_basic_c false true g i f cc;
      s ← update_barycenter g i f cc;
      r ← minmax_bary g i cc s.2 (f_facets b.2);
      let nf := set_facets (set_sum b.2 s.1) r.2 in
      Ok (b.1, wdiv (r.1.2) (r.1.1), nf)
  end.

(** Agglomerator.h:1497-1584 and 1669-1797. *)
Definition best_biconnected_c (k : ar_kind) g (h : nbh) (dn : gmap nat Z)
    (ft : feats) (cc : gset nat) (arg : nat) (faces : Z) (out : feats)
    : res best :=
  c0 ← vget (nb_cand h) 0;
  foldM (λ b i,
    r ← compute_features_c k g i ft cc;
    let '(nf, ar, ft') := r in
    best_step dn b i nf ar ft' nf)
    (nb_cand h) (Best arg faces out wmaxv c0 faces).
Fixpoint best_iterative_c (n : nat) (k : ar_kind) g (prio : list W) (h : nbh)
    (dn : gmap nat Z) (ft : feats) (cc : gset nat) (arg : nat) (faces : Z)
    (out : feats) : res best :=
  foldM (λ b i,
    r ← compute_features_c k g i ft cc;
    let '(nf, ar, ft') := r in
    l ← nbrs g i;
    h' ← nbh_update prio h i l;
    inner ← (match n with
             | O => Ok (nf, ar)
             | S n' =>
                 r ← best_iterative_c n' k g prio h' dn ft' ({[i]} ∪ cc) 0 0%Z
                       feats_default;
                 Ok (if bool_decide (nf < b_faces r)%Z then (b_faces r, ar)
                     else if bool_decide (b_faces r = nf) && wlt w0 ar
                          then (nf, w0) else (nf, ar))
             end);
    let '(nf', ar') := inner in
    best_step dn b i nf' ar' ft' nf)
    (nb_cand h) (Best arg faces out wmaxv 0 faces).
Definition compute_best_c ip g (prio : list W) (h : nbh) (dn : gmap nat Z)
    (ft : feats) (cc : gset nat) (fc_iter : Z) : res best :=
  if ip_it ip
  then d ← cint (fc_iter - 1)%Z;
       best_iterative_c (Z.to_nat d) (ip_ar ip) g prio h dn ft cc 0 0%Z feats_default
  else best_biconnected_c (ip_ar ip) g h dn ft cc 0 0%Z feats_default.

(** Agglomerator.h:1372-1381. *)
Definition compact_update_c (tmp : gset nat) (m : gmap nat Z) (c : nat)
    (l : list nat) : res (gmap nat Z) :=
  r ← foldM (λ '(k, m) n,
      if bool_decide (n ∈ tmp) then
        k ← cint (k + 1)%Z;
        v ← cint (default 0 (m !! n) + 1)%Z;
        Ok (k, <[n := v]> m)
      else Ok (k, m)) l (0%Z, m);
  let '(k, m) := r in
  Ok (<[c := k]> m).

(** Agglomerator.h:1334-1427. *)
Definition grow_step_c ip g (prio : list W) (max_ind : Z) (s : grow) : res grow :=
  l ← nbrs g (gw_next s);
  h ← nbh_update prio (gw_h s) (gw_next s) l;
  let szZ := Z.of_nat (gw_size s) in
  left ← cint (max_ind - szZ)%Z;
  b ← compute_best_c ip g prio h (gw_dn s) (gw_ft s) (gw_cc s)
        (Z.min left (ip_iter ip));
  let c := b_arg b in
  nn ← nb_nbrs_c g c;
  nb ← n_bnd g c;
  e1 ← cint (nn + nb)%Z;
  e2 ← cint (e1 - 1)%Z;
  e3 ← cint (2 * b_faces b)%Z;
  e4 ← cint (e2 - e3)%Z;
  ext ← cint (gw_ext s + e4)%Z;
  let size := S (gw_size s) in
  sz ← cint (szZ + 1)%Z;
  let tmp := {[c]} ∪ gw_cc s in
  lc ← nbrs g c;
  cpt ← compact_update_c tmp (gw_cpt s) c lc;
  cur ← map_min cpt;
  let elig := bool_decide (ip_min ip <= sz)%Z || bool_decide (sz = max_ind) in
  let '(maxc, minext, arg) :=
    if elig then
      if bool_decide (gw_maxc s < cur)%Z then (cur, ext, sz)
      else if bool_decide (cur = gw_maxc s) then
        if bool_decide (ext < gw_minext s)%Z
           || (bool_decide (ext = gw_minext s)
               && negb (bool_decide (gw_arg s = ip_goal ip)))
        then (gw_maxc s, ext, sz)
        else (gw_maxc s, gw_minext s, gw_arg s)
      else (gw_maxc s, gw_minext s, gw_arg s)
    else (gw_maxc s, gw_minext s, gw_arg s) in
  let dict := if elig then
                <[size := (tmp, (c, default 0%Z (gw_dn s !! c)))]> (gw_dict s)
              else gw_dict s in
  Ok (Grow h c size tmp (b_feats b) (delete c (gw_dn s)) ext cpt maxc minext arg
        dict).
Fixpoint grow_loop_c (k : nat) ip g prio (max_ind : Z) (s : grow) : res grow :=
  match k with
  | O => Ok s
  | S k => s ← grow_step_c ip g prio max_ind s; grow_loop_c k ip g prio max_ind s
  end.

(** Agglomerator.h:1224-1474. *)
Definition choose_optimal_c ip g (prio : list W) ct (p : pool) (seed : nat)
    : res (gset nat * Z * pool) :=
  _ ← massert (bool_decide (1 < ip_goal ip)%Z);
  q ← cint (ip_max ip `quot` ip_dim ip)%Z;
  let max_order := Z.max (min_neighbourhood ip) q in
  r ← compute_neighbourhood_c g {[seed]} max_order (ip_max ip) (ct_aggl ct);
  let dn := r.1 in
  if bool_decide (dn = ∅) then Ok ({[seed]}, 0%Z, p)
  else
    nd1 ← cint (Z.of_nat (size dn) + 1)%Z;
    if bool_decide (nd1 < ip_goal ip)%Z then
    let cc := {[seed]} ∪ dom dn in
    cpt ← min_compactness_c g cc;
    Ok (cc, cpt, p)
  else
    ft ← feats_of_cell_c g seed;
    let max_ind := Z.min (ip_max ip) nd1 in
    nn ← nb_nbrs_c g seed;
    nb ← n_bnd g seed;
    e1 ← cint (nn + nb)%Z;
    e2 ← cint (e1 - 1)%Z;
    let h := nbh_create (dom dn) (if ip_front ip then Some (ip_dim ip) else None) in
    s ← grow_loop_c (Z.to_nat (max_ind - 1)) ip g prio max_ind
          (Grow h seed 1 {[seed]} ft dn e2 {[ seed := 0%Z ]} 0%Z
             int_max (ip_min ip) ∅);
    let arg := gw_arg s in
    let cc := from_option fst ∅ (gw_dict s !! Z.to_nat arg) in
    next ← cint (arg + 1)%Z;
    last ← cint (max_ind + 1)%Z;
    let dn := put_back (gw_dict s)
                (seq (Z.to_nat next) (Z.to_nat (last - 1) - Z.to_nat arg))
                (gw_dn s) in
    p ← feed_pool g prio p cc dn (ct_aggl ct);
    card ← cint (Z.of_nat (size cc));
    _ ← massert (bool_decide (arg = card));
    Ok (cc, gw_maxc s, p).

(** Coarse_Cell.h:57-67 and Coarse_Cell_Container.h:483-544: the cardinal of
    the new coarse cell. *)
Definition create_cc_c ct (s : gset nat) (cpt : Z) (aniso delayed : bool)
    : res container :=
  _ ← cint (Z.of_nat (size s));
  create_cc ct s cpt aniso delayed.

(** Agglomerator.h:1103-1127. *)
Fixpoint iso_loop_c (fuel : nat) ip g (prio : list W) ct (p : pool)
    : res (container * pool) :=
  match fuel with
  | O => Err EFuel
  | S fuel =>
      if bool_decide (ct_nagg ct < g_n g) then
        r ← choose_new_seed prio (g_bnd g) (ct_aggl ct) p;
        let '(o, p) := r in
        _ ← massert (bool_decide (o ≠ None));
        seed ← opt_value o;
        r ← choose_optimal_c ip g prio ct p seed;
        let '(cc, cpt, p) := r in
        ct ← create_cc_c ct cc cpt false false;
        iso_loop_c fuel ip g prio ct p
      else Ok (ct, p)
  end.

(** Coarse_Cell_Container.h:461-471. *)
Definition get_shared_faces_c g (fc : nat) (cc : ccell) : res Z :=
  foldM (λ k j, l ← nbrs g j; cint (k + count_occ_nat fc l)%Z)
    (hset s_sharedf (cc_fcs cc)) 0%Z.

(** Coarse_Cell_Container.h:271-453. *)
Definition cands_c g ct (fcs : gset nat) (sf : ccell → res Z) (neighs : gset nat)
    : res (list cand) :=
  foldM (λ acc id,
    cc ← mapat (ct_ccs ct) id;
    if cc_iso cc then
      s ← sf cc;
      cpt ← min_compactness_c g (fcs ∪ cc_fcs cc);
      Ok (acc ++ [Cand id (cc_card cc) s cpt (bool_decide (cc_cpt cc < cpt)%Z)])
    else Ok acc) (sset neighs) [].
Definition select_best_whole_c g ct (fcs neighs : gset nat)
    : res (option (nat * option Z)) :=
  l ← cands_c g ct fcs (λ _, Ok 0%Z) neighs;
  match filter (λ c, cd_inc c = true) l with
  | [] => Ok None
  | c :: l => let r := foldl best_whole_step c l in
              Ok (Some (cd_id r, Some (cd_cpt r)))
  end.
Definition select_best_c g ct (fc : nat) (neighs : gset nat)
    : res (option (nat * option Z)) :=
  l ← cands_c g ct {[fc]} (get_shared_faces_c g fc) neighs;
  Ok (match filter (λ c, cd_inc c = true) l with
      | c :: l' => let r := foldl best_compact_step c l' in
                   Some (cd_id r, Some (cd_cpt r))
      | [] =>
      match (foldl argmax_step (0%Z, []) l).2 with
      | c :: l' => let r := foldl best_whole_step c l' in
                   Some (cd_id r, Some (cd_cpt r))
      | [] =>
      match (foldl argmin_step (int_max, []) l).2 with
      | c :: l' => let r := foldl min_id_step c l' in
                   Some (cd_id r, Some (cd_cpt r))
      | [] => match l with c :: _ => Some (cd_id c, None) | [] => None end
      end end end).

(** Coarse_Cell.h:101-125: [_cardinality += fcs.size()], [++_cardinality]. *)
Definition insert_cells_c g (ccs : gmap nat ccell) (id : nat) (fcs : gset nat)
    (cpt : option Z) : res (gmap nat ccell) :=
  match ccs !! id with
  | None => Err EUB
  | Some cc =>
      let s := fcs ∪ cc_fcs cc in
      card ← cint (cc_card cc + Z.of_nat (size fcs))%Z;
      c ← match cpt with Some c => Ok c | None => min_compactness_c g s end;
      Ok (<[id := CCell s card c (cc_iso cc)]> ccs)
  end.

(** Coarse_Cell_Container.h:164-255. *)
Definition correct_whole_c g ct (fcs : gset nat) (nb : gmap nat (gset nat))
    : res (bool * container) :=
  let glob := map_fold (λ _ s acc, s ∪ acc) ∅ nb in
  if bool_decide (glob = ∅) then Ok (false, ct) else
  o ← select_best_whole_c g ct fcs glob;
  match o with
  | None => Ok (false, ct)
  | Some (id, cpt) =>
      f ← set_ids (ct_fc2cc ct) id (hset s_corr_fcs fcs);
      ccs ← insert_cells_c g (ct_ccs ct) id fcs cpt;
      Ok (true, set_ccs_ids ct ccs f)
  end.
Definition correct_cells_c g ct (nb : gmap nat (gset nat)) (l : list nat)
    : res (bool * container) :=
  foldM (λ '(rm, ct) i,
    s ← mapat nb i;
    if bool_decide (s = ∅) then Ok (rm, ct) else
    o ← select_best_c g ct i s;
    match o with
    | None => Ok (rm, ct)
    | Some (id, cpt) =>
        f ← vset (ct_fc2cc ct) i (Some id);
        ccs ← insert_cells_c g (ct_ccs ct) id {[i]} cpt;
        Ok (true, set_ccs_ids ct ccs f)
    end) l (false, ct).
Definition correct_step_c g ct (rem : gset nat) (old : nat)
    : res (gset nat * container) :=
  cur ← mapat (ct_ccs ct) old;
  if bool_decide (cc_card cur <= ct_thresh ct)%Z then
    let fcs := cc_fcs cur in
    nb ← foldM (λ m i, s ← get_neighs_cc g ct i old; Ok (<[i := s]> m))
           (hset s_corr_fcs fcs) ∅;
    w ← (if bool_decide (1 < cc_card cur)%Z then correct_whole_c g ct fcs nb
         else Ok (false, ct));
    r ← (if w.1 : bool then Ok w else correct_cells_c g w.2 nb (hkeys s_corr_by_fc nb));
    let ct := r.2 in
    if r.1 : bool then
      Ok ({[old]} ∪ rem, set_ccs_ids ct (delete old (ct_ccs ct)) (ct_fc2cc ct))
    else Ok (rem, ct)
  else Ok (rem, ct).
Definition correct_c g ct : res container :=
  r ← foldM (λ '(rem, ct) old, correct_step_c g ct rem old) (ct_sing ct) (∅, ct);
  correct_renumber r.2 r.1.

(** Agglomerator.h:1092-1137.  No coarse cell is ever delayed. *)
Definition iso_agglomerate_c ip g (prio : list W) (correction : bool)
    ct (p : pool) : res container :=
  r ← iso_loop_c (S (g_n g)) ip g prio ct p;
  ct ← create_all_delayed r.1;
  if correction then correct_c g ct else Ok ct.

(** CoMMA.h:402-433. *)
Definition phase2_c (i : input) ct (p : pool) : res container :=
  ip ← iso_params_of i;
  iso_agglomerate_c ip (graph_of i) (in_prio i) (in_corr i) ct p.

(** CoMMA.h:137-444. *)
Definition agglomerate_checked (i : input) (o : outs) : outs * res unit :=
  match phase1 i o with
  | Err e => (o, Err e)
  | Ok (ct, p, lines) =>
      let o := match lines with
               | None => o
               | Some l => let '(idx, cells) := export_lines l in
                           Outs (o_fc2cc o) idx cells
               end in
      match phase2_c i ct p with
      | Err e => (o, Err e)
      | Ok ct =>
          let '(l, r) := fill (ct_fc2cc ct) in
          (Outs l (o_idx o) (o_lines o), r)
      end
  end.

End machine.
