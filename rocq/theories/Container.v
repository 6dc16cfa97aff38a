(** * Container: coarse cells and their container
    (include/CoMMA/Coarse_Cell.h, Coarse_Cell_Container.h) *)

From Verif Require Export Graph.

(** Coarse_Cell.h:37-65 [Coarse_Cell].  [_idx], never read, is dropped;
    [_fc_graph] is passed as an argument. *)
Record ccell := CCell {
  cc_fcs : gset nat;
  cc_card : Z;
  cc_cpt : Z;
  cc_iso : bool;
}.

(** Coarse_Cell_Container.h:59-93, 556-575. *)
Record container := Cont {
  ct_ccs : gmap nat ccell;
  ct_n : nat;
  ct_fc2cc : list (option nat);
  ct_aggl : list bool;
  ct_thresh : Z;
  ct_nagg : nat;
  ct_delayed : list (gset nat * Z);
  ct_sing : list nat;
}.

(** Coarse_Cell_Container.h:59-70: the constructor. *)
Definition cont_new (n : nat) (thresh : Z) : container :=
  Cont ∅ 0 (replicate n None) (replicate n false) thresh 0 [] [].

(** Iterating over a [std::set] / over the keys of a [std::map]: ascending. *)
Definition sset (X : gset nat) : list nat := merge_sort (≤) (elements X).
Definition skeys {V} (m : gmap nat V) : list nat := sset (dom m).

Section container.
Context {A : Arith} {H : HashOrder}.
Implicit Types (g : graph) (ct : container).

(** Coarse_Cell_Container.h:491-498: marking the cells as agglomerated. *)
Definition mark_cells ct (l : list nat) : res (list bool * nat) :=
  foldM (λ '(ag, k) i,
    o ← vget (ct_fc2cc ct) i;
    _ ← massert (bool_decide (o = None));
    b ← vget ag i;
    if b : bool then Ok (ag, k) else ag ← vset ag i true; Ok (ag, S k))
    l (ct_aggl ct, ct_nagg ct).

(** Coarse_Cell_Container.h:527-531. *)
Definition assign_cells (fc2cc : list (option nat)) (id : nat) (l : list nat)
    : res (list (option nat)) :=
  foldM (λ v i, o ← vget v i;
                _ ← massert (bool_decide (o = None));
                vset v i (Some id)) l fc2cc.

(** Coarse_Cell_Container.h:483-544 [create_cc].  The returned identifier
    ([_cc_counter - 1] after the call) can be read off the container. *)
Definition create_cc ct (s : gset nat) (cpt : Z) (aniso delayed : bool)
    : res container :=
  _ ← massert (negb aniso || negb delayed);
  mk ← mark_cells ct (hset s_create s);
  let ccs := if aniso || negb delayed then
               <[ct_n ct := CCell s (Z.of_nat (size s)) cpt (negb aniso)]> (ct_ccs ct)
             else ct_ccs ct in
  if delayed then
    Ok (Cont ccs (ct_n ct) (ct_fc2cc ct) mk.1 (ct_thresh ct) mk.2
          (ct_delayed ct ++ [(s, cpt)]) (ct_sing ct))
  else
    f ← assign_cells (ct_fc2cc ct) (ct_n ct) (hset s_create s);
    Ok (Cont ccs (S (ct_n ct)) f mk.1 (ct_thresh ct) mk.2 (ct_delayed ct)
          (if negb aniso && bool_decide (Z.of_nat (size s) <= ct_thresh ct)%Z
           then ct_sing ct ++ [ct_n ct] else ct_sing ct)).

(** Coarse_Cell_Container.h:549-554 [cc_create_all_delayed_cc]. *)
Definition create_all_delayed ct : res container :=
  ct ← foldM (λ ct '(s, cpt), create_cc ct s cpt false false) (ct_delayed ct) ct;
  Ok (Cont (ct_ccs ct) (ct_n ct) (ct_fc2cc ct) (ct_aggl ct) (ct_thresh ct)
        (ct_nagg ct) [] (ct_sing ct)).

(** Coarse_Cell_Container.h:116-127 [get_neighs_cc]. *)
Definition get_neighs_cc g ct (i cc : nat) : res (gset nat) :=
  l ← nbrs g i;
  foldM (λ r j, o ← vget (ct_fc2cc ct) j; c ← opt_value o;
                Ok (if bool_decide (c ≠ cc) then {[c]} ∪ r else r)) l ∅.

(** Coarse_Cell_Container.h:461-471 [get_shared_faces]. *)
Definition count_occ_nat (x : nat) (l : list nat) : Z :=
  Z.of_nat (length (filter (λ y, y = x) l)).
Definition get_shared_faces g (fc : nat) (cc : ccell) : res Z :=
  foldM (λ k j, l ← nbrs g j; Ok (k + count_occ_nat fc l)%Z)
    (hset s_sharedf (cc_fcs cc)) 0%Z.

(** What the two selection functions compute for each isotropic neighbouring
    coarse cell, in ascending order of identifier.  Simplification: the maps
    [card], [shared_faces], [compact], keyed by identifier, and the list
    [argtrue_compact] are merged in one list of tuples. *)
Record cand := Cand {
  cd_id : nat; cd_card : Z; cd_sf : Z; cd_cpt : Z; cd_inc : bool;
}.
Definition cands g ct (fcs : gset nat) (sf : ccell → res Z) (neighs : gset nat)
    : res (list cand) :=
  foldM (λ acc id,
    cc ← mapat (ct_ccs ct) id;
    if cc_iso cc then
      s ← sf cc;
      cpt ← min_compactness g (fcs ∪ cc_fcs cc);
      Ok (acc ++ [Cand id (cc_card cc) s cpt (bool_decide (cc_cpt cc < cpt)%Z)])
    else Ok acc) (sset neighs) [].

(** Coarse_Cell_Container.h:271-324 [select_best_cc_to_agglomerate_whole]:
    the chosen identifier and the new compactness.  [sort] (line 309) is the
    identity because the identifiers are inserted in ascending order. *)
Definition best_whole_step (cur c : cand) : cand :=
  if bool_decide (cd_card c < cd_card cur)%Z then c else cur.
Definition select_best_whole g ct (fcs neighs : gset nat)
    : res (option (nat * option Z)) :=
  l ← cands g ct fcs (λ _, Ok 0%Z) neighs;
  match filter (λ c, cd_inc c = true) l with
  | [] => Ok None
  | c :: l => let r := foldl best_whole_step c l in
              Ok (Some (cd_id r, Some (cd_cpt r)))
  end.

(** Coarse_Cell_Container.h:339-453 [select_best_cc_to_agglomerate]. *)
Definition best_compact_step (cur c : cand) : cand :=
  if bool_decide (cd_sf cur < cd_sf c)%Z then c
  else if bool_decide (cd_sf c = cd_sf cur) && bool_decide (cd_card c < cd_card cur)%Z
       then c else cur.
Definition argmax_step (acc : Z * list cand) (c : cand) : Z * list cand :=
  if bool_decide (acc.1 < cd_sf c)%Z then (cd_sf c, [c])
  else if bool_decide (cd_sf c = acc.1) then (acc.1, acc.2 ++ [c]) else acc.
Definition argmin_step (acc : Z * list cand) (c : cand) : Z * list cand :=
  if bool_decide (cd_card c < acc.1)%Z then (cd_card c, [c])
  else if bool_decide (cd_card c = acc.1) then (acc.1, acc.2 ++ [c]) else acc.
Definition min_id_step (cur c : cand) : cand :=
  if bool_decide (cd_id c < cd_id cur) then c else cur.
(** [std::numeric_limits<CoMMAIntType>::max()] for a 32-bit [int]. *)
Definition int_max := 2147483647%Z.
Definition select_best g ct (fc : nat) (neighs : gset nat)
    : res (option (nat * option Z)) :=
  l ← cands g ct {[fc]} (get_shared_faces g fc) neighs;
  Ok (match filter (λ c, cd_inc c = true) l with
      | c :: l' => let r := foldl best_compact_step c l' in
                   Some (cd_id r, Some (cd_cpt r))
      | [] =>
      match (foldl argmax_step (0%Z, []) l).2 with
      | c :: l' => let r := foldl best_whole_step c l' in
                   Some (cd_id r, Some (cd_cpt r))
      | [] =>
      match (foldl argmin_step (int_max, []) l).2 with
      | c :: l' => let r := foldl min_id_step c l' in
                   Some (cd_id r, Some (cd_cpt r))
      | [] => match l with c :: _ => Some (cd_id c, None) | [] => None end
      end end end).

(** Coarse_Cell.h:101-125 [insert_cell], [insert_cells], applied to [_ccs[id]].
    A missing [id] would be a null pointer: UB. *)
Definition insert_cells g (ccs : gmap nat ccell) (id : nat) (fcs : gset nat)
    (cpt : option Z) : res (gmap nat ccell) :=
  match ccs !! id with
  | None => Err EUB
  | Some cc =>
      let s := fcs ∪ cc_fcs cc in
      c ← match cpt with Some c => Ok c | None => min_compactness g s end;
      Ok (<[id := CCell s (cc_card cc + Z.of_nat (size fcs)) c (cc_iso cc)]> ccs)
  end.

(** [_fc_2_cc[i] = id] for the cells of a list. *)
Definition set_ids (v : list (option nat)) (id : nat) (l : list nat)
    : res (list (option nat)) :=
  foldM (λ v i, vset v i (Some id)) l v.

Definition set_ccs_ids ct ccs f : container :=
  Cont ccs (ct_n ct) f (ct_aggl ct) (ct_thresh ct) (ct_nagg ct) (ct_delayed ct)
    (ct_sing ct).

(** Coarse_Cell_Container.h:180-201: agglomerate the whole cell.  Returns
    [should_remove] and the new container. *)
Definition correct_whole g ct (fcs : gset nat) (nb : gmap nat (gset nat))
    : res (bool * container) :=
  let glob := map_fold (λ _ s acc, s ∪ acc) ∅ nb in
  if bool_decide (glob = ∅) then Ok (false, ct) else
  o ← select_best_whole g ct fcs glob;
  match o with
  | None => Ok (false, ct)
  | Some (id, cpt) =>
      f ← set_ids (ct_fc2cc ct) id (hset s_corr_fcs fcs);
      ccs ← insert_cells g (ct_ccs ct) id fcs cpt;
      Ok (true, set_ccs_ids ct ccs f)
  end.

(** Coarse_Cell_Container.h:205-220: agglomerate fine cell by fine cell. *)
Definition correct_cells g ct (nb : gmap nat (gset nat)) (l : list nat)
    : res (bool * container) :=
  foldM (λ '(rm, ct) i,
    s ← mapat nb i;
    if bool_decide (s = ∅) then Ok (rm, ct) else
    o ← select_best g ct i s;
    match o with
    | None => Ok (rm, ct)
    | Some (id, cpt) =>
        f ← vset (ct_fc2cc ct) i (Some id);
        ccs ← insert_cells g (ct_ccs ct) id {[i]} cpt;
        Ok (true, set_ccs_ids ct ccs f)
    end) l (false, ct).

(** Coarse_Cell_Container.h:167-228: the body of the loop over the singular
    coarse cells; [rem] is [removed_cc]. *)
Definition correct_step g ct (rem : gset nat) (old : nat)
    : res (gset nat * container) :=
  cur ← mapat (ct_ccs ct) old;
  if bool_decide (cc_card cur <= ct_thresh ct)%Z then
    let fcs := cc_fcs cur in
    nb ← foldM (λ m i, s ← get_neighs_cc g ct i old; Ok (<[i := s]> m))
           (hset s_corr_fcs fcs) ∅;
    w ← (if bool_decide (1 < cc_card cur)%Z then correct_whole g ct fcs nb
         else Ok (false, ct));
    r ← (if w.1 : bool then Ok w else correct_cells g w.2 nb (hkeys s_corr_by_fc nb));
    let ct := r.2 in
    if r.1 : bool then
      Ok ({[old]} ∪ rem, set_ccs_ids ct (delete old (ct_ccs ct)) (ct_fc2cc ct))
    else Ok (rem, ct)
  else Ok (rem, ct).

(** Coarse_Cell_Container.h:242-253: renumbering.  [keys] are the identifiers
    from the starting one on, in ascending order.  Simplification: the iterator
    to a node which has been extracted and re-inserted is assumed to be still
    valid and to designate that node (formally this is not guaranteed by the
    standard; it holds for the tree-based implementations), so that [++it_cc]
    moves on to the next identifier: re-insertion never changes the rank of a
    node, because the new identifier is not above the old one and larger than
    the one given to the previous node.
    Inserting a node whose key is present destroys it. *)
Fixpoint renumber (keys : list nat) (new_id : nat) (ccs : gmap nat ccell)
    (f : list (option nat)) : res (gmap nat ccell * list (option nat)) :=
  match keys with
  | [] => Ok (ccs, f)
  | k :: keys =>
      cc ← mapat ccs k;
      f ← set_ids f new_id (hset s_corr_fcs (cc_fcs cc));
      let ccs := delete k ccs in
      let ccs := match ccs !! new_id with
                 | None => <[new_id := cc]> ccs
                 | Some _ => ccs
                 end in
      renumber keys (S new_id) ccs f
  end.

(** Coarse_Cell_Container.h:230-254.  If the identifier before the first
    removed one does not exist, the code increments the end iterator: UB. *)
Definition correct_renumber ct (rem : gset nat) : res container :=
  match sset rem with
  | [] => Ok ct
  | first :: _ =>
      start ← (if bool_decide (0 < first) then
                 match ct_ccs ct !! (first - 1) with
                 | Some _ => Ok first
                 | None => Err EUB
                 end
               else Ok 0);
      let keys := filter (λ k, start ≤ k) (skeys (ct_ccs ct)) in
      r ← renumber keys first (ct_ccs ct) (ct_fc2cc ct);
      Ok (set_ccs_ids ct r.1 r.2)
  end.

(** Coarse_Cell_Container.h:164-255 [correct].  Its argument [max_card] is only
    passed to functions which ignore it. *)
Definition correct g ct : res container :=
  r ← foldM (λ '(rem, ct) old, correct_step g ct rem old) (ct_sing ct) (∅, ct);
  correct_renumber r.2 r.1.

End container.
