(** * UtilM: the stand-alone tools of include/CoMMA/Util.h:300-511 *)

From Verif Require Export Container.

(** ** [filter_cells_by_n_edges], Util.h:311-337

    The unsigned subtraction of the indices, the addition of the number of
    boundary faces and the final cast are exact integer operations here: the
    C++ wraps around only if [indices] decreases or the sum leaves the range
    of the integer type. *)
Definition filter_cells (idx : list nat) (bnd : list Z) (allowed : list Z)
    : res (list nat) :=
  let target := filter (λ n, 0 < n)%Z allowed in
  match target with
  | [] => Ok []
  | _ =>
      foldM (λ acc c,
        a ← vget idx (S c);
        b ← vget idx c;
        n ← vget bnd c;
        Ok (if bool_decide ((Z.of_nat a - Z.of_nat b + n)%Z ∈ allowed)
            then acc ++ [c] else acc)) (seq 0 (length bnd)) []
  end.

(** ** [compute_neighbourhood_based_wall_distance], Util.h:361-399 *)

(** One neighbour (Util.h:390-396). *)
Definition wd_visit (cur : Z) (st : list Z * list nat) (n : nat)
    : res (list Z * list nat) :=
  let '(dist, q) := st in
  d ← vget dist n;
  if bool_decide (d < 0)%Z then
    dist ← vset dist n cur; Ok (dist, q ++ [n])
  else if bool_decide (cur < d)%Z then
    dist ← vset dist n cur; Ok (dist, q)
  else Ok (dist, q).

(** The range of neighbours is compared with [<]: an inverted range is empty. *)
Definition wd_nbrs (idx col : list nat) (c : nat) : res (list nat) :=
  a ← vget idx c;
  b ← vget idx (S c);
  if bool_decide (b < a) then
    if bool_decide (a ≤ length col) then Ok [] else Err EUB
  else vrange col a b.

(** The [while] loop.  A cell is queued once per occurrence in [wall] plus at
    most once, hence the fuel. *)
Fixpoint wd_loop (fuel : nat) (idx col : list nat) (dist : list Z) (q : list nat)
    : res (list Z) :=
  match q with
  | [] => Ok dist
  | c :: q =>
      match fuel with
      | O => Err EFuel
      | S fuel =>
          d ← vget dist c;
          l ← wd_nbrs idx col c;
          r ← foldM (wd_visit (d + 1)%Z) l (dist, q);
          wd_loop fuel idx col r.1 r.2
      end
  end.

(** [dist0] is what the output vector holds before the call: it is resized
    and filled (Util.h:372-373).  An empty [neigh_idxs] asks for a vector of
    [size_t(-1)] elements: not modelled, counted as UB ([std::length_error] in
    practice). *)
Definition wall_distance (idx col wall : list nat) (dist0 : list Z) : res (list Z) :=
  match idx with
  | [] => Err EUB
  | _ :: l =>
      let n := length l in
      dist ← foldM (λ d c, vset d c 0%Z) wall (map (λ _, (-1)%Z) (resize n 0%Z dist0));
      wd_loop (n + length wall) idx col dist wall
  end.

(** ** [build_coarse_graph], Util.h:424-511 *)

(** [std::numeric_limits<CoMMAIntT>::min()] *)
Definition int_min := (-2147483648)%Z.

Section coarse.
Context {A : Arith}.

(** The outputs. *)
Record cgraph := CGraph {
  cg_idx : list nat;
  cg_adj : list nat;
  cg_wgt : list W;
  cg_vol : list W;
  cg_cen : list (list W);
  cg_prio : list W;
  cg_bnd : list Z;
}.

(** The fine graph, as given to the function. *)
Record fgraph := FGraph {
  fg_idx : list nat;
  fg_adj : list nat;
  fg_wgt : list W;
  fg_vol : list W;
  fg_cen : list (list W);
  fg_prio : list W;
  fg_bnd : list Z;
}.

(** First loop, Util.h:467-476: coarse to fine map, volumes, centres. *)
Definition cg_step1 (f : fgraph) (dim : nat)
    (st : list (gset nat) * list W * list (list W)) (fc_cc : nat * nat)
    : res (list (gset nat) * list W * list (list W)) :=
  let '(c2f, vol, cen) := st in
  let '(fc, cc) := fc_cc in
  s ← vget c2f cc;
  c2f ← vset c2f cc ({[fc]} ∪ s);
  v ← vget vol cc;
  fv ← vget (fg_vol f) fc;
  vol ← vset vol cc (wadd v fv);
  x ← vget cen cc;
  x ← (if bool_decide (dim = 0) then Ok x else
       fx ← vget (fg_cen f) fc;
       foldM (λ x k, a ← vget x k; b ← vget fx k;
                     vset x k (wadd a (wmul fv b))) (seq 0 dim) x);
  cen ← vset cen cc x;
  Ok (c2f, vol, cen).

(** The weight looked up for a face with fine cell [n]: Util.h:497 reads
    [f_weights[*fc_neigh]], that is, the weight vector at position [n]. *)
Definition cg_neigh (f : fgraph) (f2c : list nat) (fcs : gset nat)
    (m : gmap nat W) (n : nat) : res (gmap nat W) :=
  if bool_decide (n ∈ fcs) then Ok m else
  cn ← vget f2c n;
  w ← vget (fg_wgt f) n;
  Ok (<[cn := wadd (default w0 (m !! cn)) w]> m).

(** One fine cell of the second loop, Util.h:485-500. *)
Definition cg_cell (f : fgraph) (f2c : list nat) (fcs : gset nat)
    (st : Z * W * gmap nat W) (fc : nat) : res (Z * W * gmap nat W) :=
  let '(bnd, prio, m) := st in
  b ← vget (fg_bnd f) fc;
  p ← vget (fg_prio f) fc;
  a ← vget (fg_idx f) fc;
  z ← vget (fg_idx f) (S fc);
  l ← vrange (fg_adj f) a z;
  m ← foldM (cg_neigh f f2c fcs) l m;
  Ok (if bool_decide (bnd < b)%Z then b else bnd,
      if wlt prio p then p else prio, m).

(** One coarse cell of the second loop, Util.h:477-509. *)
Definition cg_step2 (f : fgraph) (f2c : list nat) (dim : nat)
    (c2f : list (gset nat)) (st : cgraph) (cc : nat) : res cgraph :=
  fcs ← vget c2f cc;
  let ov := wdiv w1 (wofZ (Z.of_nat (size fcs))) in
  x ← vget (cg_cen st) cc;
  cen ← vset (cg_cen st) cc (map (λ a, wmul a ov) x);
  r ← foldM (cg_cell f f2c fcs) (sset fcs) (int_min, wminv, ∅);
  let '(bnd, prio, m) := r in
  bnds ← vset (cg_bnd st) cc bnd;
  prios ← vset (cg_prio st) cc prio;
  lst ← match last (cg_idx st) with Some x => Ok x | None => Err EUB end;
  Ok (CGraph (cg_idx st ++ [lst + size m]) (cg_adj st ++ skeys m)
        (cg_wgt st ++ map (λ k, default w0 (m !! k)) (skeys m))
        (cg_vol st) cen prios bnds).

Definition list_max_elt (l : list nat) : res nat :=
  match l with [] => Err EUB | x :: l => Ok (foldl max x l) end.

Definition build_coarse_graph (f : fgraph) (f2c : list nat) : res cgraph :=
  m ← list_max_elt f2c;
  let n := S m in
  c0 ← vget (fg_cen f) 0;
  let dim := length c0 in
  r ← foldM (cg_step1 f dim) (imap (λ fc cc, (fc, cc)) f2c)
        (replicate n ∅, replicate n w0, replicate n (replicate dim w0));
  let '(c2f, vol, cen) := r in
  foldM (cg_step2 f f2c dim c2f) (seq 0 n)
    (CGraph [0] [] [] vol cen (replicate n w0) (replicate n 0%Z)).

End coarse.
