(** * ToolsM: the Python helpers of examples/scripts and misc_scripts/test_util.h

    [comma_tools.py] and [limit_line_length] of [ex_rae.py], then
    [build_coarse_CSR] of [test_util.h]. *)

From Verif Require Export UtilM.

(** ** Python *)

(** The exceptions which can be raised.  [NoFuel] is not one: the model gives
    up (never happens, C72). *)
Inductive pyerr := IndexError | ValueError | AssertionError | ZeroDivisionError | NoFuel.
Inductive pyres (T : Type) := POk (x : T) | PRaise (e : pyerr).
Arguments POk {T} x.
Arguments PRaise {T} e.

Definition pbind {T U} (r : pyres T) (k : T → pyres U) : pyres U :=
  match r with POk x => k x | PRaise e => PRaise e end.
Notation "x '<~' e ; k" := (pbind e (λ x, k)) (at level 100, e at next level, k at level 200, right associativity).

Fixpoint pfold {S T} (f : S → T → pyres S) (l : list T) (s : S) : pyres S :=
  match l with [] => POk s | x :: l => s <~ f s x; pfold f l s end.

(** Index [z] of a sequence of [n] elements: negative ones count from the end. *)
Definition pidx (n : nat) (z : Z) : option nat :=
  if bool_decide (0 <= z < Z.of_nat n)%Z then Some (Z.to_nat z)
  else if bool_decide (- Z.of_nat n <= z < 0)%Z then Some (Z.to_nat (Z.of_nat n + z)) else None.
Definition pget {T} (l : list T) (z : Z) : pyres T :=
  match pidx (length l) z ≫= λ k, l !! k with Some x => POk x | None => PRaise IndexError end.
Definition pset {T} (l : list T) (z : Z) (x : T) : pyres (list T) :=
  match pidx (length l) z with Some k => POk (<[k := x]> l) | None => PRaise IndexError end.
(** [l[a:b]]: the bounds are cut to the sequence, an inverted range is empty. *)
Definition pclip (n : nat) (z : Z) : nat :=
  Z.to_nat (if bool_decide (z < 0)%Z then Z.max 0 (Z.of_nat n + z) else Z.min z (Z.of_nat n)).
Definition pslice {T} (l : list T) (a b : Z) : list T :=
  slice l (pclip (length l) a) (pclip (length l) b).

(** ** [compute_neighbourhood_wall_distance], comma_tools.py:46-130

    The arguments are one-dimensional sequences of integers (the shape checks
    of lines 79-89 pass); the warning of lines 122-128 is not modelled. *)

(** One neighbour (lines 115-120). *)
Definition pw_visit (tag : Z) (st : list Z * list Z) (m : Z) : pyres (list Z * list Z) :=
  let '(dist, q) := st in
  d <~ pget dist m;
  if bool_decide (d < 0)%Z then dist <~ pset dist m tag; POk (dist, q ++ [m])
  else if bool_decide (tag < d)%Z then dist <~ pset dist m tag; POk (dist, q)
  else POk (dist, q).

(** The loop (lines 96-120).  [np.nditer] over an empty array raises
    [ValueError]. *)
Fixpoint pw_loop (fuel : nat) (idx col : list Z) (dist : list Z) (q : list Z) : pyres (list Z) :=
  match q with
  | [] => POk dist
  | c :: q =>
      match fuel with
      | O => PRaise NoFuel
      | S fuel =>
          d <~ pget dist c;
          a <~ pget idx c;
          b <~ pget idx (c + 1)%Z;
          match pslice col a b with
          | [] => PRaise ValueError
          | l => r <~ pfold (pw_visit (d + 1)%Z) l (dist, q); pw_loop fuel idx col r.1 r.2
          end
      end
  end.

(** Lines 91-95: no array of size -1; line 122: no minimum of nothing. *)
Definition py_wall_distance (idx col wall : list Z) : pyres (list Z) :=
  match idx with
  | [] => PRaise ValueError
  | _ :: l =>
      dist <~ pfold (λ d c, pset d c 0%Z) wall (replicate (length l) (-1)%Z);
      dist <~ pw_loop (length l + length wall) idx col dist wall;
      match dist with [] => PRaise ValueError | _ => POk dist end
  end.

(** ** [build_coarse_graph], comma_tools.py:192-293 *)

Section coarse.
Context {A : Arith}.

(** The outputs. *)
Record pgraph := PGraph {
  pg_row : list Z;
  pg_col : list Z;
  pg_val : list W;
  pg_vol : list W;
  pg_bnd : list Z;
  pg_cen : list (list W);
}.

(** [np.flatnonzero(fc2cc == cc)] (lines 260-263). *)
Definition py_fcs (f2c : list Z) (cc : Z) : list nat :=
  filter (λ x, f2c !! x = Some cc) (seq 0 (length f2c)).

(** [l[mask_fc]], the mask having the size of [fc2cc]. *)
Definition py_mask {T} (f2c : list Z) (l : list T) (cc : Z) : pyres (list T) :=
  if bool_decide (length l = length f2c) then POk (omap (λ x, l !! x) (py_fcs f2c cc)) else PRaise IndexError.

(** [np.sum]: from left to right, from zero.  Numpy changes the order for eight
    terms or more: not modelled. *)
Definition py_sum (l : list W) : W := foldl wadd w0 l.

(** [np.average(cens, axis=0, weights=vols)] (lines 267-269). *)
Definition py_average (dim : nat) (cens : list (list W)) (vols : list W) : pyres (list W) :=
  let s := py_sum vols in
  if weq s w0 then PRaise ZeroDivisionError else
  POk (map (λ k, wdiv (py_sum (omap (λ cv, x ← cv.1 !! k; Some (wmul x cv.2)) (zip cens vols))) s) (seq 0 dim)).

(** A dictionary: its items in the order of insertion.  [d[k] = d.get(k, 0.0) + w]
    (lines 280-282). *)
Fixpoint py_add (k : Z) (w : W) (d : list (Z * W)) : list (Z * W) :=
  match d with
  | [] => [(k, wadd w0 w)]
  | (k', v) :: d => if bool_decide (k = k') then (k', wadd v w) :: d else (k', v) :: py_add k w d
  end.

(** One neighbour (lines 274-282): the weight read is [CSR_val[neigh_fc]]. *)
Definition py_neigh (f2c : list Z) (val : list W) (fcs : list nat) (d : list (Z * W)) (m : Z) : pyres (list (Z * W)) :=
  if bool_decide (m ∈ Z.of_nat <$> fcs) then POk d else
  cn <~ pget f2c m;
  w <~ pget val m;
  POk (py_add cn w d).

(** One fine cell (lines 271-282). *)
Definition py_cell (f2c row col : list Z) (val : list W) (fcs : list nat) (d : list (Z * W)) (fc : nat) : pyres (list (Z * W)) :=
  a <~ pget row (Z.of_nat fc);
  b <~ pget row (Z.of_nat fc + 1)%Z;
  pfold (py_neigh f2c val fcs) (pslice col a b) d.

(** One coarse cell (lines 259-285).  The boundary count is [np.max] of a
    non-empty selection. *)
Definition py_coarse (f2c row col : list Z) (val vol : list W) (bnd : list Z) (cen : list (list W)) (dim : nat)
    (g : pgraph) (cc : nat) : pyres pgraph :=
  let fcs := py_fcs f2c (Z.of_nat cc) in
  if bool_decide (fcs = []) then PRaise AssertionError else
  bs <~ py_mask f2c bnd (Z.of_nat cc);
  vs <~ py_mask f2c vol (Z.of_nat cc);
  cs <~ py_mask f2c cen (Z.of_nat cc);
  x <~ py_average dim cs vs;
  d <~ pfold (py_cell f2c row col val fcs) fcs [];
  POk (PGraph (pg_row g ++ [(default 0 (last (pg_row g)) + Z.of_nat (length d))%Z]) (pg_col g ++ d.*1) (pg_val g ++ d.*2)
         (pg_vol g ++ [py_sum vs]) (pg_bnd g ++ [foldl Z.max (default 0%Z (head bs)) bs]) (pg_cen g ++ [x])).

(** [centers] is a list of rows; rows of different lengths are no array.  No
    maximum of nothing (line 252), no array of negative size (line 253). *)
Definition py_build_coarse (f2c row col : list Z) (val vol : list W) (bnd : list Z) (cen : list (list W)) : pyres pgraph :=
  let dim := default 0 (length <$> head cen) in
  if bool_decide (Forall (λ c, length c = dim) cen) then
    match f2c with
    | [] => PRaise ValueError
    | x :: l =>
        let nb := (foldl Z.max x l + 1)%Z in
        if bool_decide (nb < 0)%Z then PRaise ValueError else
        pfold (py_coarse f2c row col val vol bnd cen dim) (seq 0 (Z.to_nat nb)) (PGraph [0%Z] [] [] [] [] [])
    end
  else PRaise ValueError.

End coarse.

(** ** Lines and data for drawing *)

(** [prepare_meshio_celldata], comma_tools.py:296-313; [sizes] are the numbers
    of cells of the blocks. *)
Fixpoint py_split {T} (data : list T) (start : nat) (sizes : list nat) : list (list T) :=
  match sizes with [] => [] | n :: sizes => slice data start (start + n) :: py_split data (start + n) sizes end.
Definition py_celldata {T} (data : list T) (sizes : list nat) : list (list T) :=
  if bool_decide (length sizes < 2) then [data] else py_split data 0 sizes.

(** [prepare_meshio_agglomeration_data], comma_tools.py:316-348: the data for
    drawing and what the caller's [data] holds afterwards.  [array] tells whether
    [data] is a numpy array of integers, which [np.asarray] does not copy;
    [perm] is the shuffled [np.arange(n_cells)] if [shuffle].  The indices
    are not negative. *)
Definition py_aggl_data (array : bool) (data : list Z) (sizes : list nat) (modulo : option Z) (perm : option (list Z))
    : pyres (list (list Z) * list Z) :=
  d <~ match perm with
       | None => POk data
       | Some p => match data with [] => PRaise ValueError | _ => pfold (λ acc x, y <~ pget p x; POk (acc ++ [y])) data [] end
       end;
  let d := match modulo with Some m => if bool_decide (1 < m)%Z then map (λ x, (x mod m)%Z) d else d | None => d end in
  POk (py_celldata d sizes, if array then d else data).

(** [assign_anisotropic_line_data_to_cells], comma_tools.py:351-396; [perm] is
    the shuffled [np.arange(n_lines)] if [shuffle]; [len(idxs) - 1 < 0] gives no
    lines. *)
Definition py_line_ids (n : nat) (deflt : Z) (modulo : option Z) (perm : option (list Z)) : list Z :=
  let l := match perm with Some p => p | None => Z.of_nat <$> seq 0 n end in
  let l := match modulo with Some m => if bool_decide (1 < m)%Z then map (λ x, (x mod m)%Z) l else l | None => l end in
  if bool_decide (deflt = 0)%Z then map (λ x, (x + 1)%Z) l
  else if bool_decide (0 < deflt)%Z then map Z.opp l else l.
Definition py_line_data (idxs cells f2c : list Z) (deflt : Z) (modulo : option Z) (perm : option (list Z)) : pyres (list Z) :=
  let n := length idxs - 1 in
  let ids := py_line_ids n deflt modulo perm in
  pfold (λ ret ln,
    a <~ pget idxs (Z.of_nat ln);
    b <~ pget idxs (Z.of_nat ln + 1)%Z;
    v <~ pget ids (Z.of_nat ln);
    POk (zip_with (λ c r, if bool_decide (c ∈ pslice cells a b) then v else r) f2c ret))
    (seq 0 n) (replicate (length f2c) deflt).

(** [limit_line_length], ex_rae.py:38-49. *)
Definition py_limit_lines {T} (idxs : list Z) (cells : list T) (mx : Z) : pyres (list Z * list T) :=
  r <~ pfold (λ st ln,
    let '(cur, ri, rc) := st in
    b <~ pget idxs (Z.of_nat ln + 1)%Z;
    a <~ pget idxs (Z.of_nat ln);
    let m := Z.min mx (b - a) in
    POk ((cur + m)%Z, ri ++ [(cur + m)%Z], rc ++ pslice cells a (a + m)))
    (seq 0 (length idxs - 1)) (0%Z, [0%Z], []);
  POk (r.1.2, r.2).

(** ** Several levels in the scripts *)

(** The update of [fc_to_cur_lvl], ex_several_agglo_levels.py:239-240 and
    ex_rae.py:290-291. *)
Definition py_update (f2c cur : list Z) : pyres (list Z) :=
  pfold (λ acc x, y <~ pget f2c x; POk (acc ++ [y])) cur [].
(** All of them, from [list(range(nb_fc))] (line 177, ex_rae.py:213). *)
Definition py_updates (n : nat) (maps : list (list Z)) : pyres (list Z) :=
  pfold (λ cur f, py_update f cur) maps (Z.of_nat <$> seq 0 n).

(** The priorities [np.arange(start=n - 1, stop=0, step=-1)] given to the
    library, ex_several_agglo_levels.py:164 and 201, ex_aniso_lines.py:173,
    ex_default_dualGPy.py:160, ex_read_mesh.py:169, ex_rae.py:242. *)
Definition py_weights {A : Arith} (n : nat) : list W := map (λ k, wofZ (Z.of_nat k)) (reverse (seq 1 (n - 1))).

(** ** [build_coarse_CSR], misc_scripts/test_util.h:186-255 *)

Section csr.
Context {A : Arith}.

(** The coarse cells, a map of sets (lines 208-213). *)
Definition tu_sets (f2c : list nat) : gmap nat (gset nat) :=
  foldl (λ m xc, <[xc.2 := {[xc.1]} ∪ default ∅ (m !! xc.2)]> m) ∅ (imap pair f2c).

(** One face (lines 234-241). *)
Definition tu_face (f2c : list nat) (fcs : gset nat) (m : gmap nat W) (nw : nat * W) : res (gmap nat W) :=
  if bool_decide (nw.1 ∈ fcs) then Ok m else
  cn ← vget f2c nw.1;
  Ok (<[cn := wadd (default w0 (m !! cn)) nw.2]> m).

(** One fine cell (lines 226-242). *)
Definition tu_cell (f : fgraph) (f2c : list nat) (dim : nat) (fcs : gset nat)
    (st : W * list W * Z * gmap nat W) (fc : nat) : res (W * list W * Z * gmap nat W) :=
  let '(vol, cen, bnd, m) := st in
  v ← vget (fg_vol f) fc;
  b ← vget (fg_bnd f) fc;
  cen ← (if bool_decide (dim = 0) then Ok cen else
         fx ← vget (fg_cen f) fc;
         foldM (λ x k, a ← vget x k; b ← vget fx k; vset x k (wadd a b)) (seq 0 dim) cen);
  a ← vget (fg_idx f) fc;
  z ← vget (fg_idx f) (S fc);
  l ← vrange (fg_adj f) a z;
  w ← vrange (fg_wgt f) a z;
  m ← foldM (tu_face f2c fcs) (zip l w) m;
  Ok (wadd vol v, cen, if bool_decide (bnd < b)%Z then b else bnd, m).

(** One coarse cell (lines 221-253). *)
Definition tu_coarse (f : fgraph) (f2c : list nat) (dim : nat) (sets : gmap nat (gset nat)) (g : cgraph) (cc : nat) : res cgraph :=
  let fcs := default ∅ (sets !! cc) in
  r ← foldM (tu_cell f f2c dim fcs) (sset fcs) (w0, replicate dim w0, 0%Z, ∅);
  let '(vol, cen, bnd, m) := r in
  p ← vget (cg_idx g) cc;
  idx ← vset (cg_idx g) (S cc) (p + size m);
  vols ← vset (cg_vol g) cc vol;
  bnds ← vset (cg_bnd g) cc bnd;
  cens ← vset (cg_cen g) cc (map (λ a, wdiv a (wofZ (Z.of_nat (size fcs)))) cen);
  Ok (CGraph idx (cg_adj g ++ skeys m) (cg_wgt g ++ map (λ k, default w0 (m !! k)) (skeys m)) vols cens (cg_prio g) bnds).

(** The outputs hold [g0] before: all but [coarse_CSR_col] and [coarse_CSR_val]
    are resized (lines 204-220). *)
Definition tu_build (f : fgraph) (f2c : list nat) (g0 : cgraph) : res cgraph :=
  c0 ← vget (fg_cen f) 0;
  let dim := length c0 in
  let sets := tu_sets f2c in
  let n := S (foldl max 0 f2c) in
  foldM (tu_coarse f f2c dim sets) (skeys sets)
    (CGraph (<[0 := 0]> (resize (S n) 0 (cg_idx g0))) (cg_adj g0) (cg_wgt g0) (resize n w0 (cg_vol g0))
       (resize n [] (cg_cen g0)) (cg_prio g0) (resize n 0%Z (cg_bnd g0))).

End csr.
