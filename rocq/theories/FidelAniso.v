(** * FidelAniso: the model on the tests of the anisotropic agglomeration and of
    the main function

    tests/test_anisoagglo.cpp, tests/test_structure.cpp.  Tests of the model, not
    proofs of properties. *)

From Coq Require Import Floats Uint63.
From Verif Require Import Main Double Fidelity FidelMesh FidelPool FidelAR.

Set Warnings "-inexact-float".
#[local] Open Scope Z_scope.
#[local] Open Scope nat_scope.
#[local] Existing Instance float_arith.
#[local] Existing Instance Fidelity.ord_id.

(** An anisotropic agglomerator by hand, its isotropic successor with goal
    cardinality [card]: lines, numbers after the anisotropic part, next seed,
    exported lines, numbers at the end. *)
Definition ap0 : aniso_params := AnisoP true None false true.
Definition shape (ap : aniso_params) (i : input) (prio : list W) (build : bool) (thr : float)
    (idx cells : list nat) : res (list (list nat)) :=
  lines_of build ap (graph_of i) prio thr idx cells.
Definition by_lines (ap : aniso_params) (i : input) (prio : list W) (build : bool) (thr : float)
    (idx cells : list nat) : res (container * pool * list (list nat)) :=
  l ← shape ap i prio build thr idx cells;
  aniso_agglomerate ap (graph_of i) prio l (cont_new (length (in_bnd i)) 1) (pool_new true false).
Definition with_compl (i : input) (l : list nat) : input :=
  Input _ (in_row i) (in_col i) (in_val i) (in_vol i) (in_cen i) (in_prio i)
    l (in_bnd i) (in_build i) (in_aniso i) (in_odd i) (in_thr i) (in_order i)
    (in_corr i) (in_dim i) (in_goal i) (in_min i) (in_max i) (in_ar i) (in_sing i)
    (in_maxline i) (in_coupling i) (in_force i) (in_iter i) (in_nbh i).

(** tests/test_anisoagglo.cpp:46-91: there are lines. *)
Example aniso_some : match shape ap0 aniso (in_prio aniso) true 2 [] [] with
  | Ok (_ :: _) => true | _ => false end = true.
Proof. vm_compute. reflexivity. Qed.

(** tests/test_anisoagglo.cpp:93-301: no compliant cell, a threshold which is too
    high, lines of one cell, one compliant cell: no line, and nothing happens. *)
Definition nothing (i : input) (build : bool) (thr : float) (idx cells : list nat) : bool :=
  match shape ap0 i (in_prio i) build thr idx cells, by_lines ap0 i (in_prio i) build thr idx cells with
  | Ok [], Ok (ct, _, out) =>
      bool_decide (ct_aggl ct = replicate (length (in_bnd i)) false)
      && bool_decide (export_lines out = ([], []))
  | _, _ => false
  end.
Example aniso_none :
  nothing (with_compl aniso []) true (-2) [] [] = true ∧
  nothing aniso true 10000 [] [] = true ∧
  nothing aniso false 10000 [0; 1; 2] [1; 2] = true ∧
  nothing (with_compl aniso [0]) true (-2) [] [] = true.
Proof. vm_compute. auto. Qed.

(** tests/test_anisoagglo.cpp:303-349: four lines given, one has one cell. *)
Example aniso_three :
  value (l ← shape ap0 aniso_3cell (in_prio aniso_3cell) false (-2) [0; 1; 6; 11; 16]
               [0; 11; 10; 9; 8; 7; 16; 14; 12; 13; 15; 20; 22; 23; 21; 19]; Ok (length l)) = Some 3.
Proof. vm_compute. reflexivity. Qed.

(** The cells of [l] are alone together. *)
Definition together (f : list nat) (l : list nat) : bool :=
  match l with [] => false | c :: _ =>
    bool_decide (filter (λ x, f !! x = f !! c) (seq 0 (length f)) = merge_sort (≤) l) end.
Definition all_together (f : list nat) (ls : list (list nat)) : bool := forallb (together f) ls.
Definition numbered (f : list nat) (l : list (nat * nat)) : bool :=
  forallb (λ p, bool_decide (f !! p.1 = Some p.2)) l.

(** After the lines: the pool is not empty, needs no initialization and gives
    this seed.  At the end: the numbers. *)
Definition then_iso (ap : aniso_params) (i : input) (bp : bool) (prio : list W) (build : bool) (thr : float)
    (idx cells : list nat) : option (bool * bool * option nat * list nat) :=
  let g := graph_of i in
  value (l ← shape ap i prio build thr idx cells;
         r ← aniso_agglomerate ap g prio l (cont_new (length (in_bnd i)) 1) (pool_new bp false);
         let '(ct, p, _) := r in
         ni ← need_initialization (in_bnd i) (ct_aggl ct) p;
         s ← choose_new_seed prio (in_bnd i) (ct_aggl ct) p;
         ip ← iso_params_of i;
         ct ← iso_agglomerate ip g prio false ct p;
         f ← match mapM id (ct_fc2cc ct) with Some f => Ok f | None => Err EBadOptional end;
         Ok (pool_is_empty p, ni.1, s.1, f)).
Definition judged (r : option (bool * bool * option nat * list nat)) (seed : nat)
    (ts : list (list nat)) (ns : list (nat * nat)) : bool :=
  match r with
  | Some (e, ni, s, f) =>
      negb e && negb ni && bool_decide (s = Some seed) && all_together f ts && numbered f ns
  | None => false
  end.

(** tests/test_anisoagglo.cpp:353-453. *)
Definition sets_3 := [[5; 6; 24; 25]; [17; 18; 27; 26]; [0; 1]; [11; 10]; [16; 14]; [20; 22];
                      [2; 3; 4]; [9; 8; 7]; [12; 13; 15]; [23; 21; 19]].
Definition nums_3 := [(0, 0); (2, 1); (9, 3); (11, 2); (13, 5); (16, 4); (20, 6); (23, 7)].
Example aniso_boundary :
  judged (then_iso ap0 aniso_3cell true (in_prio aniso_3cell) true 4 [] []) 24 sets_3 nums_3 = true.
Proof. vm_compute. reflexivity. Qed.

(** tests/test_anisoagglo.cpp:455-553: no odd line. *)
Example aniso_even :
  judged (then_iso (AnisoP false None false true) aniso_3cell true (in_prio aniso_3cell) true 4 [] []) 24
    [[5; 6; 24; 25]; [17; 18; 27; 26]; [4; 7; 15; 19]; [0; 1]; [2; 3]; [9; 8]; [11; 10]; [12; 13];
     [16; 14]; [20; 22]; [23; 21]]
    [(0, 0); (2, 1); (4, 10); (9, 3); (11, 2); (13, 5); (16, 4); (20, 6); (23, 7); (24, 8); (27, 9)]
  = true.
Proof. vm_compute. reflexivity. Qed.

(** tests/test_anisoagglo.cpp:555-685: the two upper layers stretched, every cell
    anisotropic. *)
Definition stretch (l : list nat) (dy : float) (i : input) : input :=
  let val := foldl (λ (v : list float) c,
    let a := default 0 (in_row i !! c) in let b := default 0 (in_row i !! S c) in
    foldl (λ (v : list float) k, if bool_decide (default 0 (in_col i !! k) ∈ l)
                  then alter (λ x : float, x + 0.5)%float k v else v) v (seq a (b - a)))
    (in_val i) l in
  let cen := foldl (λ (v : list (list float)) c, alter (λ p : list float, alter (λ y : float, y + dy)%float 1 p) c v) (in_cen i) l in
  Input _ (in_row i) (in_col i) val (in_vol i) cen (in_prio i)
    (in_compl i) (in_bnd i) (in_build i) (in_aniso i) (in_odd i) (in_thr i) (in_order i)
    (in_corr i) (in_dim i) (in_goal i) (in_min i) (in_max i) (in_ar i) (in_sing i)
    (in_maxline i) (in_coupling i) (in_force i) (in_iter i) (in_nbh i).
Definition stretched : input :=
  stretch [24; 25; 26; 27] 1 (stretch [5; 6; 17; 18] 0.5 aniso_3cell).
Definition bottom_first : list float :=
  foldl (λ p c, <[c := 29%float]> p) (in_prio aniso_3cell) [0; 11; 16; 20].
Example aniso_stretched :
  match by_lines ap0 stretched bottom_first true (-4) [] [] with
  | Ok (ct, _, _) =>
      match mapM id (ct_fc2cc ct) with
      | Some f =>
          bool_decide (ct_aggl ct = replicate 28 true)
          && all_together f [[0; 1]; [2; 3]; [9; 8]; [11; 10]; [12; 13]; [16; 14]; [20; 22]; [23; 21];
                             [4; 5; 24]; [7; 6; 25]; [15; 17; 26]; [19; 18; 27]]
          && numbered f [(0, 0); (2, 1); (4, 2); (11, 3); (9, 4); (7, 5); (16, 6); (12, 7); (15, 8);
                         (20, 9); (21, 10); (19, 11)]
      | None => false
      end
  | Err _ => false
  end = true.
Proof. vm_compute. reflexivity. Qed.

(** tests/test_anisoagglo.cpp:687-792: priorities growing with the number and a
    neighbourhood pool. *)
Example aniso_neighbourhood :
  judged (then_iso ap0 aniso_3cell false (map (λ k, fofZ (Z.of_nat k)) (seq 0 28)) true 4 [] []) 18 sets_3
    [(0, 6); (2, 7); (9, 5); (11, 4); (13, 3); (16, 2); (20, 0); (23, 1)] = true.
Proof. vm_compute. reflexivity. Qed.

(** tests/test_anisoagglo.cpp:794-906: the lines are given. *)
Definition given_3 := [0; 1; 2; 3; 4; 11; 10; 9; 8; 7; 16; 14; 12; 13; 15; 20; 22; 23; 21; 19].
Example aniso_restart :
  judged (then_iso ap0 aniso_3cell true (in_prio aniso_3cell) false 2 [0; 5; 10; 15; 20] given_3) 24
    sets_3 nums_3 = true ∧
  value (shape ap0 aniso_3cell (in_prio aniso_3cell) false 2 [0; 5; 10; 15; 20] given_3)
  = Some [[0; 1; 2; 3; 4]; [11; 10; 9; 8; 7]; [16; 14; 12; 13; 15]; [20; 22; 23; 21; 19]].
Proof. vm_compute. auto. Qed.

(** tests/test_anisoagglo.cpp:912-1034: the main function, without limit and with
    lines of at most three cells. *)
Definition with_line (i : input) (m : option Z) : input :=
  Input _ (in_row i) (in_col i) (in_val i) (in_vol i) (in_cen i) (in_prio i)
    (in_compl i) (in_bnd i) (in_build i) (in_aniso i) (in_odd i) (in_thr i) 1
    (in_corr i) (in_dim i) (in_goal i) (in_min i) (in_max i) (in_ar i) (in_sing i)
    m (in_coupling i) (in_force i) (in_iter i) (in_nbh i).
Example aniso_main :
  match run (with_line (with_aniso aniso_3cell 4) None) with
  | Some f => all_together f sets_3 && numbered f nums_3 | None => false end = true.
Proof. vm_compute. reflexivity. Qed.
Example aniso_main_limit :
  match run (with_line (with_aniso aniso_3cell 4) (Some 3%Z)) with
  | Some f =>
      all_together f [[5; 6; 24; 25]; [17; 18; 27; 26]; [3; 4; 7; 8]; [13; 15; 19; 21];
                      [0; 1; 2]; [11; 10; 9]; [16; 14; 12]; [20; 22; 23]]
      && numbered f [(0, 0); (11, 1); (16, 2); (20, 3)]
  | None => false end = true.
Proof. vm_compute. reflexivity. Qed.

(** tests/test_anisoagglo.cpp:1040-1132: triangles; the direction forced or not
    (the test requires the lines and the cells grouped, not their numbers). *)
Definition numbers (force : bool) : option (list nat * list nat * list (option nat)) :=
  value (r ← by_lines (AnisoP true None false force) tria_bl (in_prio tria_bl) true (-2) [] [];
         let '(ct, _, out) := r in Ok (export_lines out, ct_fc2cc ct)).
Example aniso_direction :
  numbers true = Some ([0; 2; 3], [0; 1; 2], map Some [0; 0] ++ [None] ++ map Some [1; 2; 2; 1; 2]).
Proof. vm_compute. reflexivity. Qed.
Example aniso_no_direction :
  numbers false = Some ([0; 2; 4], [0; 1; 2; 3], map Some [1; 1; 2; 2; 0; 0; 3; 3]).
Proof. vm_compute. reflexivity. Qed.

(** tests/test_anisoagglo.cpp:1137-1294: the tagging, by weights and by
    distances, with a negative threshold and with one. *)
Definition tagged (mindist : bool) (thr : float) : option (list W * list W) :=
  value (t ← tag_anisotropic_cells (AnisoP true None mindist true) (graph_of tria_bl) (in_prio tria_bl) thr;
         let '(alt, mw, _, _) := t in Ok (alt, mw)).
Definition sqrt101 := PrimFloat.sqrt 101.
Definition same_block := (let x := 10 / 3 in let y := 1 / 3 in 1 / (x * x + y * y))%float.
Definition side_block := (let x := 2 * (10 / 3) in let y := 1 / 3 in 1 / (x * x + y * y))%float.
Definition vert_block := (let x := 10 / 3 in let y := 2 * (1 / 3) in 1 / (x * x + y * y))%float.
Definition tags_ok (mindist : bool) (thr : float) (alt mw : list float) : bool :=
  match tagged mindist thr with Some (a, m) => nearl a alt && nearl m mw | None => false end.
Definition alt_ref :=
  [same_block; side_block; same_block; vert_block; same_block; side_block; same_block; vert_block;
   vert_block; same_block; side_block; same_block; vert_block; same_block; side_block; same_block].
Example aniso_tags :
  tags_ok false (-1) [] (replicate 8 sqrt101) = true ∧
  tags_ok false 2 [] (replicate 8 sqrt101) = true ∧
  tags_ok true (-1) alt_ref (replicate 8 same_block) = true ∧
  tags_ok true 2 alt_ref (replicate 8 same_block) = true.
Proof. vm_compute. auto. Qed.

(** ** tests/test_structure.cpp *)

(** tests/test_structure.cpp:28-117: the cardinalities of the agglomerator, once
    set (the model leaves out [_threshold_card], which nothing reads). *)
Example structure_cards :
  value (ip ← iso_params_of (with_iso mixed 2 0 1 0); Ok (ip_goal ip, ip_max ip, ip_min ip))
  = Some (2, 2, 2)%Z.
Proof. vm_compute. reflexivity. Qed.

(** tests/test_structure.cpp:383-505: the calls which must throw. *)
Definition bad (row col : list nat) (val : list W) (build : bool) (dim goal mn sing iter : Z) : input :=
  let i := with_aniso aniso_3cell 4 in
  Input _ row col val (in_vol i) (in_cen i) (in_prio i)
    (in_compl i) (in_bnd i) build (in_aniso i) (in_odd i) (in_thr i) 1
    (in_corr i) dim goal mn 4 (in_ar i) sing
    (in_maxline i) (in_coupling i) (in_force i) iter (in_nbh i).
Definition throws (i : input) (idx cells : list nat) : option chk :=
  match agglomerate_one_level i (Outs (replicate 28 0) idx cells) with
  | (_, Err (EInvalid k)) => Some k
  | _ => None
  end.
Example structure_throws :
  let r := in_row aniso_3cell in let c := in_col aniso_3cell in let v := in_val aniso_3cell in
  throws (bad r c v true 5 4 4 1 1) [] [] = Some KDim ∧
  throws (bad [] c v true 2 4 4 1 1) [] [] = Some KCSREmpty ∧
  throws (bad [2] c v true 2 4 4 1 1) [] [] = Some KCSRCol ∧
  throws (bad r [2] v true 2 4 4 1 1) [] [] = Some KCSRCol ∧
  throws (bad r c [] true 2 4 4 1 1) [] [] = Some KCSRVal ∧
  throws (bad r c v true 2 4 5 1 1) [] [] = Some KCardOrder ∧
  throws (bad r c v true 2 0 4 1 1) [] [] = Some KCard ∧
  throws (bad r c v false 2 4 4 1 1) [0; 0] [4] = Some KLines ∧
  throws (bad r c v true 2 4 4 0 1) [] [] = Some KSing ∧
  throws (bad r c v true 2 4 4 1 0) [] [] = Some KIterMin ∧
  throws (bad r c v true 2 4 4 1 (iter_agglo_max_iter + 1)) [] [] = Some KIterMax.
Proof. vm_compute. auto 20. Qed.
(** The same call with nothing wrong does not throw. *)
Example structure_ok :
  throws (bad (in_row aniso_3cell) (in_col aniso_3cell) (in_val aniso_3cell) true 2 4 4 1 1) [] [] = None.
Proof. vm_compute. reflexivity. Qed.
