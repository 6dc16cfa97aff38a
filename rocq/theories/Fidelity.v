(** * Fidelity: the model run on the test meshes of the repository

    The model is instantiated with binary64 floating-point numbers (the type
    used by the tests) and run on meshes of tests/DualGraphExamples.h; the
    results must be those required by the C++ tests.  These examples are tests
    of the model, not proofs of properties.  The data were extracted
    mechanically from the test header. *)

From Coq Require Import Floats Uint63.
From Verif Require Import Main Double.

Set Warnings "-inexact-float".
#[local] Open Scope Z_scope.
#[local] Open Scope nat_scope.

Definition fofZ (z : Z) : float :=
  if bool_decide (0 <= z)%Z then PrimFloat.of_uint63 (Uint63.of_Z z)
  else PrimFloat.opp (PrimFloat.of_uint63 (Uint63.of_Z (- z))).

(** binary64; [numeric_limits<double>::max()] and [min()]. *)
#[local] Instance float_arith : Arith := {|
  W := float;
  wlt := PrimFloat.ltb; wle := PrimFloat.leb; weq := PrimFloat.eqb;
  wadd := PrimFloat.add; wsub := PrimFloat.sub;
  wmul := PrimFloat.mul; wdiv := PrimFloat.div;
  wsqrt := PrimFloat.sqrt; wabs := PrimFloat.abs;
  wsum := λ l, foldl PrimFloat.add 0%float l;
  wofZ := fofZ;
  wmaxv := 0x1.fffffffffffffp+1023%float; wminv := 0x1p-1022%float;
  w090 := 0.90%float; wdev := 0.9396926207859084%float; wtol := 1e-12%float;
|}.

#[local] Instance ord_id : HashOrder := {| hord := λ _ l, l; hord_perm := λ _ l, Permutation_refl l |}.
Definition ord_rev : HashOrder :=
  {| hord := λ _ l, reverse l; hord_perm := λ _ l, reverse_Permutation l |}.

(** tests/DualGraphExamples.h, class [DualGEx_quad_4]. *)
Definition quad_4 : input := Input _
  [0; 2; 5; 8; 10; 13; 17; 21; 24; 27; 31; 35; 38; 40; 43; 46; 48]
  [1; 4; 0; 2; 5; 1; 3; 6; 2; 7; 0; 5; 8; 1; 4; 6; 9; 2; 5; 7; 10; 3; 6; 11; 4; 9; 12; 5; 8; 10; 13; 6; 9; 11; 14; 7; 10; 15; 8; 13; 9; 12; 14; 10; 13; 15; 11; 14]
  (replicate 48 1.0)%float
  (replicate 16 1.0)%float
  ([[0.5; 0.5]; [1.5; 0.5]; [2.5; 0.5]; [3.5; 0.5]; [0.5; 1.5]; [1.5; 1.5]; [2.5; 1.5]; [3.5; 1.5]; [0.5; 2.5]; [1.5; 2.5]; [2.5; 2.5]; [3.5; 2.5]; [0.5; 3.5]; [1.5; 3.5]; [2.5; 3.5]; [3.5; 3.5]])%float
  ([16.0; 15.0; 14.0; 13.0; 12.0; 11.0; 10.0; 9.0; 8.0; 7.0; 6.0; 5.0; 4.0; 3.0; 2.0; 1.0])%float
  (seq 0 16)
  [2; 1; 1; 2; 1; 0; 0; 1; 1; 0; 0; 1; 2; 1; 1; 2]%Z
  true false true 0%float 0 true 2 4 4 4 0 1 None 0 true 1 0.

(** tests/DualGraphExamples.h, class [DualGEx_aniso_3cell]. *)
Definition aniso_3cell : input := Input _
  [0; 2; 5; 8; 11; 14; 17; 21; 25; 29; 33; 37; 40; 44; 48; 52; 56; 59; 63; 66; 69; 71; 74; 77; 80; 82; 85; 88; 90]
  [1; 11; 0; 2; 10; 1; 3; 9; 2; 4; 8; 3; 5; 7; 4; 24; 6; 5; 7; 25; 17; 4; 8; 6; 15; 3; 9; 7; 13; 2; 10; 8; 12; 1; 11; 9; 14; 0; 10; 16; 9; 14; 13; 23; 8; 12; 15; 21; 10; 16; 12; 22; 7; 13; 17; 19; 11; 14; 20; 6; 15; 26; 18; 17; 19; 27; 15; 21; 18; 16; 22; 13; 23; 19; 14; 20; 23; 12; 22; 21; 5; 25; 6; 24; 26; 17; 25; 27; 18; 26]
  ([1.0; 0.2; 1.0; 1.0; 0.2; 1.0; 1.0; 0.2; 1.0; 1.0; 0.2; 1.0; 1.0; 0.2; 1.0; 1.0; 1.0; 1.0; 1.0; 1.0; 1.0; 0.2; 1.0; 1.0; 0.2; 0.2; 1.0; 1.0; 0.2; 0.2; 1.0; 1.0; 0.2; 0.2; 1.0; 1.0; 0.2; 0.2; 1.0; 0.2; 0.2; 1.0; 1.0; 0.2; 0.2; 1.0; 1.0; 0.2; 0.2; 1.0; 1.0; 0.2; 0.2; 1.0; 1.0; 0.2; 0.2; 1.0; 0.2; 1.0; 1.0; 1.0; 1.0; 1.0; 1.0; 1.0; 0.2; 1.0; 1.0; 0.2; 1.0; 0.2; 1.0; 1.0; 0.2; 1.0; 1.0; 0.2; 1.0; 1.0; 1.0; 1.0; 1.0; 1.0; 1.0; 1.0; 1.0; 1.0; 1.0; 1.0])%float
  ([0.2; 0.2; 0.2; 0.2; 0.2; 1.0; 1.0; 0.2; 0.2; 0.2; 0.2; 0.2; 0.2; 0.2; 0.2; 0.2; 0.2; 1.0; 1.0; 0.2; 0.2; 0.2; 0.2; 0.2; 1.0; 1.0; 1.0; 1.0])%float
  ([[0.5; 0.1]; [0.5; 0.3]; [0.5; 0.5]; [0.5; 0.7]; [0.5; 0.9]; [0.5; 1.5]; [1.5; 1.5]; [1.5; 0.9]; [1.5; 0.7]; [1.5; 0.5]; [1.5; 0.3]; [1.5; 0.1]; [2.5; 0.5]; [2.5; 0.7]; [2.5; 0.3]; [2.5; 0.9]; [2.5; 0.1]; [2.5; 1.5]; [3.5; 1.5]; [3.5; 0.9]; [3.5; 0.1]; [3.5; 0.7]; [3.5; 0.3]; [3.5; 0.5]; [0.5; 2.5]; [1.5; 2.5]; [2.5; 2.5]; [3.5; 2.5]])%float
  ([28.0; 27.0; 26.0; 25.0; 24.0; 23.0; 22.0; 21.0; 20.0; 19.0; 18.0; 17.0; 16.0; 15.0; 14.0; 13.0; 12.0; 11.0; 10.0; 9.0; 8.0; 7.0; 6.0; 5.0; 4.0; 3.0; 2.0; 1.0])%float
  (seq 0 28)
  [2; 1; 1; 1; 1; 1; 0; 0; 0; 0; 0; 1; 0; 0; 0; 0; 1; 0; 1; 1; 2; 1; 1; 1; 2; 1; 1; 2]%Z
  true false true 0%float 0 true 2 4 4 4 0 1 None 0 true 1 0.

(** tests/DualGraphExamples.h, class [DualGEx_cube_4]. *)
Definition cube_4 : input := Input _
  [0; 3; 7; 11; 14; 18; 23; 28; 32; 36; 41; 46; 50; 53; 57; 61; 64; 68; 73; 78; 82; 87; 93; 99; 104; 109; 115; 121; 126; 130; 135; 140; 144; 148; 153; 158; 162; 167; 173; 179; 184; 189; 195; 201; 206; 210; 215; 220; 224; 227; 231; 235; 238; 242; 247; 252; 256; 260; 265; 270; 274; 277; 281; 285; 288]
  [1; 4; 16; 0; 2; 5; 17; 1; 3; 6; 18; 2; 7; 19; 0; 5; 8; 20; 1; 4; 6; 9; 21; 2; 5; 7; 10; 22; 3; 6; 11; 23; 4; 9; 12; 24; 5; 8; 10; 13; 25; 6; 9; 11; 14; 26; 7; 10; 15; 27; 8; 13; 28; 9; 12; 14; 29; 10; 13; 15; 30; 11; 14; 31; 0; 17; 20; 32; 1; 16; 18; 21; 33; 2; 17; 19; 22; 34; 3; 18; 23; 35; 4; 16; 21; 24; 36; 5; 17; 20; 22; 25; 37; 6; 18; 21; 23; 26; 38; 7; 19; 22; 27; 39; 8; 20; 25; 28; 40; 9; 21; 24; 26; 29; 41; 10; 22; 25; 27; 30; 42; 11; 23; 26; 31; 43; 12; 24; 29; 44; 13; 25; 28; 30; 45; 14; 26; 29; 31; 46; 15; 27; 30; 47; 16; 33; 36; 48; 17; 32; 34; 37; 49; 18; 33; 35; 38; 50; 19; 34; 39; 51; 20; 32; 37; 40; 52; 21; 33; 36; 38; 41; 53; 22; 34; 37; 39; 42; 54; 23; 35; 38; 43; 55; 24; 36; 41; 44; 56; 25; 37; 40; 42; 45; 57; 26; 38; 41; 43; 46; 58; 27; 39; 42; 47; 59; 28; 40; 45; 60; 29; 41; 44; 46; 61; 30; 42; 45; 47; 62; 31; 43; 46; 63; 32; 49; 52; 33; 48; 50; 53; 34; 49; 51; 54; 35; 50; 55; 36; 48; 53; 56; 37; 49; 52; 54; 57; 38; 50; 53; 55; 58; 39; 51; 54; 59; 40; 52; 57; 60; 41; 53; 56; 58; 61; 42; 54; 57; 59; 62; 43; 55; 58; 63; 44; 56; 61; 45; 57; 60; 62; 46; 58; 61; 63; 47; 59; 62]
  (replicate 288 1.0)%float
  (replicate 64 1.0)%float
  ([[0.5; 0.5; 0.5]; [1.5; 0.5; 0.5]; [2.5; 0.5; 0.5]; [3.5; 0.5; 0.5]; [0.5; 1.5; 0.5]; [1.5; 1.5; 0.5]; [2.5; 1.5; 0.5]; [3.5; 1.5; 0.5]; [0.5; 2.5; 0.5]; [1.5; 2.5; 0.5]; [2.5; 2.5; 0.5]; [3.5; 2.5; 0.5]; [0.5; 3.5; 0.5]; [1.5; 3.5; 0.5]; [2.5; 3.5; 0.5]; [3.5; 3.5; 0.5]; [0.5; 0.5; 1.5]; [1.5; 0.5; 1.5]; [2.5; 0.5; 1.5]; [3.5; 0.5; 1.5]; [0.5; 1.5; 1.5]; [1.5; 1.5; 1.5]; [2.5; 1.5; 1.5]; [3.5; 1.5; 1.5]; [0.5; 2.5; 1.5]; [1.5; 2.5; 1.5]; [2.5; 2.5; 1.5]; [3.5; 2.5; 1.5]; [0.5; 3.5; 1.5]; [1.5; 3.5; 1.5]; [2.5; 3.5; 1.5]; [3.5; 3.5; 1.5]; [0.5; 0.5; 2.5]; [1.5; 0.5; 2.5]; [2.5; 0.5; 2.5]; [3.5; 0.5; 2.5]; [0.5; 1.5; 2.5]; [1.5; 1.5; 2.5]; [2.5; 1.5; 2.5]; [3.5; 1.5; 2.5]; [0.5; 2.5; 2.5]; [1.5; 2.5; 2.5]; [2.5; 2.5; 2.5]; [3.5; 2.5; 2.5]; [0.5; 3.5; 2.5]; [1.5; 3.5; 2.5]; [2.5; 3.5; 2.5]; [3.5; 3.5; 2.5]; [0.5; 0.5; 3.5]; [1.5; 0.5; 3.5]; [2.5; 0.5; 3.5]; [3.5; 0.5; 3.5]; [0.5; 1.5; 3.5]; [1.5; 1.5; 3.5]; [2.5; 1.5; 3.5]; [3.5; 1.5; 3.5]; [0.5; 2.5; 3.5]; [1.5; 2.5; 3.5]; [2.5; 2.5; 3.5]; [3.5; 2.5; 3.5]; [0.5; 3.5; 3.5]; [1.5; 3.5; 3.5]; [2.5; 3.5; 3.5]; [3.5; 3.5; 3.5]])%float
  ([64.0; 63.0; 62.0; 61.0; 60.0; 59.0; 58.0; 57.0; 56.0; 55.0; 54.0; 53.0; 52.0; 51.0; 50.0; 49.0; 48.0; 47.0; 46.0; 45.0; 44.0; 43.0; 42.0; 41.0; 40.0; 39.0; 38.0; 37.0; 36.0; 35.0; 34.0; 33.0; 32.0; 31.0; 30.0; 29.0; 28.0; 27.0; 26.0; 25.0; 24.0; 23.0; 22.0; 21.0; 20.0; 19.0; 18.0; 17.0; 16.0; 15.0; 14.0; 13.0; 12.0; 11.0; 10.0; 9.0; 8.0; 7.0; 6.0; 5.0; 4.0; 3.0; 2.0; 1.0])%float
  (seq 0 64)
  [3; 2; 2; 3; 2; 1; 1; 2; 2; 1; 1; 2; 3; 2; 2; 3; 2; 1; 1; 2; 1; 0; 0; 1; 1; 0; 0; 1; 2; 1; 1; 2; 2; 1; 1; 2; 1; 0; 0; 1; 1; 0; 0; 1; 2; 1; 1; 2; 3; 2; 2; 3; 2; 1; 1; 2; 2; 1; 1; 2; 3; 2; 2; 3]%Z
  true false true 0%float 0 true 3 4 4 4 0 1 None 0 true 1 0.

(** tests/DualGraphExamples.h, class [DualGEx_T_shaped]. *)
Definition t_shaped : input := Input _
  [0; 2; 5; 7; 9; 12; 14]
  [1; 3; 0; 2; 4; 1; 5; 0; 4; 1; 3; 5; 2; 4]
  ([1.75; 1.0; 1.75; 1.75; 1.0; 1.75; 1.0; 1.0; 1.75; 1.0; 1.75; 1.75; 1.0; 1.75])%float
  (replicate 6 1.75)%float
  ([[0.5; 0.875]; [1.5; 0.875]; [2.5; 0.875]; [0.5; 2.625]; [1.5; 2.625]; [2.5; 2.625]])%float
  ([6.0; 5.0; 4.0; 3.0; 2.0; 1.0])%float
  (seq 0 6)
  [2; 1; 2; 2; 1; 2]%Z
  true false true 0%float 0 true 2 4 4 4 0 1 None 0 true 1 0.

(** Variations of an input. *)
Definition with_pool (i : input) (z : Z) : input :=
  Input _ (in_row i) (in_col i) (in_val i) (in_vol i) (in_cen i) (in_prio i)
    (in_compl i) (in_bnd i) (in_build i) (in_aniso i) (in_odd i) (in_thr i) z
    (in_corr i) (in_dim i) (in_goal i) (in_min i) (in_max i) (in_ar i) (in_sing i)
    (in_maxline i) (in_coupling i) (in_force i) (in_iter i) (in_nbh i).
Definition with_iso (i : input) (card ar iter nbh : Z) : input :=
  Input _ (in_row i) (in_col i) (in_val i) (in_vol i) (in_cen i) (in_prio i)
    (in_compl i) (in_bnd i) (in_build i) (in_aniso i) (in_odd i) (in_thr i)
    (in_order i) (in_corr i) (in_dim i) card card card ar (in_sing i)
    (in_maxline i) (in_coupling i) (in_force i) iter nbh.
Definition with_aniso (i : input) (thr : float) : input :=
  Input _ (in_row i) (in_col i) (in_val i) (in_vol i) (in_cen i) (in_prio i)
    (in_compl i) (in_bnd i) true true (in_odd i) thr (in_order i)
    (in_corr i) (in_dim i) (in_goal i) (in_min i) (in_max i) (in_ar i) (in_sing i)
    (in_maxline i) (in_coupling i) (in_force i) (in_iter i) (in_nbh i).

Definition run (i : input) : option (list nat) :=
  match agglomerate_one_level i (Outs [] [] []) with
  | (o, Ok _) => Some (o_fc2cc o)
  | _ => None
  end.

(** tests/test_structure.cpp:122-299: the four kinds of seeds pool. *)
Definition quad_4_ref := [0;0;1;1;0;0;1;1;2;2;3;3;2;2;3;3].
Example quad_4_pools :
  (λ z, run (with_pool quad_4 z)) <$> [0; 1; 10; 11]%Z = replicate 4 (Some quad_4_ref).
Proof. vm_compute. reflexivity. Qed.

(** tests/test_isoagglo.cpp:176-235: pure front neighbourhood. *)
Example quad_4_front : run (with_iso quad_4 4 0 1 1) = Some quad_4_ref.
Proof. vm_compute. reflexivity. Qed.

(** tests/test_isoagglo.cpp:35-140: 3D mesh, both neighbourhoods. *)
Definition cube_4_ref :=
  [0;0;1;1;0;0;1;1;2;2;3;3;2;2;3;3;0;0;1;1;0;0;1;1;2;2;3;3;2;2;3;3;
   4;4;5;5;4;4;5;5;6;6;7;7;6;6;7;7;4;4;5;5;4;4;5;5;6;6;7;7;6;6;7;7].
Example cube_4_both :
  (λ z, run (with_iso cube_4 8 0 1 z)) <$> [0; 1]%Z = replicate 2 (Some cube_4_ref).
Proof. vm_compute. reflexivity. Qed.

(** tests/test_structure.cpp:301-420: anisotropic lines. *)
Definition aniso_3cell_ref :=
  [0;0;1;1;1;8;8;3;3;3;2;2;5;5;4;5;4;9;9;7;6;7;6;7;8;8;9;9].
Example aniso_3cell_lines : run (with_aniso aniso_3cell 4) = Some aniso_3cell_ref.
Proof. vm_compute. reflexivity. Qed.

(** The same runs with the unordered containers visited backwards. *)
Definition run_rev (i : input) : option (list nat) :=
  match @agglomerate_one_level float_arith ord_rev i (Outs [] [] []) with
  | (o, Ok _) => Some (o_fc2cc o)
  | _ => None
  end.
Example all_rev :
  run_rev quad_4 = Some quad_4_ref ∧ run_rev (with_iso cube_4 8 0 1 0) = Some cube_4_ref
  ∧ run_rev (with_aniso aniso_3cell 4) = Some aniso_3cell_ref.
Proof. vm_compute. done. Qed.

(** tests/test_isoagglo.cpp:244-315: one coarse cell grown from cell 1 with the
    standard and with the two-step look-ahead choice: cells and compactness. *)
Definition t_cc (iter : Z) (it : bool) : option (list nat * Z) :=
  let ip := set_agglomeration_parameter
              (IsoP 2 0 0 0 (DiamOverRadius true) false iter it) 4 4 4 in
  match choose_optimal ip (graph_of t_shaped) (in_prio t_shaped)
          (cont_new 6 1) (pool_new true false) 1 with
  | Ok (cc, cpt, _) => Some (sset cc, cpt)
  | Err _ => None
  end.
Example t_shaped_standard : t_cc 1 false = Some ([0; 1; 2; 4], 1%Z).
Proof. vm_compute. reflexivity. Qed.
Example t_shaped_iterative : t_cc 2 true = Some ([0; 1; 3; 4], 2%Z).
Proof. vm_compute. reflexivity. Qed.

(** [Double.v], the specification of binary64 without primitive numbers: its
    constants are the literals of the code, and the runs give the same cells. *)
Definition dblsum : Arith := double d_sum.
Example double_constants :
  @w090 dblsum = Prim2SF 0.90%float ∧ @wdev dblsum = Prim2SF 0.9396926207859084%float ∧
  @wtol dblsum = Prim2SF 1e-12%float ∧ @wmaxv dblsum = Prim2SF 0x1.fffffffffffffp+1023%float ∧
  @wminv dblsum = Prim2SF 0x1p-1022%float ∧ @wofZ dblsum (-3) = Prim2SF (-3)%float.
Proof. vm_compute. done. Qed.
Definition to_double (i : input) : @input dblsum :=
  @Input dblsum (in_row i) (in_col i) (map Prim2SF (in_val i)) (map Prim2SF (in_vol i))
    (map (map Prim2SF) (in_cen i)) (map Prim2SF (in_prio i)) (in_compl i) (in_bnd i) (in_build i) (in_aniso i)
    (in_odd i) (Prim2SF (in_thr i)) (in_order i) (in_corr i) (in_dim i) (in_goal i) (in_min i) (in_max i)
    (in_ar i) (in_sing i) (in_maxline i) (in_coupling i) (in_force i) (in_iter i) (in_nbh i).
Definition run_double (i : input) : option (list nat) :=
  match @agglomerate_one_level dblsum ord_id (to_double i) (Outs [] [] []) with
  | (o, Ok _) => Some (o_fc2cc o)
  | _ => None
  end.
Example all_double :
  run_double quad_4 = Some quad_4_ref ∧ run_double (with_iso cube_4 8 0 1 0) = Some cube_4_ref
  ∧ run_double (with_aniso aniso_3cell 4) = Some aniso_3cell_ref.
Proof. vm_compute. done. Qed.
