(** * ArgsM: the ways of calling the library (Args.h, CoMMA.h:137-177, 471-511
    and the Python module, src/CoMMA.cpp:174-366) *)

From Verif Require Export Main UtilM.

Section args.
Context {A : Arith} {H : HashOrder}.

(** The parameter list of CoMMA.h:137-177, in its order; the three reference
    parameters are one argument of type [outs]. *)
Definition aol_positional
    (adjMatrix_row_ptr adjMatrix_col_ind : list nat) (adjMatrix_areaValues volumes : list W)
    (centers : list (list W)) (priority_weights : list W) (anisotropicCompliantCells : list nat)
    (n_bnd_faces : list Z)
    (build_anisotropic_lines is_anisotropic odd_line_length : bool) (threshold_anisotropy : W)
    (seed_ordering_type : Z)
    (o : outs)
    (correction : bool) (dimension goal_card min_card max_card : Z)
    (aspect_ratio singular_card_thresh : Z) (max_cells_in_line : option Z)
    (aniso_cell_coupling : Z) (force_line_direction : bool)
    (fc_choice_iter neighbourhood_type : Z) : outs * res unit :=
  agglomerate_one_level
    {| in_row := adjMatrix_row_ptr; in_col := adjMatrix_col_ind; in_val := adjMatrix_areaValues;
       in_vol := volumes; in_cen := centers; in_prio := priority_weights;
       in_compl := anisotropicCompliantCells; in_bnd := n_bnd_faces;
       in_build := build_anisotropic_lines; in_aniso := is_anisotropic;
       in_odd := odd_line_length; in_thr := threshold_anisotropy; in_order := seed_ordering_type;
       in_corr := correction; in_dim := dimension; in_goal := goal_card; in_min := min_card;
       in_max := max_card; in_ar := aspect_ratio; in_sing := singular_card_thresh;
       in_maxline := max_cells_in_line; in_coupling := aniso_cell_coupling;
       in_force := force_line_direction; in_iter := fc_choice_iter; in_nbh := neighbourhood_type |}
    o.

(** CoMMA.h:171-177: the same function with its trailing arguments left out
    ([None]) or given.  Defaults: [DIAMETER_OVER_RADIUS] (0), 1, no limit,
    [MAX_WEIGHT] (0), true, 1, [EXTENDED] (0) (CoMMADefs.h:36-108). *)
Definition dflt {T} (d : T) (x : option T) : T := match x with Some v => v | None => d end.
Definition aol_default
    (row col : list nat) (val vol : list W) (cen : list (list W)) (prio : list W)
    (compl : list nat) (bnd : list Z) (build aniso odd : bool) (thr : W) (order : Z) (o : outs)
    (correction : bool) (dimension goal_card min_card max_card : Z)
    (aspect_ratio singular_card_thresh : option Z) (max_cells_in_line : option (option Z))
    (aniso_cell_coupling : option Z) (force_line_direction : option bool)
    (fc_choice_iter neighbourhood_type : option Z) : outs * res unit :=
  aol_positional row col val vol cen prio compl bnd build aniso odd thr order o
    correction dimension goal_card min_card max_card
    (dflt 0%Z aspect_ratio) (dflt 1%Z singular_card_thresh) (dflt None max_cells_in_line)
    (dflt 0%Z aniso_cell_coupling) (dflt true force_line_direction)
    (dflt 1%Z fc_choice_iter) (dflt 0%Z neighbourhood_type).

(** Args.h:34-86 [GraphArgs]; references are modelled by the values they
    refer to. *)
Record graph_args := GraphArgs {
  connectivity_indices : list nat;
  connectivity : list nat;
  connectivity_weights : list W;
  volumes : list W;
  centers : list (list W);
  priority_weights : list W;
  n_bnd_faces : list Z;
  dimension : Z;
}.
(** Args.h:68-85: the constructor. *)
Definition graph_ctor (connectivity_indices connectivity : list nat) (connectivity_weights volumes : list W)
    (centers : list (list W)) (priority_weights : list W) (n_bnd_faces : list Z) (dimension : Z) : graph_args :=
  GraphArgs connectivity_indices connectivity connectivity_weights volumes centers priority_weights
    n_bnd_faces dimension.

(** Args.h:99-171 [AgglomerationArgs]. *)
Record agglo_args := AggloArgs {
  goal_card : Z;
  min_card : Z;
  max_card : Z;
  correction : bool;
  seed_ordering_type : Z;
  aspect_ratio : Z;
  singular_card_thresh : Z;
  fc_choice_iter : Z;
  neighbourhood_type : Z;
}.
(** Args.h:151-170: the constructor; [None] for an argument left out. *)
Definition agglo_ctor (goal_card min_card max_card : Z) (correction : bool) (seed_ordering_type : Z)
    (aspect_ratio singular_card_thresh fc_choice_iter neighbourhood_type : option Z) : agglo_args :=
  AggloArgs goal_card min_card max_card correction seed_ordering_type
    (dflt 0%Z aspect_ratio) (dflt 1%Z singular_card_thresh) (dflt 1%Z fc_choice_iter)
    (dflt 0%Z neighbourhood_type).

(** Args.h:184-242 [AnisotropicArgs]. *)
Record aniso_args := AnisoArgs {
  is_anisotropic : bool;
  anisotropicCompliantCells : list nat;
  build_lines : bool;
  odd_line_length : bool;
  threshold_anisotropy : W;
  max_cells_in_line : option Z;
  cell_coupling : Z;
  line_direction : bool;
}.
(** Args.h:224-241: the constructor. *)
Definition aniso_ctor (is_anisotropic : bool) (anisotropicCompliantCells : list nat)
    (build_lines odd_line_length : option bool) (threshold_anisotropy : option W)
    (max_cells_in_line : option (option Z)) (cell_coupling : option Z) (line_direction : option bool)
    : aniso_args :=
  AnisoArgs is_anisotropic anisotropicCompliantCells (dflt true build_lines) (dflt true odd_line_length)
    (dflt (wofZ 4) threshold_anisotropy) (dflt None max_cells_in_line) (dflt 0%Z cell_coupling)
    (dflt true line_direction).

(** CoMMA.h:471-511: the overload which takes the three structures. *)
Definition aol_args (graph : graph_args) (agglo : agglo_args) (aniso : aniso_args) (o : outs) : outs * res unit :=
  aol_positional
    (connectivity_indices graph)
    (connectivity graph)
    (connectivity_weights graph)
    (volumes graph)
    (centers graph)
    (priority_weights graph)
    (anisotropicCompliantCells aniso)
    (n_bnd_faces graph)
    (build_lines aniso)
    (is_anisotropic aniso)
    (odd_line_length aniso)
    (threshold_anisotropy aniso)
    (seed_ordering_type agglo)
    o
    (correction agglo)
    (dimension graph)
    (goal_card agglo)
    (min_card agglo)
    (max_card agglo)
    (aspect_ratio agglo)
    (singular_card_thresh agglo)
    (max_cells_in_line aniso)
    (cell_coupling aniso)
    (line_direction aniso)
    (fc_choice_iter agglo)
    (neighbourhood_type agglo).

(** src/CoMMA.cpp:174-277: the function of the Python module.  Its lists are
    copied from and to Python; the result is a tuple, or an exception.
    Enumerations are passed as integers and cast.  [None] for an argument left
    out (defaults at lines 270-276). *)
Definition py_aol
    (adjMatrix_row_ptr adjMatrix_col_ind : list nat) (adjMatrix_areaValues volumes : list W)
    (centers : list (list W)) (priority_weights : list W) (anisotropicCompliantCells : list nat)
    (n_bnd_faces : list Z)
    (build_anisotropic_lines is_anisotropic odd_line_length : bool) (threshold_anisotropy : W)
    (seed_ordering_type : Z)
    (agglomerationLines_Idx agglomerationLines : list nat)
    (correction : bool) (dimension goal_card min_card max_card : Z)
    (aspect_ratio singular_card_thresh : option Z) (max_cells_in_line : option (option Z))
    (aniso_cell_coupling : option Z) (force_line_direction : option bool)
    (fc_choice_iter type_of_isotropic_agglomeration : option Z)
    : res (list nat * list nat * list nat) :=
  let r := aol_positional adjMatrix_row_ptr adjMatrix_col_ind adjMatrix_areaValues volumes centers
    priority_weights anisotropicCompliantCells n_bnd_faces build_anisotropic_lines is_anisotropic
    odd_line_length threshold_anisotropy seed_ordering_type
    (Outs [] agglomerationLines_Idx agglomerationLines)
    correction dimension goal_card min_card max_card (dflt 0%Z aspect_ratio)
    (dflt 1%Z singular_card_thresh) (dflt None max_cells_in_line) (dflt 0%Z aniso_cell_coupling)
    (dflt true force_line_direction) (dflt 1%Z fc_choice_iter)
    (dflt 0%Z type_of_isotropic_agglomeration) in
  match r.2 with
  | Ok _ => Ok (o_fc2cc r.1, o_idx r.1, o_lines r.1)
  | Err e => Err e
  end.

(** src/CoMMA.cpp:279-296. *)
Definition py_wall_distance (neigh_idxs neighs wall : list nat) : res (list Z) :=
  wall_distance neigh_idxs neighs wall [].
(** src/CoMMA.cpp:298-313. *)
Definition py_filter_cells (indices : list nat) (n_bnd_faces allowed : list Z) : res (list nat) :=
  filter_cells indices n_bnd_faces allowed.
(** src/CoMMA.cpp:315-366. *)
Definition py_coarse_graph (f2c f_adj_idx f_adj : list nat) (f_weights f_volumes : list W)
    (f_centers : list (list W)) (f_priority : list W) (f_n_bnd : list Z)
    : res (list nat * list nat * list W * list W * list (list W) * list W * list Z) :=
  c ← build_coarse_graph (FGraph f_adj_idx f_adj f_weights f_volumes f_centers f_priority f_n_bnd) f2c;
  Ok (cg_idx c, cg_adj c, cg_wgt c, cg_vol c, cg_cen c, cg_prio c, cg_bnd c).
End args.
