(** * NoInvP: nothing but the argument checks throws [invalid_argument]

    For every function of the library reached by [agglomerate_one_level], on
    any argument, well-formed or not. *)

From Verif Require Import Lib Main.

Definition noinv {A} (m : res A) : Prop := ∀ k, m ≠ Err (EInvalid k).

Lemma noinv_ok {A} (a : A) : noinv (Ok a).
Proof. by intros k. Qed.
Lemma noinv_err {A} e : (∀ k, e ≠ EInvalid k) → noinv (@Err A e).
Proof. intros He k [= ->]. by eapply He. Qed.
Lemma noinv_bind {A B} (m : res A) (f : A → res B) :
  noinv m → (∀ a, noinv (f a)) → noinv (m ≫= f).
Proof. intros Hm Hf k. destruct m as [a|e]; cbn; [apply Hf|]. intros [= ->]. by apply (Hm k). Qed.
Lemma noinv_foldM {A B} (f : B → A → res B) l b :
  (∀ b a, noinv (f b a)) → noinv (foldM f l b).
Proof.
  intros Hf. revert b. induction l as [|a l IH]; intros b; cbn; [apply noinv_ok|].
  apply noinv_bind; auto.
Qed.
Lemma noinv_vget {A} (v : list A) i : noinv (vget v i).
Proof. unfold vget. intros k. by case_match. Qed.
Lemma noinv_vset {A} (v : list A) i x : noinv (vset v i x).
Proof. unfold vset. intros k. by case_match. Qed.
Lemma noinv_vgetZ {A} (v : list A) z : noinv (vgetZ v z).
Proof. unfold vgetZ. case_match; [apply noinv_vget|by intros k]. Qed.
Lemma noinv_vsetZ {A} (v : list A) z x : noinv (vsetZ v z x).
Proof. unfold vsetZ. case_match; [apply noinv_vset|by intros k]. Qed.
Lemma noinv_mapat {A} (m : gmap nat A) i : noinv (mapat m i).
Proof. unfold mapat. intros k. by case_match. Qed.
Lemma noinv_vrange {A} (v : list A) a b : noinv (vrange v a b).
Proof. unfold vrange. intros k. by case_match. Qed.
Lemma noinv_opt_value {A} (o : option A) : noinv (opt_value o).
Proof. intros k. by destruct o. Qed.
Lemma noinv_massert b : noinv (massert b).
Proof. intros k. by destruct b. Qed.

Create HintDb ni discriminated.
#[export] Hint Resolve noinv_ok noinv_vget noinv_vset noinv_vgetZ noinv_vsetZ
  noinv_mapat noinv_vrange noinv_opt_value noinv_massert : ni.

(** Follows the structure of the program. *)
Ltac ni :=
  lazymatch goal with
  | |- noinv (Ok _) => apply noinv_ok
  | |- noinv (Err _) => apply noinv_err; intros; discriminate
  | |- noinv (_ ≫= _) => apply noinv_bind; [ni|intros; ni]
  | |- noinv (foldM _ _ _) => apply noinv_foldM; intros; ni
  | |- noinv (if ?b then _ else _) => destruct b; ni
  | |- noinv (match ?x with _ => _ end) => destruct x; ni
  | |- noinv ((match ?x with _ => _ end) _) => destruct x; cbv beta; ni
  | |- noinv (let _ := _ in _) => cbv zeta; ni
  | |- noinv _ => first [assumption | solve [auto with ni nocore] | match goal with Hf : ∀ _, noinv _ |- _ => apply Hf end | progress cbv beta zeta; ni | idtac]
  end.

Section noinv.
Context {A : Arith} {H : HashOrder}.

(** ** Pairs *)

Lemma dot_acc_ni x0 x1 x2 : noinv (dot_acc x0 x1 x2).
Proof.
  revert x0 x2. induction x1; intros; cbn; ni.
Qed.
#[local] Hint Resolve dot_acc_ni : ni.

Lemma dot_product_ni x0 x1 : noinv (dot_product x0 x1).
Proof. unfold dot_product. ni. Qed.
#[local] Hint Resolve dot_product_ni : ni.

Lemma sqd_acc_ni x0 x1 x2 : noinv (sqd_acc x0 x1 x2).
Proof.
  revert x0 x2. induction x1; intros; cbn; ni.
Qed.
#[local] Hint Resolve sqd_acc_ni : ni.

Lemma sqdist_ni x0 x1 : noinv (sqdist x0 x1).
Proof. unfold sqdist. ni. Qed.
#[local] Hint Resolve sqdist_ni : ni.

Lemma dir_diff_ni x0 x1 : noinv (dir_diff x0 x1).
Proof.
  revert x1. induction x0; intros; cbn; ni.
Qed.
#[local] Hint Resolve dir_diff_ni : ni.

Lemma get_direction_ni x0 x1 x2 : noinv (get_direction x0 x1 x2).
Proof. unfold get_direction. ni. Qed.
#[local] Hint Resolve get_direction_ni : ni.

(** ** Graph *)

Lemma nbrs_ni x0 x1 : noinv (nbrs x0 x1).
Proof. unfold nbrs. ni. Qed.
#[local] Hint Resolve nbrs_ni : ni.

Lemma wgts_ni x0 x1 : noinv (wgts x0 x1).
Proof. unfold wgts. ni. Qed.
#[local] Hint Resolve wgts_ni : ni.

Lemma nb_nbrs_ni x0 x1 : noinv (nb_nbrs x0 x1).
Proof. unfold nb_nbrs. ni. Qed.
#[local] Hint Resolve nb_nbrs_ni : ni.

Lemma nbrs_wgts_ni x0 x1 : noinv (nbrs_wgts x0 x1).
Proof. unfold nbrs_wgts. ni. Qed.
#[local] Hint Resolve nbrs_wgts_ni : ni.

Lemma n_bnd_ni x0 x1 : noinv (n_bnd x0 x1).
Proof. unfold n_bnd. ni. Qed.
#[local] Hint Resolve n_bnd_ni : ni.

Lemma total_n_faces_ni x0 x1 : noinv (total_n_faces x0 x1).
Proof. unfold total_n_faces. ni. Qed.
#[local] Hint Resolve total_n_faces_ni : ni.

Lemma is_on_boundary_ni x0 x1 : noinv (is_on_boundary x0 x1).
Proof. unfold is_on_boundary. ni. Qed.
#[local] Hint Resolve is_on_boundary_ni : ni.

Lemma estimated_boundary_weight_ni x0 x1 : noinv (estimated_boundary_weight x0 x1).
Proof. unfold estimated_boundary_weight. ni. Qed.
#[local] Hint Resolve estimated_boundary_weight_ni : ni.

Lemma estimated_total_weight_ni x0 x1 : noinv (estimated_total_weight x0 x1).
Proof. unfold estimated_total_weight. ni. Qed.
#[local] Hint Resolve estimated_total_weight_ni : ni.

Lemma fc_compactness_ni x0 x1 : noinv (fc_compactness x0 x1).
Proof. unfold fc_compactness. ni. Qed.
#[local] Hint Resolve fc_compactness_ni : ni.

Lemma map_min_ni x0 : noinv (map_min x0).
Proof. unfold map_min. ni. Qed.
#[local] Hint Resolve map_min_ni : ni.

Lemma min_compactness_ni x0 x1 : noinv (min_compactness x0 x1).
Proof. unfold min_compactness. ni. Qed.
#[local] Hint Resolve min_compactness_ni : ni.

Lemma neighbourhood_of_cc_ni x0 x1 x2 : noinv (neighbourhood_of_cc x0 x1 x2).
Proof. unfold neighbourhood_of_cc. ni. Qed.
#[local] Hint Resolve neighbourhood_of_cc_ni : ni.

Lemma next_layer_ni x0 x1 x2 x3 x4 : noinv (next_layer x0 x1 x2 x3 x4).
Proof. unfold next_layer. ni. Qed.
#[local] Hint Resolve next_layer_ni : ni.

Lemma nbh_loop_ni x0 x1 x2 x3 x4 x5 x6 x7 : noinv (nbh_loop x0 x1 x2 x3 x4 x5 x6 x7).
Proof.
  revert x1 x2 x3 x4 x5 x6 x7. induction x0; intros; cbn; ni.
Qed.
#[local] Hint Resolve nbh_loop_ni : ni.

Lemma compute_neighbourhood_of_cc_ni x0 x1 x2 x3 x4 : noinv (compute_neighbourhood_of_cc x0 x1 x2 x3 x4).
Proof. unfold compute_neighbourhood_of_cc. ni. Qed.
#[local] Hint Resolve compute_neighbourhood_of_cc_ni : ni.

Lemma dfs_ni x0 x1 x2 x3 : noinv (dfs x0 x1 x2 x3).
Proof.
  revert x1 x2 x3. induction x0; intros; cbn; ni.
Qed.
#[local] Hint Resolve dfs_ni : ni.

Lemma all_visited_ni x0 x1 x2 : noinv (all_visited x0 x1 x2).
Proof.
  revert x1 x2. induction x0; intros; cbn; ni.
Qed.
#[local] Hint Resolve all_visited_ni : ni.

Lemma check_connectivity_ni x0 x1 : noinv (check_connectivity x0 x1).
Proof. unfold check_connectivity. ni. Qed.
#[local] Hint Resolve check_connectivity_ni : ni.

(** ** Features *)

Lemma feats_of_cell_ni x0 x1 : noinv (feats_of_cell x0 x1).
Proof. unfold feats_of_cell. ni. Qed.
#[local] Hint Resolve feats_of_cell_ni : ni.

Lemma compute_shared_faces_ni x0 x1 x2 : noinv (compute_shared_faces x0 x1 x2).
Proof. unfold compute_shared_faces. ni. Qed.
#[local] Hint Resolve compute_shared_faces_ni : ni.

Lemma approx_features_ni x0 x1 x2 x3 : noinv (approx_features x0 x1 x2 x3).
Proof. unfold approx_features. ni. Qed.
#[local] Hint Resolve approx_features_ni : ni.

Lemma bary_loop_ni x0 x1 x2 x3 : noinv (bary_loop x0 x1 x2 x3).
Proof.
  revert x1 x2 x3. induction x0; intros; cbn; ni.
Qed.
#[local] Hint Resolve bary_loop_ni : ni.

Lemma update_barycenter_ni x0 x1 x2 x3 : noinv (update_barycenter x0 x1 x2 x3).
Proof. unfold update_barycenter. ni. Qed.
#[local] Hint Resolve update_barycenter_ni : ni.

Lemma update_basic_ni x0 x1 x2 x3 x4 x5 : noinv (update_basic x0 x1 x2 x3 x4 x5).
Proof. unfold update_basic. ni. Qed.
#[local] Hint Resolve update_basic_ni : ni.

Lemma max_bary_ni x0 x1 x2 x3 : noinv (max_bary x0 x1 x2 x3).
Proof. unfold max_bary. ni. Qed.
#[local] Hint Resolve max_bary_ni : ni.

Lemma minmax_bary_ni x0 x1 x2 x3 x4 : noinv (minmax_bary x0 x1 x2 x3 x4).
Proof. unfold minmax_bary. ni. Qed.
#[local] Hint Resolve minmax_bary_ni : ni.

Lemma compute_features_ni x0 x1 x2 x3 x4 : noinv (compute_features x0 x1 x2 x3 x4).
Proof. unfold compute_features. ni. Qed.
#[local] Hint Resolve compute_features_ni : ni.

(** ** Neigh *)

Lemma collect_ni x0 x1 x2 : noinv (collect x0 x1 x2).
Proof. unfold collect. ni. Qed.
#[local] Hint Resolve collect_ni : ni.

Lemma scan_queues_ni x0 x1 x2 x3 : noinv (scan_queues x0 x1 x2 x3).
Proof.
  revert x1 x2 x3. induction x0; intros; cbn; ni.
Qed.
#[local] Hint Resolve scan_queues_ni : ni.

Lemma nbh_update_ni x0 x1 x2 x3 : noinv (nbh_update x0 x1 x2 x3).
Proof. unfold nbh_update. ni. Qed.
#[local] Hint Resolve nbh_update_ni : ni.

(** ** Seeds *)

Lemma push_back_ni x0 x1 x2 : noinv (push_back x0 x1 x2).
Proof. unfold push_back. ni. Qed.
#[local] Hint Resolve push_back_ni : ni.

Lemma spoil_queue_ni x0 x1 : noinv (spoil_queue x0 x1).
Proof.
  revert x0. induction x1; intros; cbn; ni.
Qed.
#[local] Hint Resolve spoil_queue_ni : ni.

Lemma spoil_level_ni x0 x1 x2 : noinv (spoil_level x0 x1 x2).
Proof. unfold spoil_level. ni. Qed.
#[local] Hint Resolve spoil_level_ni : ni.

Lemma build_queue_ni x0 x1 x2 x3 x4 : noinv (build_queue x0 x1 x2 x3 x4).
Proof. unfold build_queue. ni. Qed.
#[local] Hint Resolve build_queue_ni : ni.

Lemma highest_loop_ni x0 x1 x2 x3 x4 : noinv (highest_loop x0 x1 x2 x3 x4).
Proof.
  revert x0 x1 x2 x4. induction x3; intros; cbn; ni.
Qed.
#[local] Hint Resolve highest_loop_ni : ni.

Lemma get_highest_ni x0 x1 x2 : noinv (get_highest x0 x1 x2).
Proof. unfold get_highest. ni. Qed.
#[local] Hint Resolve get_highest_ni : ni.

Lemma max_bnd_ni x0 : noinv (max_bnd x0).
Proof. unfold max_bnd. ni. Qed.
#[local] Hint Resolve max_bnd_ni : ni.

Lemma full_init_ni x0 x1 x2 : noinv (full_init x0 x1 x2).
Proof. unfold full_init. ni. Qed.
#[local] Hint Resolve full_init_ni : ni.

Lemma one_point_init_ni x0 x1 x2 : noinv (one_point_init x0 x1 x2).
Proof. unfold one_point_init. ni. Qed.
#[local] Hint Resolve one_point_init_ni : ni.

Lemma pool_initialize_ni x0 x1 x2 : noinv (pool_initialize x0 x1 x2).
Proof. unfold pool_initialize. ni. Qed.
#[local] Hint Resolve pool_initialize_ni : ni.

Lemma choose_rebuild_ni x0 x1 x2 x3 x4 : noinv (choose_rebuild x0 x1 x2 x3 x4).
Proof. unfold choose_rebuild. ni. Qed.
#[local] Hint Resolve choose_rebuild_ni : ni.

Lemma np_scan_ni x0 x1 x2 : noinv (np_scan x0 x1 x2).
Proof.
  revert x0 x1. induction x2; intros; cbn; ni.
Qed.
#[local] Hint Resolve np_scan_ni : ni.

Lemma choose_new_seed_ni x0 x1 x2 x3 : noinv (choose_new_seed x0 x1 x2 x3).
Proof. unfold choose_new_seed. ni. Qed.
#[local] Hint Resolve choose_new_seed_ni : ni.

Lemma pool_update_ni x0 x1 x2 : noinv (pool_update x0 x1 x2).
Proof. unfold pool_update. ni. Qed.
#[local] Hint Resolve pool_update_ni : ni.

Lemma by_bnd_ni x0 x1 x2 : noinv (by_bnd x0 x1 x2).
Proof. unfold by_bnd. ni. Qed.
#[local] Hint Resolve by_bnd_ni : ni.

Lemma order_new_seeds_and_update_ni x0 x1 x2 x3 : noinv (order_new_seeds_and_update x0 x1 x2 x3).
Proof. unfold order_new_seeds_and_update. ni. Qed.
#[local] Hint Resolve order_new_seeds_and_update_ni : ni.

Lemma need_initialization_ni x0 x1 x2 : noinv (need_initialization x0 x1 x2).
Proof. unfold need_initialization. ni. Qed.
#[local] Hint Resolve need_initialization_ni : ni.

(** ** Container *)

Lemma mark_cells_ni x0 x1 : noinv (mark_cells x0 x1).
Proof. unfold mark_cells. ni. Qed.
#[local] Hint Resolve mark_cells_ni : ni.

Lemma assign_cells_ni x0 x1 x2 : noinv (assign_cells x0 x1 x2).
Proof. unfold assign_cells. ni. Qed.
#[local] Hint Resolve assign_cells_ni : ni.

Lemma create_cc_ni x0 x1 x2 x3 x4 : noinv (create_cc x0 x1 x2 x3 x4).
Proof. unfold create_cc. ni. Qed.
#[local] Hint Resolve create_cc_ni : ni.

Lemma create_all_delayed_ni x0 : noinv (create_all_delayed x0).
Proof. unfold create_all_delayed. ni. Qed.
#[local] Hint Resolve create_all_delayed_ni : ni.

Lemma get_neighs_cc_ni x0 x1 x2 x3 : noinv (get_neighs_cc x0 x1 x2 x3).
Proof. unfold get_neighs_cc. ni. Qed.
#[local] Hint Resolve get_neighs_cc_ni : ni.

Lemma get_shared_faces_ni x0 x1 x2 : noinv (get_shared_faces x0 x1 x2).
Proof. unfold get_shared_faces. ni. Qed.
#[local] Hint Resolve get_shared_faces_ni : ni.

Lemma cands_ni x0 x1 x2 x3 x4 : (∀ c, noinv (x3 c)) → noinv (cands x0 x1 x2 x3 x4).
Proof. intros Hsf. unfold cands. ni. Qed.
#[local] Hint Resolve cands_ni : ni.

Lemma select_best_whole_ni x0 x1 x2 x3 : noinv (select_best_whole x0 x1 x2 x3).
Proof. unfold select_best_whole. ni. Qed.
#[local] Hint Resolve select_best_whole_ni : ni.

Lemma select_best_ni x0 x1 x2 x3 : noinv (select_best x0 x1 x2 x3).
Proof. unfold select_best. ni. Qed.
#[local] Hint Resolve select_best_ni : ni.

Lemma insert_cells_ni x0 x1 x2 x3 x4 : noinv (insert_cells x0 x1 x2 x3 x4).
Proof. unfold insert_cells. ni. Qed.
#[local] Hint Resolve insert_cells_ni : ni.

Lemma set_ids_ni x0 x1 x2 : noinv (set_ids x0 x1 x2).
Proof. unfold set_ids. ni. Qed.
#[local] Hint Resolve set_ids_ni : ni.

Lemma correct_whole_ni x0 x1 x2 x3 : noinv (correct_whole x0 x1 x2 x3).
Proof. unfold correct_whole. ni. Qed.
#[local] Hint Resolve correct_whole_ni : ni.

Lemma correct_cells_ni x0 x1 x2 x3 : noinv (correct_cells x0 x1 x2 x3).
Proof. unfold correct_cells. ni. Qed.
#[local] Hint Resolve correct_cells_ni : ni.

Lemma correct_step_ni x0 x1 x2 x3 : noinv (correct_step x0 x1 x2 x3).
Proof. unfold correct_step. ni. Qed.
#[local] Hint Resolve correct_step_ni : ni.

Lemma renumber_ni x0 x1 x2 x3 : noinv (renumber x0 x1 x2 x3).
Proof.
  revert x1 x2 x3. induction x0; intros; cbn; ni.
Qed.
#[local] Hint Resolve renumber_ni : ni.

Lemma correct_renumber_ni x0 x1 : noinv (correct_renumber x0 x1).
Proof. unfold correct_renumber. ni. Qed.
#[local] Hint Resolve correct_renumber_ni : ni.

Lemma correct_ni x0 x1 : noinv (correct x0 x1).
Proof. unfold correct. ni. Qed.
#[local] Hint Resolve correct_ni : ni.

(** ** Iso *)

Lemma best_step_ni x0 x1 x2 x3 x4 x5 x6 : noinv (best_step x0 x1 x2 x3 x4 x5 x6).
Proof. unfold best_step. ni. Qed.
#[local] Hint Resolve best_step_ni : ni.

Lemma best_biconnected_ni x0 x1 x2 x3 x4 x5 x6 x7 x8 : noinv (best_biconnected x0 x1 x2 x3 x4 x5 x6 x7 x8).
Proof. unfold best_biconnected. ni. Qed.
#[local] Hint Resolve best_biconnected_ni : ni.

Lemma best_iterative_ni x0 x1 x2 x3 x4 x5 x6 x7 x8 x9 x10 : noinv (best_iterative x0 x1 x2 x3 x4 x5 x6 x7 x8 x9 x10).
Proof.
  revert x1 x2 x3 x4 x5 x6 x7 x8 x9 x10. induction x0; intros; cbn; ni.
Qed.
#[local] Hint Resolve best_iterative_ni : ni.

Lemma compute_best_ni x0 x1 x2 x3 x4 x5 x6 x7 : noinv (compute_best x0 x1 x2 x3 x4 x5 x6 x7).
Proof. unfold compute_best. ni. Qed.
#[local] Hint Resolve compute_best_ni : ni.

Lemma grow_step_ni x0 x1 x2 x3 x4 : noinv (grow_step x0 x1 x2 x3 x4).
Proof. unfold grow_step. ni. Qed.
#[local] Hint Resolve grow_step_ni : ni.

Lemma grow_loop_ni x0 x1 x2 x3 x4 x5 : noinv (grow_loop x0 x1 x2 x3 x4 x5).
Proof.
  revert x1 x2 x3 x4 x5. induction x0; intros; cbn; ni.
Qed.
#[local] Hint Resolve grow_loop_ni : ni.

Lemma feed_pool_ni x0 x1 x2 x3 x4 x5 : noinv (feed_pool x0 x1 x2 x3 x4 x5).
Proof. unfold feed_pool. ni. Qed.
#[local] Hint Resolve feed_pool_ni : ni.

Lemma choose_optimal_ni x0 x1 x2 x3 x4 x5 : noinv (choose_optimal x0 x1 x2 x3 x4 x5).
Proof. unfold choose_optimal. ni. Qed.
#[local] Hint Resolve choose_optimal_ni : ni.

Lemma iso_loop_ni x0 x1 x2 x3 x4 x5 : noinv (iso_loop x0 x1 x2 x3 x4 x5).
Proof.
  revert x1 x2 x3 x4 x5. induction x0; intros; cbn; ni.
Qed.
#[local] Hint Resolve iso_loop_ni : ni.

Lemma iso_agglomerate_ni x0 x1 x2 x3 x4 x5 : noinv (iso_agglomerate x0 x1 x2 x3 x4 x5).
Proof. unfold iso_agglomerate. ni. Qed.
#[local] Hint Resolve iso_agglomerate_ni : ni.

(** ** Aniso *)

Lemma wmax_element_ni x0 : noinv (wmax_element x0).
Proof. unfold wmax_element. ni. Qed.
#[local] Hint Resolve wmax_element_ni : ni.

Lemma inv_dists_ni x0 x1 x2 : noinv (inv_dists x0 x1 x2).
Proof. unfold inv_dists. ni. Qed.
#[local] Hint Resolve inv_dists_ni : ni.

Lemma minmax_weight_ni x0 x1 : noinv (minmax_weight x0 x1).
Proof. unfold minmax_weight. ni. Qed.
#[local] Hint Resolve minmax_weight_ni : ni.

Lemma tag_cell_ni x0 x1 x2 x3 x4 x5 : noinv (tag_cell x0 x1 x2 x3 x4 x5).
Proof. unfold tag_cell. ni. Qed.
#[local] Hint Resolve tag_cell_ni : ni.

Lemma tag_anisotropic_cells_ni x0 x1 x2 x3 : noinv (tag_anisotropic_cells x0 x1 x2 x3).
Proof. unfold tag_anisotropic_cells. ni. Qed.
#[local] Hint Resolve tag_anisotropic_cells_ni : ni.

Lemma nbrs_ref_ni x0 x1 x2 : noinv (nbrs_ref x0 x1 x2).
Proof. unfold nbrs_ref. ni. Qed.
#[local] Hint Resolve nbrs_ref_ni : ni.

Lemma cand_max_weight_ni x0 x1 x2 x3 x4 : noinv (cand_max_weight x0 x1 x2 x3 x4).
Proof. unfold cand_max_weight. ni. Qed.
#[local] Hint Resolve cand_max_weight_ni : ni.

Lemma cand_direction_ni x0 x1 x2 x3 x4 x5 x6 : noinv (cand_direction x0 x1 x2 x3 x4 x5 x6).
Proof. unfold cand_direction. ni. Qed.
#[local] Hint Resolve cand_direction_ni : ni.

Lemma line_add_ni x0 x1 x2 : noinv (line_add x0 x1 x2).
Proof. unfold line_add. ni. Qed.
#[local] Hint Resolve line_add_ni : ni.

Lemma line_turn_ni x0 x1 : noinv (line_turn x0 x1).
Proof. unfold line_turn. ni. Qed.
#[local] Hint Resolve line_turn_ni : ni.

Lemma line_step_ni x0 x1 x2 x3 x4 x5 : noinv (line_step x0 x1 x2 x3 x4 x5).
Proof. unfold line_step. ni. Qed.
#[local] Hint Resolve line_step_ni : ni.

Lemma line_loop_ni x0 x1 x2 x3 x4 x5 x6 : noinv (line_loop x0 x1 x2 x3 x4 x5 x6).
Proof.
  revert x1 x2 x3 x4 x5 x6. induction x0; intros; cbn; ni.
Qed.
#[local] Hint Resolve line_loop_ni : ni.

Lemma build_line_ni x0 x1 x2 x3 x4 x5 x6 : noinv (build_line x0 x1 x2 x3 x4 x5 x6).
Proof. unfold build_line. ni. Qed.
#[local] Hint Resolve build_line_ni : ni.

Lemma build_anisotropic_lines_ni x0 x1 x2 x3 : noinv (build_anisotropic_lines x0 x1 x2 x3).
Proof. unfold build_anisotropic_lines. ni. Qed.
#[local] Hint Resolve build_anisotropic_lines_ni : ni.

Lemma input_lines_from_ni x0 x1 x2 x3 : noinv (input_lines_from x0 x1 x2 x3).
Proof.
  revert x0 x2 x3. induction x1; intros; cbn; ni.
Qed.
#[local] Hint Resolve input_lines_from_ni : ni.

Lemma input_lines_ni x0 x1 : noinv (input_lines x0 x1).
Proof. unfold input_lines. ni. Qed.
#[local] Hint Resolve input_lines_ni : ni.

Lemma lines_of_ni x0 x1 x2 x3 x4 x5 x6 : noinv (lines_of x0 x1 x2 x3 x4 x5 x6).
Proof. unfold lines_of. ni. Qed.
#[local] Hint Resolve lines_of_ni : ni.

Lemma loop_line_ni x0 x1 x2 x3 x4 x5 x6 x7 : noinv (loop_line x0 x1 x2 x3 x4 x5 x6 x7).
Proof.
  revert x1 x2 x3 x4 x5 x6 x7. induction x0; intros; cbn; ni.
Qed.
#[local] Hint Resolve loop_line_ni : ni.

Lemma forward_line_ni x0 x1 x2 : noinv (forward_line x0 x1 x2).
Proof. unfold forward_line. ni. Qed.
#[local] Hint Resolve forward_line_ni : ni.

Lemma agglo_line_ni x0 x1 x2 x3 x4 : noinv (agglo_line x0 x1 x2 x3 x4).
Proof. unfold agglo_line. ni. Qed.
#[local] Hint Resolve agglo_line_ni : ni.

Lemma update_seeds_pool_ni x0 x1 x2 x3 x4 : noinv (update_seeds_pool x0 x1 x2 x3 x4).
Proof. unfold update_seeds_pool. ni. Qed.
#[local] Hint Resolve update_seeds_pool_ni : ni.

Lemma aniso_agglomerate_ni x0 x1 x2 x3 x4 x5 : noinv (aniso_agglomerate x0 x1 x2 x3 x4 x5).
Proof. unfold aniso_agglomerate. ni. Qed.
#[local] Hint Resolve aniso_agglomerate_ni : ni.

End noinv.
