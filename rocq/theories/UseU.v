(** * UseU: arguments which do not matter (C53) *)

From Verif Require Import Lib Spec Main SpecUse UseT.

Section use.
Context {A : Arith} {H : HashOrder}.

(** ** The set of compliant cells *)
Definition set_compl (g : graph) (s : gset nat) : graph :=
  Graph _ (g_n g) (g_row g) (g_col g) (g_val g) (g_vol g) (g_cen g) (g_bnd g) s (g_2d g).

Lemma nbh_loop_c s fuel g aggl no mc dn dm iord : nbh_loop fuel (set_compl g s) aggl no mc dn dm iord = nbh_loop fuel g aggl no mc dn dm iord.
Proof.
  revert dn dm iord. induction fuel as [|fuel IH]; intros dn dm iord; simpl; [done|]. destruct (_ || _); [|done].
  change (next_layer (set_compl g s)) with (next_layer g). destruct (next_layer _ _ _ _ _); simpl; [|done].
  case_bool_decide; [done|apply IH].
Qed.
Lemma compute_neighbourhood_c s g seeds no mc aggl :
  compute_neighbourhood_of_cc (set_compl g s) seeds no mc aggl = compute_neighbourhood_of_cc g seeds no mc aggl.
Proof. unfold compute_neighbourhood_of_cc. destruct (massert _); [|done]. cbn [mbind res_bind]. by rewrite nbh_loop_c. Qed.
Lemma best_iterative_c s n : ∀ k g prio h dn ft cc arg faces out,
  best_iterative n k (set_compl g s) prio h dn ft cc arg faces out = best_iterative n k g prio h dn ft cc arg faces out.
Proof.
  induction n as [|n IH]; intros k g prio h dn ft cc arg faces out; cbn [best_iterative]; apply foldM_ext_eq; intros b x;
    change (compute_features k (set_compl g s)) with (compute_features k g); change (nbrs (set_compl g s)) with (nbrs g); [done|].
  destruct (compute_features _ _ _ _ _) as [[[nf ar] ft']|]; simpl; [|done]. destruct (nbrs g x); simpl; [|done].
  destruct (nbh_update _ _ _ _); simpl; [|done]. by rewrite IH.
Qed.
Lemma grow_step_c s ip g prio mi w : grow_step ip (set_compl g s) prio mi w = grow_step ip g prio mi w.
Proof.
  unfold grow_step. change (nbrs (set_compl g s)) with (nbrs g). destruct (nbrs g _); [|done]. cbn [mbind res_bind].
  destruct (nbh_update _ _ _ _) as [h|]; [|done]. cbn [mbind res_bind].
  assert (∀ fi, compute_best ip (set_compl g s) prio h (gw_dn w) (gw_ft w) (gw_cc w) fi = compute_best ip g prio h (gw_dn w) (gw_ft w) (gw_cc w) fi) as E.
  { intros fi. unfold compute_best. destruct (ip_it ip); [apply best_iterative_c|done]. }
  by rewrite E.
Qed.
Lemma grow_loop_c s k ip g prio mi w : grow_loop k ip (set_compl g s) prio mi w = grow_loop k ip g prio mi w.
Proof. revert w. induction k as [|k IH]; intros w; simpl; [done|]. rewrite grow_step_c. destruct (grow_step _ _ _ _ _); simpl; [apply IH|done]. Qed.
Lemma choose_optimal_c s ip g prio ct p seed : choose_optimal ip (set_compl g s) prio ct p seed = choose_optimal ip g prio ct p seed.
Proof.
  unfold choose_optimal. destruct (massert _); [|done]. cbn [mbind res_bind]. rewrite compute_neighbourhood_c.
  destruct (compute_neighbourhood_of_cc _ _ _ _ _) as [r|]; [|done]. cbn [mbind res_bind].
  case_bool_decide; [done|]. case_bool_decide; [done|]. change (feats_of_cell (set_compl g s)) with (feats_of_cell g).
  destruct (feats_of_cell g seed) as [ft|]; [|done]. cbn [mbind res_bind].
  change (nb_nbrs (set_compl g s)) with (nb_nbrs g). change (n_bnd (set_compl g s)) with (n_bnd g).
  destruct (nb_nbrs g seed) as [nn|]; [|done]. cbn [mbind res_bind]. destruct (n_bnd g seed) as [nb|]; [|done]. cbn [mbind res_bind].
  by rewrite grow_loop_c.
Qed.
Lemma iso_loop_c s fuel ip g prio ct p : iso_loop fuel ip (set_compl g s) prio ct p = iso_loop fuel ip g prio ct p.
Proof.
  revert ct p. induction fuel as [|fuel IH]; intros ct p; [done|]. cbn [iso_loop]. change (g_n (set_compl g s)) with (g_n g).
  case_bool_decide; [|done]. change (g_bnd (set_compl g s)) with (g_bnd g).
  destruct (choose_new_seed _ _ _ _) as [[o q]|]; simpl; [|done]. destruct (massert _); simpl; [|done].
  destruct (opt_value o) as [seed|]; simpl; [|done]. rewrite choose_optimal_c.
  destruct (choose_optimal _ _ _ _ _ _) as [[[cc cpt] q']|]; simpl; [|done]. destruct (create_cc _ _ _ _ _); simpl; [apply IH|done].
Qed.
Lemma iso_agglomerate_c s ip g prio corr ct p : iso_agglomerate ip (set_compl g s) prio corr ct p = iso_agglomerate ip g prio corr ct p.
Proof. unfold iso_agglomerate. change (g_n (set_compl g s)) with (g_n g). by rewrite iso_loop_c. Qed.

Lemma loop_line_c s fuel ap ap' g rest nc ct nb out : ap_odd ap' = ap_odd ap → ap_max ap' = ap_max ap →
  loop_line fuel ap' (set_compl g s) rest nc ct nb out = loop_line fuel ap g rest nc ct nb out.
Proof.
  intros Eo Em. revert rest nc ct nb out. induction fuel as [|fuel IH]; intros [|x [|y rest]] nc ct nb out; cbn [loop_line];
    unfold over_limit, at_limit; rewrite ?Eo, ?Em; try done.
  change (nbrs (set_compl g s)) with (nbrs g). destruct (match ap_max ap with Some m => _ | None => _ end); [done|].
  destruct (nbrs g x) as [nx|]; simpl; [|done]. destruct (nbrs g y) as [ny|]; simpl; [|done].
  destruct (_ || _).
  - destruct (ap_odd ap).
    + destruct (vget rest 0) as [z|]; simpl; [|done]. destruct (nbrs g z) as [nz|]; simpl; [|done].
      destruct (create_cc _ _ _ _ _); simpl; [|done]. destruct rest; [done|apply IH].
    + simpl. destruct (create_cc _ _ _ _ _); simpl; [|done]. destruct rest; [done|apply IH].
  - destruct (create_cc _ _ _ _ _); simpl; [apply IH|done].
Qed.
Lemma aniso_agglomerate_c s ap ap' g prio lines ct p : ap_odd ap' = ap_odd ap → ap_max ap' = ap_max ap →
  aniso_agglomerate ap' (set_compl g s) prio lines ct p = aniso_agglomerate ap g prio lines ct p.
Proof.
  intros Eo Em. unfold aniso_agglomerate. destruct lines as [|l lines]; [done|].
  rewrite (foldM_ext_eq (agglo_line ap' (set_compl g s) prio) (agglo_line ap g prio)); [done|].
  intros [[ct' nb] out] x. unfold agglo_line. case_bool_decide; [done|].
  change (forward_line (set_compl g s)) with (forward_line g). destruct (forward_line _ _ _); simpl; [|done].
  by rewrite (loop_line_c s _ ap ap').
Qed.

(** ** The arguments *)
Lemma phase2_c i compl build odd thr ml cp force ct p :
  phase2 (put_aniso i compl build odd thr ml cp force) ct p = phase2 i ct p.
Proof.
  unfold phase2. change (iso_params_of (put_aniso i compl build odd thr ml cp force)) with (iso_params_of i).
  destruct (iso_params_of i); simpl; [|done].
  change (graph_of (put_aniso i compl build odd thr ml cp force)) with (set_compl (graph_of i) (list_to_set compl)).
  apply iso_agglomerate_c.
Qed.

Lemma C53_off_lem i o o' compl build odd thr ml cp force r e : in_aniso i = false → agglomerate_one_level i o = (r, e) →
  let res := agglomerate_one_level (put_aniso i compl build odd thr ml cp force) o' in
  res.2 = e ∧ o_idx res.1 = o_idx o' ∧ o_lines res.1 = o_lines o' ∧ (e = Ok () → o_fc2cc res.1 = o_fc2cc r).
Proof.
  intros Ha. unfold agglomerate_one_level.
  assert (phase1 (put_aniso i compl build odd thr ml cp force) o' = phase1 i o) as ->.
  { unfold phase1.
    assert (sanity (put_aniso i compl build odd thr ml cp force) o' = sanity i o) as ->.
    { unfold sanity. simpl. rewrite Ha. done. }
    destruct (sanity i o) as [an|] eqn:Es; simpl; [|done].
    change (pool_of (put_aniso i compl build odd thr ml cp force)) with (pool_of i). destruct (pool_of i); simpl; [|done].
    assert (an = false) as ->; [|done]. unfold sanity in Es. rewrite Ha in Es. simpl in Es.
    repeat (apply bind_Ok_inv in Es as (? & _ & Es)). by simplify_eq. }
  destruct (phase1 i o) as [[[ct p] l]|] eqn:E1; [|by intros [= <- <-]].
  assert (l = None) as ->.
  { unfold phase1 in E1. apply bind_Ok_inv in E1 as (an & Es & E1). apply bind_Ok_inv in E1 as (q & _ & E1).
    assert (an = false) as ->.
    { unfold sanity in Es. rewrite Ha in Es. simpl in Es. repeat (apply bind_Ok_inv in Es as (? & _ & Es)). by simplify_eq. }
    apply bind_Ok_inv in E1 as (? & _ & E1). by simplify_eq. }
  rewrite phase2_c. destruct (phase2 i ct p) as [ct'|]; [|by intros [= <- <-]].
  destruct (fill _) as [f e']. by intros [= <- <-].
Qed.

Lemma C53_given_lem i o compl thr cp force : in_build i = false →
  agglomerate_one_level (put_aniso i compl false (in_odd i) thr (in_maxline i) cp force) o = agglomerate_one_level i o.
Proof.
  intros Hb. unfold agglomerate_one_level. set (i' := put_aniso i compl false (in_odd i) thr (in_maxline i) cp force).
  assert (phase1 i' o = phase1 i o) as ->.
  { unfold phase1. assert (sanity i' o = sanity i o) as -> by (unfold sanity, i'; simpl; by rewrite Hb).
    destruct (sanity i o) as [an|]; simpl; [|done]. change (pool_of i') with (pool_of i).
    destruct (pool_of i); simpl; [|done]. destruct an; [|done]. rewrite Hb. simpl.
    destruct (input_lines _ _); simpl; [|done].
    change (graph_of i') with (set_compl (graph_of i) (list_to_set compl)). change (sing_thresh i') with (sing_thresh i).
    change (g_n (set_compl (graph_of i) (list_to_set compl))) with (g_n (graph_of i)).
    rewrite (aniso_agglomerate_c _ (aniso_params_of i) (aniso_params_of i')); [done|done|].
    unfold i', aniso_params_of, max_line. simpl. by rewrite Hb. }
  destruct (phase1 i o) as [[[ct p] l]|]; [|done]. unfold i'. by rewrite phase2_c.
Qed.

Lemma C53_bnd_lem i o bnd : map (Z.min (in_dim i)) bnd = map (Z.min (in_dim i)) (in_bnd i) →
  agglomerate_one_level (put_bnd i bnd) o = agglomerate_one_level i o.
Proof.
  intros E.
  assert (∀ l, map (λ n, if bool_decide (in_dim i < n)%Z then in_dim i else n) l = map (Z.min (in_dim i)) l) as Hm.
  { intros l. apply map_ext. intros n. case_bool_decide; lia. }
  assert (graph_of (put_bnd i bnd) = graph_of i) as Eg.
  { unfold graph_of. f_equal. unfold fixed_bnd. simpl. by rewrite !Hm. }
  unfold agglomerate_one_level.
  assert (phase1 (put_bnd i bnd) o = phase1 i o) as ->.
  { unfold phase1. rewrite Eg. done. }
  destruct (phase1 i o) as [[[ct p] l]|]; [|done]. unfold phase2. rewrite Eg. done.
Qed.

Lemma C53_nbh_lem i o nbh : in_nbh i ≠ 0%Z → nbh ≠ 0%Z → agglomerate_one_level (put_nbh i nbh) o = agglomerate_one_level i o.
Proof.
  intros H0 H1. unfold agglomerate_one_level. change (phase1 (put_nbh i nbh) o) with (phase1 i o).
  destruct (phase1 i o) as [[[ct p] l]|]; [|done].
  assert (phase2 (put_nbh i nbh) ct p = phase2 i ct p) as ->; [|done].
  unfold phase2. assert (iso_params_of (put_nbh i nbh) = iso_params_of i) as ->; [|done].
  assert (bool_decide (nbh = 0%Z) = bool_decide (in_nbh i = 0%Z)) as E.
  { by rewrite (bool_decide_eq_false_2 (nbh = 0%Z)), (bool_decide_eq_false_2 (in_nbh i = 0%Z)). }
  unfold iso_params_of. simpl. by rewrite E.
Qed.

Lemma C53_coupling_lem i o cp : in_coupling i ≠ 1%Z → cp ≠ 1%Z →
  agglomerate_one_level (put_aniso i (in_compl i) (in_build i) (in_odd i) (in_thr i) (in_maxline i) cp (in_force i)) o
  = agglomerate_one_level i o.
Proof.
  intros H0 H1. unfold agglomerate_one_level.
  set (i' := put_aniso i (in_compl i) (in_build i) (in_odd i) (in_thr i) (in_maxline i) cp (in_force i)).
  assert (phase1 i' o = phase1 i o) as ->; [|done].
  assert (aniso_params_of i' = aniso_params_of i) as E.
  { unfold aniso_params_of, i'. simpl.
    by rewrite (bool_decide_eq_false_2 (cp = 1%Z)), (bool_decide_eq_false_2 (in_coupling i = 1%Z)). }
  unfold phase1. rewrite E. done.
Qed.

Lemma C53_out_lem i o f : (agglomerate_one_level i (put_fc2cc o f)).2 = (agglomerate_one_level i o).2 ∧
  ∀ r, agglomerate_one_level i o = (r, Ok ()) → agglomerate_one_level i (put_fc2cc o f) = (r, Ok ()).
Proof.
  unfold agglomerate_one_level. change (phase1 i (put_fc2cc o f)) with (phase1 i o).
  destruct (phase1 i o) as [[[ct p] l]|]; [|done]. destruct (phase2 i ct p) as [ct'|]; [|by destruct l as [l|]; [destruct (export_lines l)|]].
  destruct (fill _) as [v e]. destruct l as [l|]; [destruct (export_lines l)|]; simpl; split; try done.
Qed.

(** ** The threshold of the correction *)
Definition rct (c c' : container) : Prop :=
  ct_ccs c = ct_ccs c' ∧ ct_n c = ct_n c' ∧ ct_fc2cc c = ct_fc2cc c' ∧ ct_aggl c = ct_aggl c' ∧ ct_nagg c = ct_nagg c' ∧
  ct_delayed c = ct_delayed c'.
Lemma create_cc_t c c' s cpt an de : rct c c' → both rct (create_cc c s cpt an de) (create_cc c' s cpt an de).
Proof.
  destruct c as [ccs n f ag th na de' si], c' as [ccs' n' f' ag' th' na' de'' si']. unfold rct. simpl.
  intros (<- & <- & <- & <- & <- & <-). unfold create_cc. destruct (massert _); simpl; [|constructor].
  eapply (both_bind eq). { unfold mark_cells. simpl. apply both_refl. } intros mk ? <-.
  destruct de; [constructor; by repeat split|]. eapply (both_bind eq); [apply both_refl|]. intros v ? <-.
  constructor. by repeat split.
Qed.
Lemma create_all_delayed_t c c' : rct c c' → both rct (create_all_delayed c) (create_all_delayed c').
Proof.
  intros Hc. unfold create_all_delayed. eapply (both_bind rct).
  - assert (ct_delayed c' = ct_delayed c) as -> by (symmetry; apply Hc). apply both_foldM; [done|].
    intros b d [s cpt] _ Hbd. by apply create_cc_t.
  - intros x y (E1 & E2 & E3 & E4 & E5 & _). constructor. unfold rct. simpl. by repeat split.
Qed.
Lemma iso_loop_t fuel ip g prio c c' p : rct c c' →
  both (λ r r', rct r.1 r'.1) (iso_loop fuel ip g prio c p) (iso_loop fuel ip g prio c' p).
Proof.
  revert c c' p. induction fuel as [|fuel IH]; intros c c' p Hc; cbn [iso_loop]; [constructor|].
  assert (ct_nagg c' = ct_nagg c) as -> by (symmetry; apply Hc). case_bool_decide; [|by constructor].
  assert (ct_aggl c' = ct_aggl c) as Ea by (symmetry; apply Hc). rewrite Ea.
  eapply (both_bind eq); [apply both_refl|]. intros [o q] ? <-. eapply (both_bind eq); [apply both_refl|]. intros ? ? <-.
  eapply (both_bind eq); [apply both_refl|]. intros seed ? <-.
  assert (choose_optimal ip g prio c' q seed = choose_optimal ip g prio c q seed) as -> by (unfold choose_optimal; by rewrite Ea).
  eapply (both_bind eq); [apply both_refl|]. intros [[cc cpt] q'] ? <-. eapply (both_bind rct); [by apply create_cc_t|].
  intros d d' Hd. by apply IH.
Qed.
Lemma loop_line_t fuel ap g rest nc c c' nb out : rct c c' →
  both (λ r r', rct r.1.1 r'.1.1 ∧ r.1.2 = r'.1.2 ∧ r.2 = r'.2) (loop_line fuel ap g rest nc c nb out) (loop_line fuel ap g rest nc c' nb out).
Proof.
  revert rest nc c c' nb out. induction fuel as [|fuel IH]; intros [|x [|y rest]] nc c c' nb out Hc; cbn [loop_line];
    try (by constructor); destruct (over_limit _ _); try (by constructor).
  eapply (both_bind eq); [apply both_refl|]. intros nx ? <-. eapply (both_bind eq); [apply both_refl|]. intros ny ? <-.
  destruct (_ || _).
  - eapply (both_bind eq); [apply both_refl|]. intros [[s k] l] ? <-. eapply (both_bind rct); [by apply create_cc_t|].
    intros d d' Hd. destruct rest; [constructor|]. assert (ct_n d' = ct_n d) as -> by (symmetry; apply Hd). by apply IH.
  - eapply (both_bind rct); [by apply create_cc_t|].
    intros d d' Hd. assert (ct_n d' = ct_n d) as -> by (symmetry; apply Hd). by apply IH.
Qed.
Lemma aniso_agglomerate_t ap g prio lines c c' p : rct c c' →
  both (λ r r', rct r.1.1 r'.1.1 ∧ r.1.2 = r'.1.2 ∧ r.2 = r'.2) (aniso_agglomerate ap g prio lines c p) (aniso_agglomerate ap g prio lines c' p).
Proof.
  intros Hc. unfold aniso_agglomerate. destruct lines as [|l lines].
  { eapply (both_bind eq); [apply both_refl|]. intros q ? <-. by constructor. }
  eapply (both_bind (λ r r' : container * list nat * list (list nat), rct r.1.1 r'.1.1 ∧ r.1.2 = r'.1.2 ∧ r.2 = r'.2)).
  - apply both_foldM; [done|]. intros [[d nb] out] [[d' nb'] out'] a _ (Hd & E1 & E2). simpl in *. subst nb' out'.
    unfold agglo_line. case_bool_decide; [by constructor|]. eapply (both_bind eq); [apply both_refl|]. intros f ? <-.
    eapply both_bind; [by apply loop_line_t|]. intros [[e nb1] o1] [[e' nb1'] o1'] (He & E1 & E2). simpl in *. subst. by constructor.
  - intros [[d nb] out] [[d' nb'] out'] (Hd & E1 & E2). simpl in *. subst nb' out'.
    assert (update_seeds_pool g prio d' nb p = update_seeds_pool g prio d nb p) as ->.
    { unfold update_seeds_pool. assert (ct_aggl d' = ct_aggl d) as -> by (symmetry; apply Hd). done. }
    eapply (both_bind eq); [apply both_refl|]. intros q ? <-. by constructor.
Qed.

Lemma C53_thr_lem i o s : in_corr i = false → (0 < in_sing i)%Z → (0 < s)%Z →
  agglomerate_one_level (put_sing i s) o = agglomerate_one_level i o.
Proof.
  intros Hc H0 H1. unfold agglomerate_one_level.
  assert (both (λ r r', rct r.1.1 r'.1.1 ∧ r.1.2 = r'.1.2 ∧ r.2 = r'.2) (phase1 i o) (phase1 (put_sing i s) o)) as HB.
  { unfold phase1. assert (sanity (put_sing i s) o = sanity i o) as ->.
    { unfold sanity. simpl. assert (bool_decide (in_sing i ≤ 0)%Z = false) as -> by (apply bool_decide_eq_false; lia).
      by assert (bool_decide (s ≤ 0)%Z = false) as -> by (apply bool_decide_eq_false; lia). }
    destruct (sanity i o) as [an|]; simpl; [|constructor]. change (pool_of (put_sing i s)) with (pool_of i).
    destruct (pool_of i) as [p|]; simpl; [|constructor].
    change (graph_of (put_sing i s)) with (graph_of i). change (aniso_params_of (put_sing i s)) with (aniso_params_of i).
    destruct an.
    - eapply (both_bind eq); [apply both_refl|]. intros l ? <-. eapply both_bind; [by apply aniso_agglomerate_t|].
      intros [[d q] out] [[d' q'] out'] (Hd & E1 & E2). simpl in *. subst. by constructor.
    - eapply (both_bind eq); [apply both_refl|]. intros l ? <-. by constructor. }
  destruct HB as [[[c p] l] [[c' p'] l'] (Hct & E1 & E2)|]; [|done]. simpl in *. subst p' l'.
  assert (both rct (phase2 i c p) (phase2 (put_sing i s) c' p)) as HB.
  { unfold phase2. change (iso_params_of (put_sing i s)) with (iso_params_of i). eapply (both_bind eq); [apply both_refl|]. intros ip ? <-.
    unfold iso_agglomerate. change (graph_of (put_sing i s)) with (graph_of i). change (in_prio (put_sing i s)) with (in_prio i).
    change (in_corr (put_sing i s)) with (in_corr i). rewrite Hc.
    eapply both_bind; [by apply iso_loop_t|]. intros x y Hxy. simpl in Hxy. eapply both_bind; [by apply create_all_delayed_t|].
    intros d d' Hd. by constructor. }
  destruct HB as [x y Hxy|]; [|done]. assert (ct_fc2cc y = ct_fc2cc x) as -> by (symmetry; apply Hxy). done.
Qed.

Lemma C53_clip_lem i o s : (in_min i <= in_sing i)%Z → (in_min i <= s)%Z → (1 < in_min i)%Z →
  agglomerate_one_level (put_sing i s) o = agglomerate_one_level i o.
Proof.
  intros H0 H1 H2. unfold agglomerate_one_level.
  assert (phase1 (put_sing i s) o = phase1 i o) as ->; [|done].
  unfold phase1. assert (sanity (put_sing i s) o = sanity i o) as ->.
  { unfold sanity. simpl. assert (bool_decide (in_sing i ≤ 0)%Z = false) as -> by (apply bool_decide_eq_false; lia).
    by assert (bool_decide (s ≤ 0)%Z = false) as -> by (apply bool_decide_eq_false; lia). }
  assert (sing_thresh (put_sing i s) = sing_thresh i) as ->; [|done].
  unfold sing_thresh. simpl. by rewrite (bool_decide_eq_true_2 (in_min i <= s)%Z), (bool_decide_eq_true_2 (in_min i <= in_sing i)%Z).
Qed.
End use.
