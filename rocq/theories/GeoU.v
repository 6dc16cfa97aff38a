(** * GeoU: the origin of coordinates does not matter (C55) *)

From Coq Require Import Ring_theory.
From Verif Require Import Lib Spec Main SpecFeat SpecAR SpecGeo UseT GeoT.

Section cen.
Context {A : Arith} {H : HashOrder}.
Context (g : graph) (cen' : list (list W)).
Notation cen := (g_cen g).
Notation g' := (regeom g (g_val g) (g_vol g) cen').
Definition pts (c c' : list W) : Prop := ∃ x, cen !! x = Some c ∧ cen' !! x = Some c'.
Context (SS : same_shape cen cen').

Lemma cen_vget x : both (λ c c', pts c c' ∧ length c' = length c) (vget cen x) (vget cen' x).
Proof using SS.
  unfold vget. destruct (cen !! x) as [c|] eqn:E.
  - destruct (lookup_lt_is_Some_2 cen' x) as [c' E']; [rewrite (ss_len _ _ SS); by eapply lookup_lt_Some|].
    rewrite E'. constructor. split; [by exists x|by eapply (ss_dim _ _ SS)].
  - apply lookup_ge_None in E. rewrite <- (ss_len _ _ SS) in E. apply lookup_ge_None in E. rewrite E. constructor.
Qed.

(** ** Features *)
Definition nosum (f f' : feats) : Prop := f' = set_sum f (f_sum f').
Section ar.
Context (k : ar_kind) (Hm : needs_moments k = false).
Context (HD : needs_distances k = true → ∀ a a' b b', pts a a' → pts b b' → sqdist a' b' = sqdist a b).
Lemma approx_cen i f f' X : needs_distances k = true → nosum f f' → approx_features g' i f' X = approx_features g i f X.
Proof using SS HD.
  intros Hk ->. symmetry. apply both_eq. unfold approx_features. eapply both_bind; [apply cen_vget|]. intros c c' [Hc _].
  apply both_foldM; [done|]. intros [md me] ? j _ <-. eapply both_bind; [apply cen_vget|]. intros b b' [Hb _].
  rewrite (HD Hk c c' b b') by done. apply both_refl.
Qed.
Lemma features_cen i f f' X : nosum f f' → compute_features k g' i f' X = compute_features k g i f X.
Proof using SS HD Hm.
  intros Hf. assert (∀ cw uf, update_basic cw uf g' i f' X = update_basic cw uf g i f X) as HU by (intros; by rewrite Hf).
  pose proof (λ Hk, approx_cen i f f' X Hk Hf) as HA. unfold compute_features.
  destruct k; try done; rewrite HU; try done; rewrite HA by done; done.
Qed.
Lemma cell_cen s : both nosum (feats_of_cell g s) (feats_of_cell g' s).
Proof using SS.
  unfold feats_of_cell. change (estimated_total_weight (regeom g (g_val g) (g_vol g) cen')) with (estimated_total_weight g).
  change (total_n_faces (regeom g (g_val g) (g_vol g) cen')) with (total_n_faces g). cbn [g_vol g_cen regeom].
  destruct (vget (g_vol g) s) as [vol|]; simpl; [|constructor]. destruct (estimated_total_weight g s) as [e|]; simpl; [|constructor].
  destruct (total_n_faces g s) as [nf|]; simpl; [|constructor]. eapply both_bind; [apply cen_vget|]. intros c c' _. by constructor.
Qed.
End ar.
Lemma choose_optimal_cen ip prio ct p seed : needs_moments (ip_ar ip) = false →
  (needs_distances (ip_ar ip) = true → ∀ a a' b b', pts a a' → pts b b' → sqdist a' b' = sqdist a b) →
  choose_optimal ip g' prio ct p seed = choose_optimal ip g prio ct p seed.
Proof using SS.
  intros Hm HD. apply (choose_optimal_two g (g_val g) (g_vol g) cen' prio ip (λ _, nosum) (λ _, eq) (λ _ _, True) (λ _ _ _, True)).
  - by intros _ a ? b ? <- <-.
  - done.
  - intros _ X i f f' _ _ Hf. rewrite (features_cen _ Hm HD i f f' X Hf). destruct (compute_features _ g i f X) as [[[nf ar] ft]|]; constructor.
    split_and!; try done; [by destruct ft|]. left. by intros _.
  - done.
  - intros. split; [done|]. intros _. by intros _.
  - done.
  - apply cell_cen.
  - done.
Qed.
Lemma iso_loop_cen ip prio fuel : needs_moments (ip_ar ip) = false →
  (needs_distances (ip_ar ip) = true → ∀ a a' b b', pts a a' → pts b b' → sqdist a' b' = sqdist a b) →
  ∀ ct p, iso_loop fuel ip g' prio ct p = iso_loop fuel ip g prio ct p.
Proof using SS.
  intros Hm HD. induction fuel as [|fuel IH]; intros ct p; simpl; [done|]. case_bool_decide; [|done].
  destruct (choose_new_seed _ _ _ _) as [[o q]|]; simpl; [|done].
  destruct (massert _); simpl; [|done]. destruct (opt_value o) as [seed|]; simpl; [|done].
  rewrite choose_optimal_cen by done. destruct (choose_optimal _ _ _ _ _ _) as [[[cc cpt] q']|]; simpl; [|done].
  destruct (create_cc _ _ _ _ _); simpl; [apply IH|done].
Qed.

(** ** Lines *)
Section lines.
Context (HD : ∀ a a' b b', pts a a' → pts b b' → sqdist a' b' = sqdist a b ∧ dir_diff a' b' = dir_diff a b).
Lemma tag_cen ap prio thr : tag_anisotropic_cells ap g' prio thr = tag_anisotropic_cells ap g prio thr.
Proof using SS HD.
  unfold tag_anisotropic_cells. cbn [g_compl g_n g_val regeom].
  rewrite (foldM_ext_eq (tag_cell ap g' prio thr) (tag_cell ap g prio thr)); [done|].
  intros [[alt mw] aw] i. unfold tag_cell. change (minmax_weight (regeom g (g_val g) (g_vol g) cen')) with (minmax_weight g).
  change (wgts (regeom g (g_val g) (g_vol g) cen')) with (wgts g). change (compute_AR (regeom g (g_val g) (g_vol g) cen')) with (compute_AR g).
  match goal with |- (x ← ?e; _) = _ => destruct e as [aw'|] end; simpl; [|done].
  destruct (ap_mindist ap); [|done].
  assert (inv_dists g' i alt = inv_dists g i alt) as ->; [|done].
  symmetry. apply both_eq. unfold inv_dists. cbn [g_row g_cen regeom]. change (nbrs (regeom g (g_val g) (g_vol g) cen')) with (nbrs g).
  destruct (vget (g_row g) i) as [off|]; simpl; [|constructor]. destruct (nbrs g i) as [l|]; simpl; [|constructor].
  eapply both_bind; [apply cen_vget|]. intros c c' [Hc _]. eapply (both_bind eq); [|intros ? ? <-; apply both_refl].
  apply both_foldM; [done|]. intros [[al m] pos] ? n _ <-. eapply both_bind; [apply cen_vget|]. intros b b' [Hb _].
  rewrite (proj1 (HD c c' b b' Hc Hb)). apply both_refl.
Qed.
Lemma direction_cen c c' b b' d : pts c c' → pts b b' → get_direction c' b' d = get_direction c b d.
Proof using HD. intros Hc Hb. unfold get_direction. by rewrite (proj2 (HD c c' b b' Hc Hb)). Qed.
Lemma line_add_cen s c : line_add g' s c = line_add g s c.
Proof using SS HD.
  symmetry. apply both_eq. unfold line_add. cbn [g_cen regeom]. destruct (vset _ _ _) as [tr|]; simpl; [|constructor].
  eapply both_bind; [apply cen_vget|]. intros a a' [Ha _]. eapply both_bind; [apply cen_vget|]. intros b b' [Hb _].
  rewrite (direction_cen a a' b b') by done. apply both_refl.
Qed.
Lemma cand_direction_cen seed tr ws mw dir chk : cand_direction g' seed tr ws mw dir chk = cand_direction g seed tr ws mw dir chk.
Proof using SS HD.
  symmetry. apply both_eq. unfold cand_direction. cbn [g_cen regeom]. change (nbrs_ref (regeom g (g_val g) (g_vol g) cen')) with (nbrs_ref g).
  destruct (nbrs_ref g ws seed) as [l|]; simpl; [|constructor]. eapply both_bind; [apply cen_vget|]. intros c0 c0' [_ ->].
  apply both_foldM; [done|]. intros s ? [n w] _ <-. destruct (vget tr n) as [t|]; simpl; [|constructor]. destruct t; [|by constructor].
  match goal with |- both _ (ok ← ?e; _) _ => destruct e as [ok|] end; simpl; [|constructor]. destruct ok; [|by constructor].
  eapply both_bind; [apply cen_vget|]. intros a a' [Ha _]. eapply both_bind; [apply cen_vget|]. intros b b' [Hb _].
  rewrite (direction_cen a a' b b') by done. apply both_refl.
Qed.
Lemma line_loop_cen ap ws mw primal fuel : ∀ s, line_loop fuel ap g' ws mw primal s = line_loop fuel ap g ws mw primal s.
Proof using SS HD.
  induction fuel as [|fuel IH]; intros s; simpl; [done|].
  assert (line_step ap g' ws mw primal s = line_step ap g ws mw primal s) as ->.
  { unfold line_step. change (cand_max_weight (regeom g (g_val g) (g_vol g) cen')) with (cand_max_weight g).
    rewrite !cand_direction_cen. match goal with |- (cs ← ?e; _) = _ => destruct e as [cs|] end; simpl; [|done].
    destruct cs as [|[c ?] cs]; [|by rewrite line_add_cen]. destruct (ap_force ap && negb (ls_empty s)); [|done].
    destruct (cand_direction g _ _ _ _ _ _) as [cs|]; simpl; [|done]. destruct cs as [|[c ?] cs]; [done|]. by rewrite line_add_cen. }
  destruct (line_step ap g ws mw primal s) as [[s'|]|]; simpl; [apply IH|done|done].
Qed.
Lemma lines_of_cen b ap prio thr idx cells : lines_of b ap g' prio thr idx cells = lines_of b ap g prio thr idx cells.
Proof using SS HD.
  unfold lines_of. destruct b; [|done]. unfold build_anisotropic_lines. rewrite tag_cen.
  match goal with |- (t ← ?e; _) = _ => destruct e as [[[[alt mw] tr] seeds]|] end; simpl; [|done].
  destruct seeds as [|s seeds]; [done|]. pose proof (cen_vget 0) as HB. cbn [g_cen regeom].
  symmetry. apply both_eq. eapply both_bind; [exact HB|]. intros c c' [_ ->]. clear HB.
  rewrite (foldM_ext_eq (build_line ap g' (if ap_mindist ap then alt else g_val g) mw (length c))
    (build_line ap g (if ap_mindist ap then alt else g_val g) mw (length c))); [apply both_refl|].
  intros [tr' lines] i. unfold build_line. destruct (vget tr' i) as [b|]; simpl; [|done]. destruct b; [|done].
  destruct (vset tr' i false) as [tr2|]; cbn [mbind res_bind]; [|done]. by rewrite line_loop_cen.
Qed.
End lines.
End cen.

(** ** Vectors *)
Section vec.
Context {A : Arith}.
Lemma sqd_diff a b a' b' acc : length a' = length a → length b' = length b → zip_with wsub a' b' = zip_with wsub a b →
  sqd_acc acc a' b' = sqd_acc acc a b.
Proof.
  revert b a' b' acc. induction a as [|x a IH]; intros [|y b] [|x' a'] [|y' b'] acc; simpl; intros Ha Hb Hz; try done.
  injection Hz as -> Hz. apply IH; [lia|lia|done].
Qed.
Lemma dir_diff_diff a b a' b' : length a' = length a → length b' = length b → zip_with wsub b' a' = zip_with wsub b a →
  dir_diff a' b' = dir_diff a b.
Proof.
  revert b a' b'. induction a as [|x a IH]; intros [|y b] [|x' a'] [|y' b']; simpl; intros Ha Hb Hz; try done.
  injection Hz as -> Hz. by rewrite (IH b a' b') by (done || lia).
Qed.
Lemma sqd_dist2 (EA : exact_arith) a b acc : length a ≤ length b → sqd_acc acc a b = Ok (wadd acc (dist2 a b)).
Proof.
  pose proof (ea_ring EA) as RT. revert b acc. induction a as [|x a IH]; intros [|y b] acc; simpl; intros Hl; try lia.
  - unfold dist2. simpl. f_equal. by rewrite (Radd_comm RT), (Radd_0_l RT).
  - unfold dist2. simpl. f_equal. by rewrite (Radd_comm RT), (Radd_0_l RT).
  - rewrite IH by lia. unfold dist2. simpl. by rewrite (Radd_assoc RT).
Qed.
Lemma sqd_short a b acc : length b < length a → sqd_acc acc a b = Err EUB.
Proof. revert b acc. induction a as [|x a IH]; intros [|y b] acc; simpl; intros Hl; try lia; [done|]. apply IH. lia. Qed.
Lemma sqdist_dist2 (EA : exact_arith) a b a' b' : length a' = length a → length b' = length b → dist2 a' b' = dist2 a b →
  sqdist a' b' = sqdist a b.
Proof.
  intros Ha Hb Hd. unfold sqdist. destruct (decide (length a ≤ length b)).
  - by rewrite !(sqd_dist2 EA), Hd by lia.
  - by rewrite !sqd_short by lia.
Qed.
End vec.

Section main.
Context {A : Arith} {H : HashOrder}.
Lemma ar_kind_Z z d k : ar_of_Z z d = Some k →
  (needs_distances k = true → (z = 0 ∨ z = 1 ∨ z = 2)%Z) ∧ (z ≠ 7%Z → z ≠ 8%Z → needs_moments k = false).
Proof.
  unfold ar_of_Z. generalize (bool_decide (d = 2)%Z). intros b. destruct z as [|q|q]; [intros [= <-]| |done].
  { split; [by left|done]. }
  repeat (destruct q as [q|q|]; try done); intros [= <-]; simpl; split; intros; try done; auto.
Qed.
Lemma ip_kind i ip : iso_params_of i = Ok ip →
  (needs_distances (ip_ar ip) = true → (in_ar i = 0 ∨ in_ar i = 1 ∨ in_ar i = 2)%Z) ∧
  (in_ar i ≠ 7%Z → in_ar i ≠ 8%Z → needs_moments (ip_ar ip) = false).
Proof.
  unfold iso_params_of. destruct (ar_of_Z (in_ar i) (in_dim i)) as [k|] eqn:E; [|done].
  intros [= <-]. change (ip_ar _) with k. by eapply ar_kind_Z.
Qed.
Lemma put_cen_same i o cen' : same_shape (in_cen i) cen' → in_ar i ≠ 7%Z → in_ar i ≠ 8%Z →
  ((in_ar i = 0 ∨ in_ar i = 1 ∨ in_ar i = 2)%Z → ∀ a a' b b', pts (graph_of i) cen' a a' → pts (graph_of i) cen' b b' → sqdist a' b' = sqdist a b) →
  (in_aniso i = true → in_build i = true → ∀ a a' b b', pts (graph_of i) cen' a a' → pts (graph_of i) cen' b b' →
    sqdist a' b' = sqdist a b ∧ dir_diff a' b' = dir_diff a b) →
  agglomerate_one_level (put_cen i cen') o = agglomerate_one_level i o.
Proof.
  intros SS H7 H8 HD HL. set (g := graph_of i).
  assert (graph_of (put_cen i cen') = regeom g (g_val g) (g_vol g) cen') as Hg by done.
  unfold agglomerate_one_level.
  assert (phase1 (put_cen i cen') o = phase1 i o) as ->.
  { unfold phase1. change (sanity (put_cen i cen') o) with (sanity i o). change (pool_of (put_cen i cen')) with (pool_of i).
    destruct (sanity i o) as [an|] eqn:Hs; simpl; [|done]. destruct (pool_of i) as [p|] eqn:Hp; simpl; [|done].
    change (sing_thresh (put_cen i cen')) with (sing_thresh i). change (aniso_params_of (put_cen i cen')) with (aniso_params_of i).
    rewrite Hg. destruct an; [|done].
    assert (lines_of (in_build i) (aniso_params_of i) (regeom g (g_val g) (g_vol g) cen') (in_prio i) (in_thr i) (o_idx o) (o_lines o)
      = lines_of (in_build i) (aniso_params_of i) g (in_prio i) (in_thr i) (o_idx o) (o_lines o)) as ->.
    { destruct (in_build i) eqn:Hb; [|done]. apply (lines_of_cen g cen' SS). apply HL; [|done].
      unfold sanity in Hs. rewrite Hb in Hs. clear -Hs. destruct (in_aniso i); [done|]. simpl in Hs.
      repeat match type of Hs with (_ ← ?e; _) = _ => destruct e; simpl in Hs; try done end. }
    destruct (lines_of _ _ _ _ _ _ _) as [lines|]; simpl; [|done]. by rewrite aniso_agglomerate_geom. }
  destruct (phase1 i o) as [[[ct p] l]|]; [|done].
  assert (phase2 (put_cen i cen') ct p = phase2 i ct p) as ->; [|done].
  unfold phase2. change (iso_params_of (put_cen i cen')) with (iso_params_of i). destruct (iso_params_of i) as [ip|] eqn:Hip; simpl; [|done].
  rewrite Hg. unfold iso_agglomerate. cbn [g_n regeom in_corr put_cen put_geom in_prio].
  rewrite (iso_loop_cen g cen' SS); [done| |].
  - destruct (ip_kind _ _ Hip) as [_ Hm]. by apply Hm.
  - intros Hk. apply HD. destruct (ip_kind _ _ Hip) as [Hd _]. by apply Hd.
Qed.

Lemma pts_diff i cen' : same_differences (in_cen i) cen' → ∀ a a' b b', pts (graph_of i) cen' a a' → pts (graph_of i) cen' b b' →
  sqdist a' b' = sqdist a b ∧ dir_diff a' b' = dir_diff a b.
Proof.
  intros [SS SD] a a' b b' (x & Ha & Ha') (y & Hb & Hb'). split.
  - unfold sqdist. apply sqd_diff; [by eapply (ss_dim _ _ SS)|by eapply (ss_dim _ _ SS)|by eapply SD].
  - apply dir_diff_diff; [by eapply (ss_dim _ _ SS)|by eapply (ss_dim _ _ SS)|by eapply SD].
Qed.

(** Only the differences of the centres matter. *)
Lemma differences (i : input) (o : outs) (cen' : list (list W)) :
  same_differences (in_cen i) cen' → in_ar i ≠ 7%Z → in_ar i ≠ 8%Z →
  agglomerate_one_level (put_cen i cen') o = agglomerate_one_level i o.
Proof.
  intros SD H7 H8. pose proof (pts_diff i cen' SD) as HP. apply put_cen_same; [by destruct SD|done|done| |].
  - intros _ a a' b b' Ha Hb. by apply (HP a a' b b').
  - intros _ _. done.
Qed.
Lemma translated_differences (t : list W) (cen : list (list W)) :
  (∀ a b s, wsub (wadd a s) (wadd b s) = wsub a b) → Forall (λ c, length c ≤ length t) cen →
  same_differences cen (translated t cen).
Proof.
  intros HL Ht. rewrite Forall_forall in Ht. split; [split|].
  - apply map_length.
  - intros x c c' Hc. unfold translated. rewrite list_lookup_fmap, Hc. simpl. intros [= <-].
    rewrite zip_with_length. specialize (Ht c (elem_of_list_lookup_2 _ _ _ Hc)). lia.
  - intros x y a b a' b' Ha Hb. unfold translated. rewrite !list_lookup_fmap, Ha, Hb. simpl. intros [= <-] [= <-].
    pose proof (Ht a (elem_of_list_lookup_2 _ _ _ Ha)) as La. pose proof (Ht b (elem_of_list_lookup_2 _ _ _ Hb)) as Lb.
    clear -HL La Lb. revert b t La Lb. induction a as [|x a IH]; intros [|y b] [|s t]; simpl; intros La Lb; try done; try lia.
    rewrite HL. f_equal. apply IH; lia.
Qed.
Lemma translation (i : input) (o : outs) (t : list W) :
  (∀ a b s, wsub (wadd a s) (wadd b s) = wsub a b) → Forall (λ c, length c ≤ length t) (in_cen i) →
  in_ar i ≠ 7%Z → in_ar i ≠ 8%Z →
  agglomerate_one_level (put_cen i (translated t (in_cen i))) o = agglomerate_one_level i o.
Proof. intros HL Ht. apply differences. by apply translated_differences. Qed.
(** Without built lines, only the distances matter. *)
Lemma distances (i : input) (o : outs) (cen' : list (list W)) :
  exact_arith → same_distances (in_cen i) cen' → in_ar i ≠ 7%Z → in_ar i ≠ 8%Z → in_aniso i = false ∨ in_build i = false →
  agglomerate_one_level (put_cen i cen') o = agglomerate_one_level i o.
Proof.
  intros EA [SS SD] H7 H8 HB. apply put_cen_same; [done..| |intros Ha Hb; destruct HB; congruence].
  intros _ a a' b b' (x & Ha & Ha') (y & Hb & Hb'). apply (sqdist_dist2 EA); [by eapply (ss_dim _ _ SS)|by eapply (ss_dim _ _ SS)|by eapply SD].
Qed.
(** The other aspect ratios do not use the centres. *)
Lemma centres_unused (i : input) (o : outs) (cen' : list (list W)) :
  same_shape (in_cen i) cen' → in_ar i ∉ [0; 1; 2; 7; 8]%Z → in_aniso i = false ∨ in_build i = false →
  agglomerate_one_level (put_cen i cen') o = agglomerate_one_level i o.
Proof.
  intros SS Har HB. apply put_cen_same; [done|set_solver|set_solver| |intros Ha Hb; destruct HB; congruence].
  intros Hk. exfalso. set_solver.
Qed.
End main.
