(** * FeatU: each call of the aspect-ratio computers yields the features of
    the enlarged cell and its aspect ratio *)

From Coq Require Import Ring.
From Verif Require Import Lib Spec SpecSub SpecFeat GraphP FeaturesP SubT Features SpecAR FeatT.

Section model.
Context {A : Arith} {H : HashOrder} (EA : exact_arith) (WO : weak_order (@wlt A) (λ _, True)).
Add Ring Wring3 : (ea_ring EA).
Context (g : graph) (WF : wfg g) (dim : nat).
Context (Hvol : length (g_vol g) = g_n g) (Hcen : length (g_cen g) = g_n g).
Context (Hdim : ∀ k c, g_cen g !! k = Some c → length c = dim).
Context (Hbnd : length (g_bnd g) = g_n g).
Context (Hw : sym_weights (g_row g) (g_col g) (g_val g)).
Implicit Types (f : feats) (X : gset nat).

Notation row := (g_row g).
Notation col := (g_col g).
Notation val := (g_val g).
Notation vol := (g_vol g).
Notation cen := (g_cen g).
Notation bnd := (g_bnd g).

Lemma adj_nb i : adj g i = nb_list row col i.
Proof. done. Qed.

Lemma shared_w_eq i X : shared_w g i X = sum_l (faces_to row col val (λ y, y ≠ i ∧ y ∈ X) i).
Proof.
  unfold shared_w, faces_to. rewrite entries_adj. generalize (zip (adj g i) (adjw g i)). intros l.
  assert (∀ acc, foldl (λ sw '(n, w), if bool_decide (n ≠ i) && bool_decide (n ∈ X) then wadd sw w else sw) acc l =
    wadd acc (sum_l (filter (λ e : nat * W, e.1 ≠ i ∧ e.1 ∈ X) l).*2)) as Hg.
  { induction l as [|[n w] l IH]; intros acc; simpl; [unfold sum_l; simpl; ring|].
    rewrite filter_cons. cbn [fst]. destruct (decide (n ≠ i ∧ n ∈ X)) as [[H1 H2]|Hn].
    - rewrite !bool_decide_true by done. cbn [andb]. rewrite IH. rewrite fmap_cons, sum_l_cons. cbn [snd]. ring.
    - assert (bool_decide (n ≠ i) && bool_decide (n ∈ X) = false) as ->; [|apply IH].
      apply andb_false_iff. rewrite !bool_decide_eq_false. destruct (decide (n ≠ i)); tauto. }
  rewrite Hg. ring.
Qed.

Lemma shared_size i X : size (shared g i X) = nb_in row col X (λ y, y ≠ i) i.
Proof.
  unfold nb_in. f_equal. apply set_eq. intros y. rewrite elem_of_shared, elem_of_filter, adj_nb. tauto.
Qed.

Lemma faces_all i : i < g_n g → faces_to row col val (λ _, True) i = adjw g i.
Proof.
  intros Hi. unfold faces_to. rewrite entries_adj.
  assert (∀ l : list (nat * W), filter (λ e : nat * W, True) l = l) as ->.
  { induction l as [|e l IH]; [done|]. rewrite filter_cons_True by done. by rewrite IH. }
  apply snd_zip. rewrite (adjw_length g WF). done.
Qed.

Lemma total_weight_eq i : i < g_n g → estimated_total_weight g i =
  Ok (wadd (sum_l (faces_to row col val (λ _, True) i)) (bnd_weight row col val bnd i)).
Proof.
  intros Hi. unfold estimated_total_weight, estimated_boundary_weight, n_bnd.
  rewrite (wgts_ok g WF) by done. rewrite !bind_ok.
  destruct (lookup_lt_is_Some_2 bnd i) as [b Hb]; [lia|]. unfold vget. rewrite Hb. rewrite !bind_ok.
  rewrite (nb_nbrs_ok g WF) by done. unfold bnd_weight. rewrite Hb, !(ea_sum EA), faces_all by done.
  case_bool_decide as Hb0.
  - subst b. rewrite bind_ok. done.
  - rewrite !bind_ok. destruct b; done.
Qed.

Lemma total_faces_eq i : i < g_n g →
  total_n_faces g i = Ok (default 0 (bnd !! i) + Z.of_nat (length (nb_list row col i)))%Z.
Proof.
  intros Hi. unfold total_n_faces, n_bnd.
  destruct (lookup_lt_is_Some_2 bnd i) as [b Hb]; [lia|]. unfold vget. rewrite Hb. rewrite bind_ok.
  rewrite (nb_nbrs_ok g WF) by done. rewrite bind_ok. done.
Qed.

Lemma vget_vol i : i < g_n g → vget vol i = Ok (default w0 (vol !! i)).
Proof.
  intros Hi. destruct (lookup_lt_is_Some_2 vol i) as [v Hv]; [lia|]. unfold vget. by rewrite Hv.
Qed.

(** Counting the outer faces: the loop over the cells sharing a face. *)
Lemma facets_loop X l (m : gmap nat Z) : NoDup l → (∀ x, x ∈ l → x ∈ X) →
  (∀ x, x ∈ X → is_Some (m !! x)) →
  wp (foldM (λ m k, v ← mapat m k; Ok (<[k := (v - 1)%Z]> m)) l m) (λ m',
    ∀ x, x ∈ X → m' !! x = (λ v, v - (if decide (x ∈ l) then 1 else 0))%Z <$> m !! x).
Proof.
  clear. revert m. induction l as [|k l IH]; intros m Hnd Hl Hm; simpl.
  { intros x Hx. destruct (Hm x Hx) as [v ->]. simpl. f_equal. lia. }
  apply NoDup_cons in Hnd as [Hk Hnd].
  destruct (Hm k) as [v Hv]; [apply Hl; left|]. wstep. rewrite (mapat_ok _ _ _ Hv). simpl.
  eapply wp_mono; [apply IH|].
  - done.
  - intros x Hx. apply Hl. by right.
  - intros x Hx. destruct (decide (x = k)) as [->|]; [rewrite lookup_insert|rewrite lookup_insert_ne by done]; eauto.
  - intros m' Hm' x Hx. rewrite Hm' by done. destruct (decide (x = k)) as [->|Hne].
    + rewrite lookup_insert, Hv. simpl. f_equal. rewrite (decide_False (P := k ∈ l)) by done.
      rewrite decide_True by left. lia.
    + rewrite lookup_insert_ne by done. destruct (Hm x Hx) as [u ->]. simpl. f_equal.
      destruct (decide (x ∈ l)).
      * rewrite decide_True by (by right). done.
      * rewrite decide_False; [done|]. intros [?|?]%elem_of_cons; done.
Qed.

Lemma update_basic_right cw uf i f X :
  i < g_n g → i ∉ X → (∀ x, x ∈ X → x < g_n g) →
  f_meas f = measure vol X → f_nint f = internal_faces row col X →
  (cw = true → f_int f = internal_weight row col val X ∧ f_ext f = external_weight row col val bnd X) →
  (uf = true → ∀ x, x ∈ X → f_facets f !! x = Some (outer_faces row col bnd X x)) →
  wp (update_basic cw uf g i f X) (λ r,
    let Y := {[i]} ∪ X in
    r.1 = Z.of_nat (nb_in row col X (λ y, y ≠ i) i) ∧
    f_meas r.2 = measure vol Y ∧ f_nint r.2 = internal_faces row col Y ∧
    (cw = true → f_int r.2 = internal_weight row col val Y ∧ f_ext r.2 = external_weight row col val bnd Y) ∧
    (uf = true → ∀ x, x ∈ Y → f_facets r.2 !! x = Some (outer_faces row col bnd Y x))).
Proof.
  intros Hi HiX HX Hm Hn Hcw Huf. unfold update_basic. rewrite vget_vol by done. rewrite bind_ok.
  rewrite (compute_shared_faces_eq g WF dim) by done. rewrite bind_ok. cbn zeta. wstep.
  eapply (wp_mono _ (λ ei : W * W, cw = true → ei.2 = internal_weight row col val ({[i]} ∪ X) ∧
    ei.1 = external_weight row col val bnd ({[i]} ∪ X))).
  { destruct cw; [|done]. rewrite total_weight_eq by done. rewrite bind_ok. simpl. intros _.
    destruct (Hcw eq_refl) as [-> ->]. rewrite (internal_add EA), (external_add EA) by done.
    rewrite shared_w_eq. done. }
  intros ei Hei. wstep.
  eapply (wp_mono _ (λ m : gmap nat Z, uf = true → ∀ x, x ∈ {[i]} ∪ X →
    m !! x = Some (outer_faces row col bnd ({[i]} ∪ X) x))).
  { destruct uf; [|done]. specialize (Huf eq_refl). wstep. eapply wp_mono.
    { apply (facets_loop X); [apply NoDup_hset| |].
      - intros x Hx%elem_of_hset. by apply elem_of_shared in Hx as (_ & _ & Hx).
      - intros x Hx. rewrite Huf by done. eauto. }
    intros m Hmm. rewrite total_faces_eq by done. rewrite bind_ok. simpl. intros _ x Hx.
    destruct (decide (x = i)) as [->|Hne].
    - rewrite lookup_insert. rewrite outer_faces_new, shared_size. done.
    - rewrite lookup_insert_ne by done. assert (x ∈ X) as HxX by set_solver.
      rewrite Hmm by done. rewrite Huf by done. simpl. f_equal.
      rewrite (outer_faces_add row col (wg_sym g WF)) by done. f_equal.
      assert (x ∈ hset s_facets (shared g i X) ↔ x ∈ nb_list row col i) as Hs.
      { rewrite elem_of_hset, elem_of_shared, adj_nb. tauto. }
      destruct (decide (x ∈ hset _ _)), (decide (x ∈ nb_list row col i)); tauto. }
  intros m Hmm. simpl. rewrite shared_size. split_and!.
  - done.
  - rewrite Hm. unfold measure. rewrite (sum_over_add EA) by done. ring.
  - rewrite Hn. by rewrite (internal_faces_add row col (wg_sym g WF)).
  - done.
  - done.
Qed.

Lemma cen_at i : i < g_n g → ∃ c, cen !! i = Some c ∧ length c = dim ∧ vget cen i = Ok c.
Proof.
  intros Hi. destruct (lookup_lt_is_Some_2 cen i) as [c Hc]; [lia|]. exists c.
  split_and!; [done|by eapply Hdim|]. unfold vget. by rewrite Hc.
Qed.

Lemma approx_right i f X :
  i < g_n g → i ∉ X → (∀ x, x ∈ X → x < g_n g) →
  is_diam cen X (f_sqdiam f) → is_min_edge cen X (f_sqmin f) →
  wp (approx_features g i f X) (λ r, is_diam cen ({[i]} ∪ X) r.1 ∧ is_min_edge cen ({[i]} ∪ X) r.2).
Proof.
  intros Hi HiX HX HD HE. unfold approx_features.
  destruct (cen_at i Hi) as (c & Hc & Hlc & ->). rewrite bind_ok.
  set (P := λ (b : W) (l : list nat) (w : W), (w = b ∨ pair_dist cen X w) ∨
    ∃ y c', y ∈ l ∧ cen !! y = Some c' ∧ w = dist2 c c').
  eapply wp_mono.
  { apply (wp_foldM _ (λ pre (r : W * W), greatest (P wminv (pre)) r.1 ∧
      least (P wmaxv (pre)) r.2)).
    - simpl. split.
      + eapply greatest_iff; [|apply HD]. intros w. unfold P. split; [|tauto].
        intros [?|(y & c' & Hy%elem_of_nil & _)]; done.
      + eapply least_iff; [|apply HE]. intros w. unfold P. split; [|tauto].
        intros [?|(y & c' & Hy%elem_of_nil & _)]; done.
    - intros pre j post [md me] Hj [IH1 IH2]. cbn [fst snd] in *.
      assert (j ∈ X) as HjX by (apply (elem_of_hset s_approx); rewrite Hj; set_solver).
      destruct (cen_at j (HX j HjX)) as (c' & Hc' & Hlc' & ->). rewrite bind_ok.
      rewrite (sqdist_eq EA) by lia. rewrite bind_ok. simpl.
      assert (∀ b w, P b ((pre ++ [j])) w ↔ P b (pre) w ∨ w = dist2 c c') as Hstep.
      { intros b w. unfold P. split.
        - intros [?|(y & c2 & [Hy|Hy%elem_of_list_singleton]%elem_of_app & Hc2 & ->)].
          + tauto.
          + left. right. eauto.
          + subst y. simplify_eq. tauto.
        - intros [[?|(y & c2 & Hy & Hc2 & ->)]| ->].
          + tauto.
          + right. exists y, c2. split_and!; [|done..]. apply elem_of_app. tauto.
          + right. exists j, c'. split_and!; [|done..]. apply elem_of_app. right. by apply elem_of_list_singleton. }
      split.
      + eapply greatest_iff; [apply Hstep|]. by apply greatest_step.
      + eapply least_iff; [apply Hstep|]. by apply least_step. }
  intros [md me]. cbn [fst snd]. intros [H1 H2].
  assert (∀ b w, (w = b ∨ pair_dist cen ({[i]} ∪ X) w) ↔ P b (hset s_approx X) w) as Hfin.
  { intros b w. rewrite (pair_dist_add EA) by done. unfold P. split.
    - intros [?|[?|(y & c1 & c' & Hy & Hc1 & Hc' & ->)]]; [tauto..|].
      right. exists y, c'. rewrite elem_of_hset. simplify_eq. done.
    - intros [?|(y & c' & Hy & Hc' & ->)]; [tauto|]. right. right. exists y, c, c'.
      rewrite elem_of_hset in Hy. done. }
  split; [eapply greatest_iff|eapply least_iff]; [apply Hfin|done|apply Hfin|done].
Qed.

Lemma bary_right q sum c v : length sum = length c →
  wp (bary_loop sum c v q) (λ r, length r.1 = length c ∧ length r.2 = length c ∧
    ∀ d, d < length c → r.1 !! d = (λ x, wadd x (wmul v (default w0 (c !! d)))) <$> sum !! d ∧
      r.2 !! d = (λ x, wmul x q) <$> r.1 !! d).
Proof.
  clear. revert sum. induction c as [|x c IH]; intros [|s sum] Hl; simpl; try done.
  wstep. eapply wp_mono; [apply IH; simpl in Hl; lia|]. intros [s' b'] (H1 & H2 & H3). simpl in *.
  split_and!; [lia..|]. intros [|d] Hd; simpl; [done|]. apply H3. lia.
Qed.

Lemma moment_add X i d : i ∉ X → moment vol cen ({[i]} ∪ X) d =
  wadd (wmul (default w0 (vol !! i)) (default w0 (cen !! i ≫= (.!! d)))) (moment vol cen X d).
Proof. intros Hi. unfold moment. by rewrite (sum_over_add EA) by done. Qed.

Lemma barycenter_right i f X :
  i < g_n g → i ∉ X → (∀ x, x ∈ X → x < g_n g) →
  length (f_sum f) = dim → (∀ d, d < dim → f_sum f !! d = Some (moment vol cen X d)) →
  wp (update_barycenter g i f X) (λ r, length r.1 = dim ∧
    (∀ d, d < dim → r.1 !! d = Some (moment vol cen ({[i]} ∪ X) d)) ∧
    length r.2 = dim ∧ centre_of g (wofZ (Z.of_nat (size ({[i]} ∪ X)))) ({[i]} ∪ X) r.2).
Proof.
  intros Hi HiX HX Hl Hs. unfold update_barycenter.
  destruct (cen_at i Hi) as (c & Hc & Hlc & ->). rewrite bind_ok. rewrite vget_vol by done. rewrite bind_ok. cbn zeta.
  replace (Z.of_nat (size X) + 1)%Z with (Z.of_nat (size ({[i]} ∪ X))).
  2:{ rewrite size_union by set_solver. rewrite size_singleton. lia. }
  eapply wp_mono; [apply bary_right; lia|]. intros [s b]. cbn [fst snd]. intros (H1 & H2 & H3).
  assert (∀ d, d < dim → s !! d = Some (moment vol cen ({[i]} ∪ X) d)) as Hm.
  { intros d Hd. destruct (H3 d) as [-> _]; [lia|]. rewrite Hs by done. simpl. f_equal.
    rewrite moment_add by done. rewrite Hc. simpl. ring. }
  split_and!; [lia|done|lia|]. intros d. case_decide as Hd.
  - destruct (H3 d) as [_ ->]; [lia|]. rewrite Hm by lia. done.
  - apply lookup_ge_None. lia.
Qed.

Lemma max_bary_right i X b :
  i < g_n g → (∀ x, x ∈ X → x < g_n g) → length b = dim →
  wp (max_bary g i X b) (greatest (bary_dist g b ({[i]} ∪ X))).
Proof.
  intros Hi HX Hb. unfold max_bary.
  destruct (cen_at i Hi) as (c & Hc & Hlc & ->). rewrite bind_ok.
  rewrite (sqdist_eq EA) by lia. rewrite bind_ok.
  set (P := λ (l : list nat) (w : W), w = dist2 b c ∨ ∃ y c', y ∈ l ∧ cen !! y = Some c' ∧ w = dist2 b c').
  eapply wp_mono.
  { apply (wp_foldM _ (λ pre (r : W), greatest (P (pre)) r)).
    - split; [by left|]. intros w [-> |(y & c' & Hy & _)]; [by apply (wo_irr _ _ WO)|].
      by apply elem_of_nil in Hy.
    - intros pre j post m0 Hj IH.
      assert (j ∈ X) as HjX by (apply (elem_of_hset s_bary); rewrite Hj; set_solver).
      destruct (cen_at j (HX j HjX)) as (c' & Hc' & Hlc' & ->). rewrite bind_ok.
      rewrite (sqdist_eq EA) by lia. rewrite bind_ok. simpl.
      eapply greatest_iff; [|by apply greatest_step]. intros w.
      unfold P. split.
      + intros [?|(y & c2 & [Hy|Hy%elem_of_list_singleton]%elem_of_app & Hc2 & ->)].
        * tauto.
        * left. right. eauto.
        * subst y. simplify_eq. tauto.
      + intros [[?|(y & c2 & Hy & Hc2 & ->)]| ->].
        * tauto.
        * right. exists y, c2. split_and!; [|done..]. apply elem_of_app. tauto.
        * right. exists j, c'. split_and!; [|done..]. apply elem_of_app. right. by apply elem_of_list_singleton. }
  intros m. apply greatest_iff. intros w. symmetry. unfold bary_dist, P. split.
  - intros [-> |(y & c' & Hy & Hc' & ->)].
    + exists i, c. split_and!; [set_solver|done..].
    + rewrite elem_of_hset in Hy. exists y, c'. split_and!; [set_solver|done..].
  - intros (y & c' & Hy & Hc' & ->). apply elem_of_union in Hy as [Hy%elem_of_singleton|Hy].
    + subst y. left. simplify_eq. done.
    + right. exists y, c'. by rewrite elem_of_hset.
Qed.

Lemma map_idx_some (m : gmap nat Z) k v : m !! k = Some v → map_idx m k = (v, m).
Proof. intros Hk. unfold map_idx. by rewrite Hk. Qed.

Lemma minmax_right i X b (m : gmap nat Z) : let Y := {[i]} ∪ X in
  i < g_n g → (∀ x, x ∈ X → x < g_n g) → length b = dim →
  (∀ x, x ∈ Y → m !! x = Some (outer_faces row col bnd Y x)) →
  wp (minmax_bary g i X b m) (λ r, r.2 = m ∧
    ((∀ w, outer_bary_dist g b Y w → wlt w wminv = false ∧ wlt wmaxv w = false) →
     greatest (λ w, w = wminv ∨ outer_bary_dist g b Y w) r.1.2 ∧
     least (λ w, w = wmaxv ∨ outer_bary_dist g b Y w) r.1.1)).
Proof.
  intros Y Hi HX Hb Hm. unfold minmax_bary. rewrite (map_idx_some _ _ _ (Hm i ltac:(set_solver))).
  set (O := λ x, outer_faces row col bnd Y x).
  set (P := λ (l : list nat) (w : W), ∃ y c', y ∈ l ∧ cen !! y = Some c' ∧ w = wsqrt (dist2 b c') ∧ (0 < O y)%Z ∧ wlt wtol w = true).
  set (Hyp := ∀ w, outer_bary_dist g b Y w → wlt w wminv = false ∧ wlt wmaxv w = false).
  assert (∀ l, (∀ y, y ∈ l → y ∈ Y) → ∀ w, P l w → outer_bary_dist g b Y w) as HPY.
  { intros l Hl w (y & c' & Hy & Hc' & -> & HO & Ht). exists y, c'. split_and!; try done. by apply Hl. }
  assert (∀ w, Hyp → P [i] w → greatest (λ w, w = wminv ∨ P [i] w) w ∧ least (λ w, w = wmaxv ∨ P [i] w) w) as Hone.
  { intros w Hy Hp. assert (∀ w', P [i] w' → w' = w) as Huniq.
    { destruct Hp as (y & c' & ->%elem_of_list_singleton & Hc' & -> & _).
      intros w' (y & c2 & ->%elem_of_list_singleton & Hc2 & -> & _). by simplify_eq. }
    split; (split; [tauto|]).
    - intros w' [-> | ->%Huniq]; [|by apply (wo_irr _ _ WO)]. apply Hy. eapply HPY; [|done].
      intros y ->%elem_of_list_singleton. set_solver.
    - intros w' [-> | ->%Huniq]; [|by apply (wo_irr _ _ WO)]. apply Hy. eapply HPY; [|done].
      intros y ->%elem_of_list_singleton. set_solver. }
  wstep. eapply (wp_mono _ (λ mm : W * W, Hyp → greatest (λ w, w = wminv ∨ P [i] w) mm.2 ∧ least (λ w, w = wmaxv ∨ P [i] w) mm.1)).
  { assert ((∀ w, ¬ P [i] w) → Hyp → greatest (λ w, w = wminv ∨ P [i] w) wminv ∧ least (λ w, w = wmaxv ∨ P [i] w) wmaxv) as Hnone.
    { intros Hn _. split; (split; [tauto|]); (intros w [-> |Hw']; [by apply (wo_irr _ _ WO)|by exfalso; eapply Hn]). }
    case_bool_decide as HO.
    - destruct (cen_at i Hi) as (c & Hc & Hlc & ->). rewrite bind_ok. rewrite (sqdist_eq EA) by lia. rewrite bind_ok. simpl.
      destruct (wlt wtol (wsqrt (dist2 b c))) eqn:Ht; cbn [fst snd].
      + intros Hy. apply Hone; [done|]. exists i, c. split_and!; try done. by apply elem_of_list_singleton.
      + apply Hnone. intros w (y & c' & ->%elem_of_list_singleton & Hc' & -> & _ & Ht'). simplify_eq. congruence.
    - simpl. apply Hnone. intros w (y & c' & ->%elem_of_list_singleton & _ & _ & HO' & _). done. }
  intros init Hinit. eapply wp_mono.
  { apply (wp_foldM _ (λ pre (r : (W * W) * gmap nat Z), r.2 = m ∧
      (Hyp → greatest (λ w, w = wminv ∨ P (i :: pre) w) r.1.2 ∧
             least (λ w, w = wmaxv ∨ P (i :: pre) w) r.1.1))).
    - split; [done|]. apply Hinit.
    - intros pre j post [mm m'] Hj [IH1 IH2]. cbn [fst snd] in *. subst m'.
      assert (j ∈ X) as HjX by (apply (elem_of_hset s_bary); rewrite Hj; set_solver).
      rewrite (map_idx_some _ _ _ (Hm j ltac:(set_solver))). fold (O j).
      destruct (cen_at j (HX j HjX)) as (c' & Hc' & Hlc' & Hvg).
      assert (∀ w, P (i :: (pre ++ [j])) w ↔ P (i :: pre) w ∨
        (w = wsqrt (dist2 b c') ∧ (0 < O j)%Z ∧ wlt wtol w = true)) as Hstep.
      { intros w. rewrite app_comm_cons. unfold P. split.
        - intros (y & c2 & [Hy|Hy%elem_of_list_singleton]%elem_of_app & Hc2 & -> & HO & Ht).
          + left. eauto 10.
          + subst y. simplify_eq. tauto.
        - intros [(y & c2 & Hy & Hc2 & -> & HO & Ht)|(-> & HO & Ht)].
          + exists y, c2. split_and!; [|done..]. apply elem_of_app. tauto.
          + exists j, c'. split_and!; [|done..]. apply elem_of_app. right. by apply elem_of_list_singleton. }
      case_bool_decide as HO.
      + rewrite Hvg, bind_ok. rewrite (sqdist_eq EA) by lia. rewrite bind_ok. simpl. split; [done|]. intros Hy.
        specialize (IH2 Hy) as [IG IL]. unfold minmax_step. destruct (wlt wtol (wsqrt (dist2 b c'))) eqn:Ht; cbn [fst snd].
        * split; [eapply greatest_iff; [|apply greatest_step; [done|exact IG]]|eapply least_iff; [|apply least_step; [done|exact IL]]];
            intros w; rewrite Hstep; split; try tauto; (intros [?| ->]; tauto).
        * split; [eapply greatest_iff; [|exact IG]|eapply least_iff; [|exact IL]];
            intros w; rewrite Hstep; split; try tauto; (intros [?|[?|(-> & _ & ?)]]; [tauto..|congruence]).
      + simpl. split; [done|]. intros Hy. specialize (IH2 Hy) as [IG IL].
        split; [eapply greatest_iff; [|exact IG]|eapply least_iff; [|exact IL]];
            intros w; rewrite Hstep; split; tauto. }
  intros [mm m']. cbn [fst snd]. intros [-> HH]. split; [done|]. intros Hy1.
  destruct (HH Hy1) as [IG IL].
  assert (∀ w, outer_bary_dist g b Y w ↔ P (i :: hset s_bary X) w) as Hfin.
  { intros w. unfold outer_bary_dist, P. split; intros (y & c' & Hy & Hr); exists y, c'; (split; [|done]).
    - apply elem_of_cons. rewrite elem_of_hset. set_solver.
    - apply elem_of_cons in Hy. rewrite elem_of_hset in Hy. set_solver. }
  split; [eapply greatest_iff; [|exact IG]|eapply least_iff; [|exact IL]]; intros w; by rewrite Hfin.
Qed.

Notation right := (feats_right g dim).

Theorem compute_features_right k i f X : let Y := {[i]} ∪ X in
  let q := wofZ (Z.of_nat (size Y)) in
  i < g_n g → i ∉ X → (∀ x, x ∈ X → x < g_n g) → right k X f →
  wp (compute_features k g i f X) (λ r,
    r.1.1 = Z.of_nat (nb_in row col X (λ y, y ≠ i) i) ∧
    right k Y r.2 ∧
    ((k = MaxOverMinBary → extremes_ok g q Y) →
     if two_cells_edge k Y then is_diam cen Y r.1.2 else is_ar g dim q k Y r.1.2)).
Proof.
  intros Y q Hi HiX HX HR.
  assert (size Y = S (size X)) as Hsz.
  { unfold Y. rewrite size_union by set_solver. by rewrite size_singleton. }
  destruct HR as [R1 R2 R3 R4 R5 R6 R7 R8 R9].
  assert (∀ b1 b2, (b1 = true → needs_weights k = true) → (b2 = true → needs_facets k = true) →
    wp (update_basic b1 b2 g i f X) (λ r,
    r.1 = Z.of_nat (nb_in row col X (λ y, y ≠ i) i) ∧
    f_meas r.2 = measure vol Y ∧ f_nint r.2 = internal_faces row col Y ∧
    (b1 = true → f_int r.2 = internal_weight row col val Y ∧ f_ext r.2 = external_weight row col val bnd Y) ∧
    (b2 = true → ∀ x, x ∈ Y → f_facets r.2 !! x = Some (outer_faces row col bnd Y x)))) as HU.
  { intros b1 b2 Hb1 Hb2. apply update_basic_right; auto. }
  destruct k; cbn [needs_weights needs_distances needs_moments needs_facets] in *; unfold compute_features.
  - wstep. eapply wp_mono; [by apply HU|]. intros [ns nf] (H1 & H2 & H3 & _). cbn [fst snd] in *.
    wstep. eapply wp_mono; [by apply approx_right; auto|]. intros [md me] [H4 H5]. simpl in *.
    split_and!; [done|by split|]. intros _. exists md. split; [done|]. by rewrite <- H2.
  - wstep. eapply wp_mono; [by apply HU|]. intros [ns nf] (H1 & H2 & H3 & _). cbn [fst snd] in *.
    wstep. eapply wp_mono; [by apply approx_right; auto|]. intros [md me] [H4 H5]. simpl in *.
    split_and!; [done|by split|]. intros _. rewrite Hsz. destruct (decide (size X = 1)) as [He|He].
    + rewrite !bool_decide_true by lia. done.
    + rewrite !bool_decide_false by lia. by exists md, me.
  - wstep. eapply wp_mono; [by apply HU|]. intros [ns nf] (H1 & H2 & H3 & _). cbn [fst snd] in *.
    wstep. eapply wp_mono; [by apply approx_right; auto|]. intros [md me] [H4 H5]. simpl in *.
    split_and!; [done|by split|]. done.
  - wstep. eapply wp_mono; [by apply HU|]. intros [ns nf] (H1 & H2 & H3 & _). cbn [fst snd] in *. simpl.
    split_and!; [done|by split|]. intros _. by rewrite H2.
  - wstep. eapply wp_mono; [by apply HU|]. intros [ns nf] (H1 & H2 & H3 & H4 & _). cbn [fst snd] in *. simpl.
    destruct (H4 eq_refl) as [H5 H6]. split_and!; [done|by split|]. intros _. by rewrite H5.
  - wstep. eapply wp_mono; [by apply HU|]. intros [ns nf] (H1 & H2 & H3 & H4 & _). cbn [fst snd] in *. simpl.
    destruct (H4 eq_refl) as [H5 H6]. split_and!; [done|by split|]. intros _. by rewrite H6, H2.
  - wstep. eapply wp_mono; [by apply HU|]. intros [ns nf] (H1 & H2 & H3 & H4 & _). cbn [fst snd] in *. simpl.
    destruct (H4 eq_refl) as [H5 H6]. split_and!; [done|by split|]. intros _. done.
  - wstep. eapply wp_mono; [by apply HU|]. intros [ns nf] (H1 & H2 & H3 & _). cbn [fst snd] in *.
    wstep. eapply wp_mono; [by apply barycenter_right; auto|]. intros [s b] (H4 & H5 & H6 & H7). cbn [fst snd] in *.
    wstep. eapply wp_mono; [by apply max_bary_right|]. intros D HD. simpl.
    split_and!; [done|by split|]. intros _. exists b, D. rewrite H2. done.
  - wstep. eapply wp_mono; [by apply HU|]. intros [ns nf] (H1 & H2 & H3 & _ & H8). cbn [fst snd] in *.
    wstep. eapply wp_mono; [by apply barycenter_right; auto|]. intros [s b] (H4 & H5 & H6 & H7). cbn [fst snd] in *.
    wstep. eapply wp_mono; [apply minmax_right; auto|]. intros [[E D] m] [Hm HDE]. cbn [fst snd] in *. simpl.
    split_and!; [done|split; try done; subst m; by apply H8|]. intros Hex. 
    destruct HDE as [HD HE]; [intros w Hww; by eapply (Hex eq_refl)|]. by exists b, D, E.
  - wstep. eapply wp_mono; [by apply HU|]. intros [ns nf] (H1 & H2 & H3 & H4 & _). cbn [fst snd] in *. simpl.
    destruct (H4 eq_refl) as [H5 H6]. split_and!; [done|by split|]. intros _. by rewrite H6, H2.
Qed.

Lemma nb_in_single (P : nat → Prop) `{∀ y, Decision (P y)} i : ¬ P i → nb_in row col {[i]} P i = 0.
Proof.
  intros HP. unfold nb_in. apply size_empty_iff. intros y. rewrite elem_of_filter, elem_of_singleton.
  split; [|by intros ?%elem_of_empty]. intros [[? _] ->]. done.
Qed.

Theorem feats_of_cell_right k i : i < g_n g → wp (feats_of_cell g i) (right k {[i]}).
Proof.
  intros Hi. unfold feats_of_cell. rewrite vget_vol by done. rewrite bind_ok.
  rewrite total_weight_eq by done. rewrite bind_ok. rewrite total_faces_eq by done. rewrite bind_ok.
  destruct (cen_at i Hi) as (c & Hc & Hlc & ->). rewrite bind_ok. simpl.
  assert (∀ w, ¬ pair_dist cen {[i]} w) as Hnp.
  { intros w (x & y & c1 & c2 & ->%elem_of_singleton & ->%elem_of_singleton & Hne & _). done. }
  split; simpl; intros.
  - unfold measure. by rewrite (sum_over_singleton EA).
  - unfold internal_faces. rewrite elements_singleton. simpl. by rewrite nb_in_single by lia.
  - unfold internal_weight. rewrite (sum_over_singleton EA). symmetry. apply (faces_to_none EA). intros y [->%elem_of_singleton ?]. lia.
  - unfold external_weight. rewrite (sum_over_singleton EA).
    rewrite (faces_to_ext row col val (λ y, y ∉ ({[i]} : gset nat) ∨ y = i) (λ _, True)); [ring|].
    intros y. split; [done|]. intros _. destruct (decide (y = i)); [by right|left]. set_solver.
  - split; [by left|]. intros w [-> |Hw']; [by apply (wo_irr _ _ WO)|by exfalso; eapply Hnp].
  - split; [by left|]. intros w [-> |Hw']; [by apply (wo_irr _ _ WO)|by exfalso; eapply Hnp].
  - by rewrite map_length.
  - change (map ?a ?b) with (a <$> b). rewrite list_lookup_fmap.
    unfold moment. rewrite (sum_over_singleton EA). rewrite Hc. simpl.
    destruct (lookup_lt_is_Some_2 c d) as [x Hx]; [lia|]. rewrite Hx. simpl. f_equal. ring.
  - match goal with Hx : _ ∈ {[_]} |- _ => apply elem_of_singleton in Hx as -> end. rewrite lookup_singleton. f_equal. unfold outer_faces.
    rewrite nb_in_single by tauto. lia.
Qed.
End model.

(** ** Statements *)

Section history.
Context {A : Arith} {H : HashOrder}.

(** The calls of the main loop: the features of the seed, then those obtained
    by adding the cells of [l] one after the other. *)
Fixpoint add_cells (k : ar_kind) (g : graph) (f : feats) (X : gset nat) (l : list nat) : res feats :=
  match l with
  | [] => Ok f
  | x :: l => r ← compute_features k g x f X; add_cells k g r.2 ({[x]} ∪ X) l
  end.
Definition features_of (k : ar_kind) (g : graph) (seed : nat) (l : list nat) : res feats :=
  f ← feats_of_cell g seed; add_cells k g f {[seed]} l.

Lemma C28_features (g : graph) (dim : nat) (k : ar_kind) (seed : nat) (l : list nat) :
  exact_arith → weak_order (@wlt A) (λ _, True) → mesh_data g dim →
  NoDup (seed :: l) → (∀ x, x ∈ seed :: l → x < g_n g) →
  ∃ f, features_of k g seed l = Ok f ∧ feats_right g dim k (list_to_set (seed :: l)) f.
Proof.
  intros EA WO [D1 D2 D3 D4 D5 D6 D7 D8] Hnd Hl. assert (wfg g) as WF by done.
  apply wp_eq. unfold features_of. wstep.
  eapply wp_mono; [apply (feats_of_cell_right EA WO g WF dim); try done; apply Hl; left|].
  intros f Hf. apply NoDup_cons in Hnd as [Hs Hnd].
  assert (∀ x, x ∈ l → x ∉ ({[seed]} : gset nat)) as Hd by set_solver.
  assert (∀ x, x ∈ ({[seed]} : gset nat) → x < g_n g) as HX.
  { intros x ->%elem_of_singleton. apply Hl. left. }
  replace (list_to_set (seed :: l) : gset nat) with (list_to_set l ∪ {[seed]} : gset nat) by set_solver.
  assert (∀ x, x ∈ l → x < g_n g) as Hl'. { intros x Hx. apply Hl. by right. }
  clear Hl Hs. generalize dependent ({[seed]} : gset nat). revert f.
  induction l as [|x l IH]; intros f X Hf Hd HX; cbn [add_cells].
  { cbn. by replace (∅ ∪ X : gset nat) with X by set_solver. }
  apply NoDup_cons in Hnd as [Hx Hnd]. wstep. eapply wp_mono.
  { apply (compute_features_right EA WO g WF dim); try done; [apply Hl'; left|apply Hd; left]. }
  intros r (_ & Hr & _). eapply wp_mono.
  - apply IH; [done| |exact Hr| |].
    + intros y Hy. apply Hl'. by right.
    + intros y Hy. rewrite elem_of_union, elem_of_singleton. intros [-> |HyX]; [done|].
      eapply Hd; [|done]. by right.
    + intros y [->%elem_of_singleton|Hy]%elem_of_union; [apply Hl'; left|by apply HX].
  - intros f' Hf'. replace (list_to_set (x :: l) ∪ X : gset nat) with (list_to_set l ∪ ({[x]} ∪ X) : gset nat) by set_solver.
    done.
Qed.

Lemma C39_ratio (g : graph) (dim : nat) (k : ar_kind) (seed i : nat) (l : list nat) :
  exact_arith → weak_order (@wlt A) (λ _, True) → mesh_data g dim →
  NoDup (i :: seed :: l) → (∀ x, x ∈ i :: seed :: l → x < g_n g) →
  let X := list_to_set (seed :: l) in let Y := {[i]} ∪ X in
  let q := wofZ (Z.of_nat (size Y)) in
  (k = MaxOverMinBary → extremes_ok g q Y) →
  ∃ f s a f', features_of k g seed l = Ok f ∧ compute_features k g i f X = Ok (s, a, f') ∧
    s = Z.of_nat (nb_in (g_row g) (g_col g) X (λ y, y ≠ i) i) ∧ feats_right g dim k Y f' ∧
    if two_cells_edge k Y then is_diam (g_cen g) Y a else is_ar g dim q k Y a.
Proof.
  intros EA WO MD Hnd Hl X Y q Hex.
  apply NoDup_cons in Hnd as [Hi Hnd].
  destruct (C28_features g dim k seed l EA WO MD Hnd) as (f & Hf & HR).
  { intros x Hx. apply Hl. by right. }
  destruct MD as [D1 D2 D3 D4 D5 D6 D7 D8]. assert (wfg g) as WF by done.
  assert (wp (compute_features k g i f X) (λ r,
    r.1.1 = Z.of_nat (nb_in (g_row g) (g_col g) X (λ y, y ≠ i) i) ∧ feats_right g dim k Y r.2 ∧
    ((k = MaxOverMinBary → extremes_ok g q Y) →
     if two_cells_edge k Y then is_diam (g_cen g) Y r.1.2 else is_ar g dim q k Y r.1.2))) as Hwp.
  { apply (compute_features_right EA WO g WF dim); try done.
    - apply Hl. left.
    - unfold X. by rewrite elem_of_list_to_set.
    - intros x Hx. apply Hl. right. by apply elem_of_list_to_set in Hx. }
  apply wp_eq in Hwp as ([[s a] f'] & Hc & H1 & H2 & H3). exists f, s, a, f'. split_and!; try done. by apply H3.
Qed.

(** The features do not depend on the order in which the cells are added. *)
Lemma greatest_uniq (P : W → Prop) m m' : (∀ a b, wlt a b = false → wlt b a = false → a = b) →
  greatest P m → greatest P m' → m = m'.
Proof. intros HT [H1 H2] [H3 H4]. apply HT; auto. Qed.
Lemma least_uniq (P : W → Prop) m m' : (∀ a b, wlt a b = false → wlt b a = false → a = b) →
  least P m → least P m' → m = m'.
Proof. intros HT [H1 H2] [H3 H4]. apply HT; auto. Qed.

Lemma C28_order (g : graph) (dim : nat) (k : ar_kind) (seed seed' : nat) (l l' : list nat) :
  exact_arith → weak_order (@wlt A) (λ _, True) → (∀ a b, wlt a b = false → wlt b a = false → a = b) →
  mesh_data g dim → NoDup (seed :: l) → (∀ x, x ∈ seed :: l → x < g_n g) → seed :: l ≡ₚ seed' :: l' →
  ∃ f f', features_of k g seed l = Ok f ∧ features_of k g seed' l' = Ok f' ∧
    f_meas f = f_meas f' ∧ f_nint f = f_nint f' ∧
    (needs_weights k = true → f_int f = f_int f' ∧ f_ext f = f_ext f') ∧
    (needs_distances k = true → f_sqdiam f = f_sqdiam f' ∧ f_sqmin f = f_sqmin f') ∧
    (needs_moments k = true → f_sum f = f_sum f') ∧
    (needs_facets k = true → ∀ x, x ∈ seed :: l → f_facets f !! x = f_facets f' !! x).
Proof.
  intros EA WO HT MD Hnd Hl Hp.
  destruct (C28_features g dim k seed l) as (f & Hf & [R1 R2 R3 R4 R5 R6 R7 R8 R9]); [done..|].
  destruct (C28_features g dim k seed' l') as (f' & Hf' & HR'); [done..|by rewrite <- Hp| |].
  { intros x Hx. apply Hl. by rewrite Hp. }
  assert (list_to_set (seed :: l) = (list_to_set (seed' :: l') : gset nat)) as He.
  { apply set_eq. intros x. by rewrite !elem_of_list_to_set, Hp. }
  rewrite <- He in HR'. destruct HR' as [S1 S2 S3 S4 S5 S6 S7 S8 S9].
  exists f, f'. split_and!; try congruence.
  - intros Hk. rewrite R3, R4, S3, S4 by done. done.
  - intros Hk. split; [exact (greatest_uniq _ _ _ HT (R5 Hk) (S5 Hk))|exact (least_uniq _ _ _ HT (R6 Hk) (S6 Hk))].
  - intros Hk. apply list_eq. intros d. destruct (decide (d < dim)).
    + by rewrite R8, S8.
    + rewrite !lookup_ge_None_2; [done| |]; [rewrite S7 by done|rewrite R7 by done]; lia.
  - intros Hk x Hx. rewrite R9, S9; [done|done| |done|]; by apply elem_of_list_to_set.
Qed.
End history.
