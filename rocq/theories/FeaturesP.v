(** * FeaturesP: the aspect-ratio computers never fail and count shared faces *)

From Verif Require Export GraphP.

Section shared.
Context {A : Arith} (g : graph).
Implicit Types cc : gset nat.

(** The cells of [cc], other than [i], sharing a face with [i]. *)
Definition shared (i : nat) cc : gset nat :=
  list_to_set (filter (λ x, x ≠ i ∧ x ∈ cc) (adj g i)).
Lemma elem_of_shared i cc x : x ∈ shared i cc ↔ x ∈ adj g i ∧ x ≠ i ∧ x ∈ cc.
Proof.
  unfold shared. rewrite elem_of_list_to_set, elem_of_list_filter. tauto.
Qed.

Lemma shared_pos i cc : 0 < size (shared i cc) ↔ ∃ x, x ∈ adj g i ∧ x ≠ i ∧ x ∈ cc.
Proof.
  split.
  - intros Hs. destruct (set_choose_L (shared i cc)) as [x Hx].
    { intros He. rewrite He, size_empty in Hs. lia. }
    exists x. by apply elem_of_shared.
  - intros (x & Hx). apply elem_of_shared in Hx.
    assert (size (shared i cc) ≠ 0); [|lia]. intros Hs. apply size_empty_inv in Hs. set_solver.
Qed.

End shared.

Section features.
Context {A : Arith} {H : HashOrder}.
Context (g : graph) (WF : wfg g) (dimc : nat).
Context (Hvol : length (g_vol g) = g_n g) (Hcen : length (g_cen g) = g_n g).
Context (Hdim : ∀ k c, g_cen g !! k = Some c → length c = dimc).
Context (Hbnd : length (g_bnd g) = g_n g).
Implicit Types (f : feats) (cc : gset nat).

Notation shared := (shared g).
Definition shared_w (i : nat) cc : W :=
  foldl (λ sw '(n, w), if bool_decide (n ≠ i) && bool_decide (n ∈ cc) then wadd sw w else sw)
    w0 (zip (adj g i) (adjw g i)).

Lemma compute_shared_faces_eq i cc : i < g_n g →
  compute_shared_faces g i cc = Ok (shared_w i cc, shared i cc).
Proof.
  intros Hi. unfold compute_shared_faces. rewrite nbrs_wgts_ok by done. rewrite bind_ok. f_equal.
  assert (∀ l sw sf, foldl (λ '(sw, sf) '(n, w),
      if bool_decide (n ≠ i) && bool_decide (n ∈ cc) then (wadd sw w, {[n]} ∪ sf) else (sw, sf)) (sw, sf) l =
    (foldl (λ sw '(n, w), if bool_decide (n ≠ i) && bool_decide (n ∈ cc) then wadd sw w else sw) sw l,
     list_to_set (filter (λ x, x ≠ i ∧ x ∈ cc) (map fst l)) ∪ sf : gset nat)) as Hgen.
  { induction l as [|[n w] l IH]; intros sw sf; simpl; [f_equal; set_solver|].
    rewrite filter_cons.
    destruct (decide (n ≠ i ∧ n ∈ cc)) as [[H1 H2]|Hn].
    - rewrite !bool_decide_true by done. simpl. rewrite IH. f_equal. set_solver.
    - assert (bool_decide (n ≠ i) && bool_decide (n ∈ cc) = false) as ->; [|apply IH].
      apply andb_false_iff. rewrite !bool_decide_eq_false. destruct (decide (n ≠ i)); tauto. }
  rewrite Hgen. unfold shared_w, shared. f_equal.
  rewrite <- (fst_zip (adj g i) (adjw g i)) at 2 by (rewrite adjw_length; done).
  set_solver.
Qed.

Lemma n_bnd_ok i (Q : Z → Prop) :
  i < g_n g → (∀ b, g_bnd g !! i = Some b → Q b) → wp (n_bnd g i) Q.
Proof. intros Hi HQ. apply wp_vget; [by rewrite Hbnd|done]. Qed.
Lemma total_n_faces_ok i (Q : Z → Prop) :
  i < g_n g → (∀ b, g_bnd g !! i = Some b → Q (b + Z.of_nat (length (adj g i)))%Z) →
  wp (total_n_faces g i) Q.
Proof.
  intros Hi HQ. unfold total_n_faces. wstep. apply n_bnd_ok; [done|]. intros b Hb.
  rewrite nb_nbrs_ok by done. simpl. auto.
Qed.
Lemma estimated_total_weight_ok i (Q : W → Prop) :
  i < g_n g → (∀ w, Q w) → wp (estimated_total_weight g i) Q.
Proof.
  intros Hi HQ. unfold estimated_total_weight, estimated_boundary_weight.
  rewrite (wgts_ok g WF) by done. rewrite bind_ok. wstep. wstep.
  apply n_bnd_ok; [done|]. intros b _. case_bool_decide; [simpl; auto|].
  rewrite bind_ok. rewrite (nb_nbrs_ok g WF) by done. simpl. auto.
Qed.

Lemma sqd_acc_ok acc a b : length a ≤ length b → ∃ w, sqd_acc acc a b = Ok w.
Proof.
  revert acc b. induction a as [|x a IH]; intros acc [|y b]; simpl; intros Hl; [eauto..|lia|].
  apply IH. lia.
Qed.
Lemma sqdist_ok a b (Q : W → Prop) : length a ≤ length b → (∀ w, Q w) → wp (sqdist a b) Q.
Proof. intros Hl HQ. destruct (sqd_acc_ok w0 a b Hl) as [w Hw]. unfold sqdist. rewrite Hw. apply HQ. Qed.
Lemma cen_ok i (Q : list W → Prop) :
  i < g_n g → (∀ c, g_cen g !! i = Some c → length c = dimc → Q c) → wp (vget (g_cen g) i) Q.
Proof. intros Hi HQ. apply wp_vget; [lia|]. eauto. Qed.

Lemma approx_features_ok i f cc (Q : W * W → Prop) :
  i < g_n g → (∀ x, x ∈ cc → x < g_n g) → (∀ r, Q r) → wp (approx_features g i f cc) Q.
Proof.
  intros Hi Hcc HQ. unfold approx_features. wstep. apply cen_ok; [done|]. intros c _ Hc.
  eapply wp_mono; [|intros a _; apply HQ].
  apply (wp_foldM_inv _ (λ _, True)); [done|]. intros j [md me] Hj _.
  wstep. apply cen_ok; [apply Hcc; by rewrite elem_of_hset in Hj|]. intros c' _ Hc'.
  wstep. apply sqdist_ok; [lia|]. done.
Qed.

Lemma bary_loop_ok sum cen vol ovN :
  length cen ≤ length sum →
  wp (bary_loop sum cen vol ovN) (λ r, length r.1 = length sum ∧ length r.2 = length cen).
Proof.
  revert sum. induction cen as [|c cen IH]; intros [|s sum]; simpl; intros Hl; [done..|lia|].
  wstep. eapply wp_mono; [apply IH; lia|]. intros [s' b'] [H1 H2]. simpl in *. lia.
Qed.

(** What the features must satisfy for the next call not to fail. *)
Definition feat_inv (k : ar_kind) f cc : Prop :=
  match k with
  | MaxBaryOverRadius _ => length (f_sum f) = dimc
  | MaxOverMinBary => length (f_sum f) = dimc ∧ ∀ x, x ∈ cc → is_Some (f_facets f !! x)
  | _ => True
  end.

Lemma update_basic_ok cw uf i f cc :
  i < g_n g → i ∉ cc → (∀ x, x ∈ cc → x < g_n g) →
  (uf = true → ∀ x, x ∈ cc → is_Some (f_facets f !! x)) →
  wp (update_basic cw uf g i f cc) (λ r,
    r.1 = Z.of_nat (size (shared i cc)) ∧
    (uf = true → ∀ x, x ∈ {[i]} ∪ cc → is_Some (f_facets r.2 !! x))).
Proof.
  intros Hi Hicc Hcc Hf. unfold update_basic. wstep. apply wp_vget; [lia|]. intros vol _.
  rewrite compute_shared_faces_eq by done. rewrite bind_ok. cbn zeta. wstep.
  eapply (wp_mono _ (λ _, True)).
  { destruct cw; [|done]. wstep. apply estimated_total_weight_ok; done. }
  intros ei _. wstep.
  eapply (wp_mono _ (λ m : gmap nat Z, uf = true → ∀ x, x ∈ {[i]} ∪ cc → is_Some (m !! x))).
  { destruct uf; [|done]. wstep. eapply wp_mono.
    { apply (wp_foldM_inv _ (λ m : gmap nat Z, ∀ x, x ∈ cc → is_Some (m !! x))); [by apply Hf|].
      intros k m Hk Hm. apply elem_of_hset, elem_of_shared in Hk as (_ & _ & Hk).
      wstep. destruct (Hm k Hk) as [v Hv]. rewrite (mapat_ok _ _ _ Hv). simpl.
      intros x Hx. destruct (decide (x = k)) as [->|Hne].
      - rewrite lookup_insert. eauto.
      - rewrite lookup_insert_ne by done. auto. }
    intros m Hm. wstep. apply total_n_faces_ok; [done|]. intros b _. simpl. intros _ x Hx.
    destruct (decide (x = i)) as [->|Hne].
    - rewrite lookup_insert. eauto.
    - rewrite lookup_insert_ne by done. apply Hm. set_solver. }
  intros m Hm. simpl. done.
Qed.

Lemma max_bary_ok i cc bary (Q : W → Prop) :
  i < g_n g → (∀ x, x ∈ cc → x < g_n g) → length bary = dimc → (∀ r, Q r) →
  wp (max_bary g i cc bary) Q.
Proof.
  intros Hi Hcc Hb HQ. unfold max_bary. wstep. apply cen_ok; [done|]. intros c _ Hc.
  wstep. apply sqdist_ok; [lia|]. intros d0.
  eapply wp_mono; [|intros a _; apply HQ].
  apply (wp_foldM_inv _ (λ _, True)); [done|]. intros j m Hj _.
  wstep. apply cen_ok; [apply Hcc; by rewrite elem_of_hset in Hj|]. intros c' _ Hc'.
  wstep. apply sqdist_ok; [lia|]. done.
Qed.

Lemma map_idx_ok (m : gmap nat Z) k :
  ∀ x, is_Some (m !! x) → is_Some ((map_idx m k).2 !! x).
Proof.
  intros x Hx. unfold map_idx. destruct (m !! k) eqn:Hk; simpl; [done|].
  destruct (decide (x = k)) as [->|Hne]; [rewrite lookup_insert; eauto|by rewrite lookup_insert_ne].
Qed.

Lemma minmax_bary_ok i cc bary (m : gmap nat Z) :
  i < g_n g → (∀ x, x ∈ cc → x < g_n g) → length bary = dimc →
  wp (minmax_bary g i cc bary m) (λ r, ∀ x, is_Some (m !! x) → is_Some (r.2 !! x)).
Proof.
  intros Hi Hcc Hb. unfold minmax_bary.
  destruct (map_idx m i) as [v m1] eqn:Hm1.
  assert (∀ x, is_Some (m !! x) → is_Some (m1 !! x)) as Hm.
  { intros x Hx. replace m1 with (map_idx m i).2 by by rewrite Hm1. by apply map_idx_ok. }
  wstep. eapply (wp_mono _ (λ _, True)).
  { case_bool_decide; [|done]. wstep. apply cen_ok; [done|]. intros c _ Hc.
    wstep. apply sqdist_ok; [lia|]. done. }
  intros init _.
  apply (wp_foldM_inv _ (λ r : (W * W) * gmap nat Z, ∀ x, is_Some (m !! x) → is_Some (r.2 !! x))); [done|].
  intros j [mm m2] Hj Hm2. apply elem_of_hset in Hj.
  destruct (map_idx m2 j) as [v' m3] eqn:Hm3.
  assert (∀ x, is_Some (m !! x) → is_Some (m3 !! x)) as Hm'.
  { intros x Hx. replace m3 with (map_idx m2 j).2 by by rewrite Hm3. by apply map_idx_ok, Hm2. }
  case_bool_decide; [|done]. wstep. apply cen_ok; [auto|]. intros c _ Hc.
  wstep. apply sqdist_ok; [lia|]. done.
Qed.

Lemma compute_features_ok k i f cc :
  i < g_n g → i ∉ cc → (∀ x, x ∈ cc → x < g_n g) → feat_inv k f cc →
  wp (compute_features k g i f cc) (λ r,
    r.1.1 = Z.of_nat (size (shared i cc)) ∧ feat_inv k r.2 ({[i]} ∪ cc)).
Proof.
  intros Hi Hicc Hcc Hf.
  assert (∀ r : W * W, True) as HT by done.
  destruct k; simpl in *; (wstep; eapply wp_mono;
    [apply update_basic_ok; [done..|intros Huf; first [discriminate Huf|apply Hf]]|]; intros [ns nf] [H1 H2]; simpl in H1).
  1,2,3: wstep; apply approx_features_ok; [done..|]; intros a; done.
  1,2,3,4,7: done.
  - wstep. unfold update_barycenter. wstep. apply cen_ok; [done|]. intros c _ Hc.
    wstep. apply wp_vget; [lia|]. intros vol _. cbn zeta.
    eapply wp_mono; [apply bary_loop_ok; lia|]. intros [s b] [Hs Hb]. simpl in *.
    wstep. apply max_bary_ok; [done..|lia|]. intros m. simpl. split; [done|]. lia.
  - wstep. unfold update_barycenter. wstep. apply cen_ok; [done|]. intros c _ Hc.
    wstep. apply wp_vget; [lia|]. intros vol _. cbn zeta. destruct Hf as [Hf1 Hf2].
    eapply wp_mono; [apply bary_loop_ok; lia|]. intros [s b] [Hs Hb]. simpl in *.
    wstep. eapply wp_mono; [apply minmax_bary_ok; [done..|lia]|]. intros [mm m] Hm. simpl in *.
    split; [done|]. split; [lia|]. intros x Hx. apply Hm. by apply H2.
Qed.

Lemma feats_of_cell_ok k i :
  i < g_n g → wp (feats_of_cell g i) (λ f, feat_inv k f {[i]}).
Proof.
  intros Hi. unfold feats_of_cell. wstep. apply wp_vget; [lia|]. intros vol _.
  wstep. apply estimated_total_weight_ok; [done|]. intros ext.
  wstep. apply total_n_faces_ok; [done|]. intros nf _.
  wstep. apply cen_ok; [done|]. intros c _ Hc. simpl.
  destruct k; simpl; try done; rewrite ?map_length; [done|]. split; [done|].
  intros x Hx. apply elem_of_singleton in Hx as ->. rewrite lookup_singleton. eauto.
Qed.

End features.
