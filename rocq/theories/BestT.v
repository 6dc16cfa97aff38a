(** * BestT: the next cell of a growing coarse cell (C38) *)

From Verif Require Import SpecSub SpecFeat SpecAR SpecBest FeatU.
From Verif Require Export BestP.

Section order.
Context {A : Arith} (WO : weak_order (@wlt A) (λ _, True)).
Implicit Types p q r : Z * Z * W.

Lemma beats_irr p : ¬ beats p p.
Proof using WO.
  intros [?|[_ [?|[_ Hw]]]]; [lia..|]. rewrite (wo_irr _ _ WO) in Hw; done.
Qed.
Lemma beats_tr p q r : beats p q → beats q r → beats p r.
Proof using WO.
  unfold beats. intros [?|[? [?|[? H1]]]] [?|[? [?|[? H2]]]]; try (left; lia);
    right; (split; [lia|]); try (left; lia).
  right. split; [lia|]. by eapply (wo_tr _ _ WO).
Qed.
(** Negative transitivity. *)
Lemma beats_neg p q r : beats p r → ¬ beats q r → beats p q.
Proof using WO.
  unfold beats. intros H1 H2.
  destruct (Z.lt_trichotomy q.1.1 p.1.1) as [?|[Hf|?]]; [by left| |exfalso; apply H2; left; lia].
  right. split; [done|].
  destruct (Z.lt_trichotomy p.1.2 q.1.2) as [?|[Ho|?]]; [by left| |].
  - right. split; [done|]. destruct H1 as [?|[? [?|[? Hw]]]].
    + exfalso. apply H2. left. lia.
    + exfalso. apply H2. right. split; [lia|]. left. lia.
    + destruct (wo_neg _ _ WO p.2 q.2 r.2) as [?|Hq]; [done..| |]; [done|].
      exfalso. apply H2. right. split; [lia|]. right. split; [lia|done].
  - exfalso. apply H2. destruct H1 as [?|[? [?|[? Hw]]]]; [left; lia|right; split; [lia|left; lia]|].
    right. split; [lia|]. left. lia.
Qed.

(** ** The selection loop

    [K i] gives the number of faces and the aspect ratio by which [i] is
    judged, its features and its own number of faces. *)
Definition chosen (dn : gmap nat Z) (K : nat → Z * W * feats * Z) (l : list nat) (b : best) : Prop :=
  first_best (λ j, ((K j).1.1.1, default 0%Z (dn !! j), (K j).1.1.2)) l (b_arg b) ∧
  b = Best (b_arg b) (K (b_arg b)).2 (K (b_arg b)).1.2 (K (b_arg b)).1.1.2 (b_arg b) (K (b_arg b)).1.1.1.

Lemma select_ok (dn : gmap nat Z) (K : nat → Z * W * feats * Z) f l b0 :
  (∀ b i, i ∈ l → f b i = best_step dn b i (K i).1.1.1 (K i).1.1.2 (K i).1.2 (K i).2) →
  l ≠ [] → b_ref b0 = 0%Z → (∀ i, i ∈ l → (0 < (K i).1.1.1)%Z ∧ is_Some (dn !! i)) →
  wp (foldM f l b0) (chosen dn K l).
Proof using WO.
  intros Hf Hne Hr HK. eapply wp_mono.
  { apply (wp_foldM _ (λ (pre : list nat) b, pre = [] ∧ b = b0 ∨ chosen dn K pre b)); [by left|].
    intros pre i post b Heq Hb. assert (i ∈ l) as Hi by (rewrite Heq; set_solver).
    destruct (HK _ Hi) as [Hpos Hsi].
    rewrite Hf by done. rewrite best_step_ok; [|done|].
    2:{ intros He. destruct Hb as [[-> ->]|[(p1 & p2 & Hp & _) Hb]]; [lia|].
        rewrite Hb. simpl. apply HK. rewrite Heq, Hp. set_solver. }
    simpl. right. destruct Hb as [[-> ->]|[(p1 & p2 & Hp & Hp1 & Hp2) Hb]].
    { unfold preferred. rewrite (bool_decide_true (b_ref b0 < _)%Z) by lia. simpl. split; [|done]. simpl.
      exists [], []. split_and!; [done|set_solver|set_solver]. }
    set (key := λ j, ((K j).1.1.1, default 0%Z (dn !! j), (K j).1.1.2)) in *.
    assert (is_Some (dn !! b_arg b)) as [ob Hob] by (apply HK; rewrite Heq, Hp; set_solver).
    destruct Hsi as [oi Hoi].
    assert (preferred dn b i (K i).1.1.1 (K i).1.1.2 = true ↔ beats (key i) (key (b_arg b))) as Hpref.
    { rewrite Hb. unfold preferred, beats, key. simpl. rewrite Hoi, Hob. simpl.
      rewrite orb_true_iff, andb_true_iff, orb_true_iff, !andb_true_iff, !bool_decide_eq_true.
      intuition lia. }
    destruct (preferred _ _ _ _ _) eqn:Hpr.
    - apply proj1 in Hpref. specialize (Hpref eq_refl). split; [|done]. cbn [b_arg].
      exists pre, []. split_and!; [done| |set_solver]. intros j Hj. fold (key i) (key j).
      rewrite Hp in Hj. apply elem_of_app in Hj as [Hj|[-> |Hj]%elem_of_cons].
      + eapply beats_tr; [done|]. by apply Hp1.
      + done.
      + eapply beats_neg; [done|]. by apply Hp2.
    - split; [|done]. exists p1, (p2 ++ [i]). rewrite Hp. split_and!; [by rewrite <- app_assoc|done|].
      intros j [Hj|Hj%elem_of_list_singleton]%elem_of_app; [by apply Hp2|]. subst j.
      intros Hbt. apply Hpref in Hbt. done. }
  intros b [[-> _]|Hb]; done.
Qed.
End order.

Section statements.
Context {A : Arith} {H : HashOrder}.

(** The features of a set of cells can be computed, for any arithmetic. *)
Lemma features_of_inv (g : graph) (dim : nat) k seed l :
  mesh_shape g dim → NoDup (seed :: l) → (∀ x, x ∈ seed :: l → x < g_n g) →
  wp (features_of k g seed l) (λ f, feat_inv dim k f (list_to_set (seed :: l))).
Proof.
  intros [D1 D2 D3 D5 D6 D7 D8] Hnd Hl. assert (wfg g) as WF by done. unfold features_of. wstep.
  eapply wp_mono; [apply (feats_of_cell_ok g WF dim D5 D6 D7 D8 k); apply Hl; left|]. intros f Hf.
  apply NoDup_cons in Hnd as [Hs Hnd].
  assert (∀ x, x ∈ l → x ∉ ({[seed]} : gset nat)) as Hd by set_solver.
  assert (∀ x, x ∈ ({[seed]} : gset nat) → x < g_n g) as HX.
  { intros x ->%elem_of_singleton. apply Hl. left. }
  assert (∀ x, x ∈ l → x < g_n g) as Hl' by (intros; apply Hl; by right).
  replace (list_to_set (seed :: l) : gset nat) with (list_to_set l ∪ {[seed]} : gset nat) by set_solver.
  clear Hs Hl. revert f Hf Hd HX. generalize ({[seed]} : gset nat) as X.
  induction l as [|x l IH]; intros X f Hf Hd HX; cbn [add_cells].
  - cbn [list_to_set wp]. by rewrite (left_id_L ∅ (∪) X).
  - apply NoDup_cons in Hnd as [Hx Hnd]. wstep.
    eapply wp_mono; [apply (compute_features_ok g WF dim D5 D6 D7 D8 k x f X)|]; [apply Hl'; left|apply Hd; left|done|done|].
    intros r [_ Hr]. eapply wp_mono; [apply (IH Hnd)|]; [intros; apply Hl'; by right|done| | |].
    + intros y Hy [->%elem_of_singleton|Hy']%elem_of_union; [done|]. by apply (Hd y); [right|].
    + intros y [->%elem_of_singleton|Hy]%elem_of_union; [apply Hl'; left|by apply HX].
    + intros f' Hf'. by replace (list_to_set (x :: l) ∪ X : gset nat) with (list_to_set l ∪ ({[x]} ∪ X) : gset nat) by set_solver.
Qed.

Definition run_feat (r : res (Z * W * feats)) : Z * W * feats :=
  match r with Ok x => x | Err _ => (0%Z, w0, feats_default) end.

Lemma C38_best (g : graph) (dim : nat) (k : ar_kind) (seed : nat) (l : list nat) (h : nbh) (dn : gmap nat Z) :
  weak_order (@wlt A) (λ _, True) → mesh_shape g dim →
  NoDup (seed :: l) → (∀ x, x ∈ seed :: l → x < g_n g) →
  let X := list_to_set (seed :: l) in
  nb_cand h ≠ [] →
  (∀ x, x ∈ nb_cand h → x < g_n g ∧ x ∉ X ∧ is_Some (dn !! x) ∧
    ∃ y, y ∈ X ∧ y ∈ nb_list (g_row g) (g_col g) x) →
  let faces x := Z.of_nat (nb_in (g_row g) (g_col g) X (λ y, y ≠ x) x) in
  ∃ f b (ar : nat → W), features_of k g seed l = Ok f ∧
    best_biconnected k g h dn f X 0 0%Z feats_default = Ok b ∧
    (∀ x, x ∈ nb_cand h → ∃ f', compute_features k g x f X = Ok (faces x, ar x, f')) ∧
    first_best (λ x, (faces x, default 0%Z (dn !! x), ar x)) (nb_cand h) (b_arg b) ∧
    b_faces b = faces (b_arg b) ∧ (0 < b_faces b)%Z ∧
    compute_features k g (b_arg b) f X = Ok (faces (b_arg b), ar (b_arg b), b_feats b).
Proof.
  intros WO MD Hnd Hl X Hne Hc faces.
  pose proof (features_of_inv g dim k seed l MD Hnd Hl) as Hf. apply wp_eq in Hf as (f & Hf & HI).
  destruct MD as [D1 D2 D3 D5 D6 D7 D8]. assert (wfg g) as WF by done.
  assert (∀ x, x ∈ X → x < g_n g) as HX by (intros x Hx; apply Hl; by apply elem_of_list_to_set in Hx).
  set (R := λ x, run_feat (compute_features k g x f X)).
  assert (∀ x, x ∈ nb_cand h → compute_features k g x f X = Ok (faces x, (R x).1.2, (R x).2) ∧ (0 < faces x)%Z) as HR.
  { intros x Hx. destruct (Hc _ Hx) as (Hxn & HxX & _ & y & Hy & Hxy).
    pose proof (compute_features_ok g WF dim D5 D6 D7 D8 k x f X Hxn HxX HX HI) as Hw.
    apply wp_eq in Hw as ([[s a] f'] & Hw & Hs & _). simpl in Hs. unfold R. rewrite Hw. simpl.
    unfold faces. rewrite <- (shared_size g). rewrite Hs. split; [done|].
    assert (0 < size (shared g x X)); [|lia]. apply shared_pos. exists y. split_and!; [by rewrite adj_nb|congruence|done]. }
  set (K := λ x, (faces x, (R x).1.2, (R x).2, faces x)).
  assert (wp (best_biconnected k g h dn f X 0 0%Z feats_default) (chosen dn K (nb_cand h))) as Hb.
  { unfold best_biconnected. wstep. apply wp_vget; [destruct (nb_cand h); [done|simpl; lia]|]. intros c0 _.
    apply (select_ok WO); [|done|done|].
    - intros b i Hi. destruct (HR _ Hi) as [-> _]. done.
    - intros i Hi. split; [by apply HR|]. by apply Hc. }
  apply wp_eq in Hb as (b & Hb & Hfb & Hbe).
  assert (b_arg b ∈ nb_cand h) as Hin. { destruct Hfb as (p1 & p2 & -> & _). apply elem_of_app. right. left. }
  exists f, b, (λ x, (R x).1.2). split_and!; [done|done| |done|by rewrite Hbe| |].
  - intros x Hx. exists (R x).2. by apply HR.
  - rewrite Hbe. by apply HR.
  - rewrite Hbe. cbn [b_feats b_arg]. by apply HR.
Qed.

Definition run_res {B} (d : B) (r : res B) : B := match r with Ok x => x | Err _ => d end.

Lemma C38_look (g : graph) (prio : list W) (dim : nat) (k : ar_kind) (seed : nat) (l : list nat)
    (allowed : gset nat) (front : option Z) (dn : gmap nat Z) (n : nat) :
  weak_order (@wlt A) (λ _, True) → mesh_shape g dim → length prio = g_n g →
  (∀ b, b ∈ g_bnd g → (0 <= b <= 3)%Z) →
  NoDup (seed :: l) → (∀ x, x ∈ seed :: l → x < g_n g) →
  (∀ d, front = Some d → (2 <= d)%Z) →
  (∀ x, x ∈ allowed → x < g_n g ∧ (x ∉ seed :: l → is_Some (dn !! x))) →
  (∃ x y, x ∈ allowed ∧ x ∉ seed :: l ∧ y ∈ seed :: l ∧ x ∈ nb_list (g_row g) (g_col g) y) →
  let X := list_to_set (seed :: l) in
  let faces x := Z.of_nat (nb_in (g_row g) (g_col g) X (λ y, y ≠ x) x) in
  ∃ f h b (ar : nat → W) (look : nat → Z * W), features_of k g seed l = Ok f ∧
    foldM (λ h c, l ← nbrs g c; nbh_update prio h c l) (seed :: l) (nbh_create allowed front) = Ok h ∧
    best_iterative n k g prio h dn f X 0 0%Z feats_default = Ok b ∧
    (∀ x, x ∈ nb_cand h → ∃ f', compute_features k g x f X = Ok (faces x, ar x, f') ∧
      match n with
      | O => look x = (faces x, ar x)
      | S n' => ∃ h' b', (l ← nbrs g x; nbh_update prio h x l) = Ok h' ∧
          best_iterative n' k g prio h' dn f' ({[x]} ∪ X) 0 0%Z feats_default = Ok b' ∧
          look x = ahead (faces x) (ar x) (b_faces b')
      end) ∧
    first_best (λ x, ((look x).1, default 0%Z (dn !! x), (look x).2)) (nb_cand h) (b_arg b) ∧
    b_faces b = faces (b_arg b) ∧ (0 < b_faces b)%Z ∧
    compute_features k g (b_arg b) f X = Ok (faces (b_arg b), ar (b_arg b), b_feats b).
Proof.
  intros WO MD Hpl Hb3 Hnd Hl Hfr Hal Hex X faces.
  pose proof (features_of_inv g dim k seed l MD Hnd Hl) as Hf. apply wp_eq in Hf as (f & Hf & HI).
  destruct MD as [D1 D2 D3 D5 D6 D7 D8]. assert (wfg g) as WF by done.
  assert (weak_order (@wlt A) (λ w, w ∈ prio)) as WOp.
  { destruct WO as [W1 W2 W3]. split; intros; eauto. }
  assert (wfd g prio) as WD.
  { split; try done; [by exists dim|]. intros x b Hx. apply Hb3. by eapply elem_of_list_lookup_2. }
  assert (∀ x, x ∈ X → x < g_n g) as HX by (intros x Hx; apply Hl; by apply elem_of_list_to_set in Hx).
  assert (∀ x, x ∈ X ↔ x ∈ seed :: l) as HXl by (intros x; apply elem_of_list_to_set).
  assert (wp (foldM (λ h c, l ← nbrs g c; nbh_update prio h c l) (seed :: l) (nbh_create allowed front))
    (λ h, nb_inv g prio 0 h ∧ nb_allowed h = allowed ∧ nb_fc h = X)) as Hh.
  { eapply wp_mono; [apply (wp_foldM _ (λ (pre : list nat) h, nb_inv g prio 0 h ∧ nb_allowed h = allowed ∧ nb_fc h = list_to_set pre))|].
    - split_and!; [by apply nb_inv_create|done|done].
    - intros pre c post h Heq (H1 & H2 & H3). assert (c ∈ seed :: l) as Hc by (rewrite Heq; apply elem_of_app; right; left).
      rewrite (nbrs_ok g WF) by auto. rewrite bind_ok.
      eapply wp_mono; [apply (nbh_update_ok g prio WF Hpl WOp 0 h c H1); auto|].
      intros h' (H4 & H5 & H6 & _). split_and!; [done|congruence|]. rewrite H6, H3, list_to_set_app_L. cbn [list_to_set].
      rewrite (right_id_L ∅ (∪)). apply (comm_L (∪)).
    - intros h (H1 & H2 & H3). done. }
  apply wp_eq in Hh as (h & Hh & HNI & Hall & Hfc).
  assert (∀ x, x ∈ nb_cand h → border g allowed X x) as Hc.
  { intros x Hx. rewrite <- Hall, <- Hfc. by apply (ni_cand _ _ _ _ HNI). }
  assert (nb_cand h ≠ []) as Hne.
  { destruct Hex as (x & y & H1 & H2 & H3 & H4). apply (ni_nonempty _ _ _ _ HNI x). rewrite Hall, Hfc.
    split_and!; [done|by rewrite HXl|]. exists y. split; [by apply HXl|]. by rewrite adj_nb. }
  assert (∀ x, x ∈ allowed → x < g_n g) as HD by (intros x Hx; by apply Hal).
  assert (∀ x Y, X ⊆ Y → x ∈ allowed → x ∉ Y → is_Some (dn !! x)) as Hdn.
  { intros x Y HY Hx Hn. apply (Hal _ Hx). rewrite <- HXl. intros Hx'. by apply Hn, HY. }
  set (R := λ x, run_feat (compute_features k g x f X)).
  assert (∀ x, x ∈ nb_cand h → compute_features k g x f X = Ok (faces x, (R x).1.2, (R x).2) ∧ (0 < faces x)%Z ∧
    feat_inv dim k (R x).2 ({[x]} ∪ X)) as HR.
  { intros x Hx. pose proof (features_of_border g prio WF WD dim D7 allowed HD k x f X (Hc _ Hx) HX HI) as Hw.
    apply wp_eq in Hw as ([[s a] f'] & Hw & Hs & Hpos & Hfi). cbn [fst snd] in Hs, Hpos, Hfi. unfold R. rewrite Hw. simpl.
    unfold faces. rewrite <- (shared_size g). subst s. done. }
  set (Hn := λ x, run_res h (l ← nbrs g x; nbh_update prio h x l)).
  assert (∀ x, x ∈ nb_cand h → (l ← nbrs g x; nbh_update prio h x l) = Ok (Hn x) ∧ nb_inv g prio 0 (Hn x) ∧
    nb_allowed (Hn x) = allowed ∧ nb_fc (Hn x) = {[x]} ∪ X) as HH.
  { intros x Hx. destruct (Hc _ Hx) as (Hxa & _). pose proof (HD _ Hxa) as Hxn. unfold Hn.
    rewrite (nbrs_ok g WF) by done. rewrite bind_ok.
    pose proof (nbh_update_ok g prio WF Hpl WOp 0 h x HNI Hxn) as Hw.
    apply wp_eq in Hw as (h' & Hw & H1 & H2 & H3 & _). rewrite Hw. simpl. split_and!; [done|done|congruence|congruence]. }
  set (Bn := λ n' x, run_res (Best 0 0%Z f w0 0 0%Z) (best_iterative n' k g prio (Hn x) dn (R x).2 ({[x]} ∪ X) 0 0%Z feats_default)).
  assert (∀ n' x, x ∈ nb_cand h →
    best_iterative n' k g prio (Hn x) dn (R x).2 ({[x]} ∪ X) 0 0%Z feats_default = Ok (Bn n' x)) as HB.
  { intros n' x Hx. destruct (HH _ Hx) as (_ & H1 & H2 & H3). destruct (HR _ Hx) as (_ & _ & H4).
    destruct (Hc _ Hx) as (Hxa & _).
    assert (wp (best_iterative n' k g prio (Hn x) dn (R x).2 ({[x]} ∪ X) 0 0%Z feats_default) (λ _, True)) as Hw.
    { eapply wp_mono; [eapply (best_iterative_ok g prio WF WD dim D7 allowed HD n' k (Hn x) dn _ ({[x]} ∪ X) 0 feats_default 0)|done]; try done.
      - intros y Hy. rewrite <- H2, <- H3. by apply (ni_cand _ _ _ _ H1).
      - intros y [->%elem_of_singleton|Hy]%elem_of_union; auto.
      - intros y Hy Hn'. eapply (Hdn y ({[x]} ∪ X)); [by apply union_subseteq_r|done|done]. }
    apply wp_eq in Hw as (b' & Hw & _). unfold Bn. by rewrite Hw. }
  set (look := λ x, match n with O => (faces x, (R x).1.2) | S n' => ahead (faces x) (R x).1.2 (b_faces (Bn n' x)) end).
  set (K := λ x, ((look x).1, (look x).2, (R x).2, faces x)).
  assert (∀ x, x ∈ nb_cand h → (0 < (look x).1)%Z) as Hlk.
  { intros x Hx. destruct (HR _ Hx) as (_ & Hpos & _). unfold look, ahead. destruct n; [done|].
    case_bool_decide; [simpl; lia|]. destruct (_ && _); done. }
  assert (wp (best_iterative n k g prio h dn f X 0 0%Z feats_default) (chosen dn K (nb_cand h))) as Hb.
  { destruct n as [|n']; cbn [best_iterative]; (apply (select_ok WO); [|done|done|]).
    2,4: intros i Hi; split; [by apply Hlk|]; destruct (Hc _ Hi) as (? & ? & _); by eapply (Hdn i X).
    all: intros b i Hi; destruct (HR _ Hi) as [-> _]; rewrite bind_ok; cbn beta iota;
      destruct (HH _ Hi) as [Hu _]; destruct (Hc _ Hi) as (Hia & _);
      rewrite (nbrs_ok g WF) in Hu |- * by auto; rewrite bind_ok in Hu; rewrite bind_ok, Hu, bind_ok.
    - done.
    - rewrite (HB n' i Hi), !bind_ok. unfold K, look, ahead. cbn [fst snd].
      repeat case_bool_decide; try done; destruct (wlt w0 _); done. }
  apply wp_eq in Hb as (b & Hb & Hfb & Hbe).
  assert (b_arg b ∈ nb_cand h) as Hin. { destruct Hfb as (p1 & p2 & -> & _). apply elem_of_app. right. left. }
  exists f, h, b, (λ x, (R x).1.2), look. split_and!; [done|done|done| |done|by rewrite Hbe| |].
  - intros x Hx. exists (R x).2. split; [by apply HR|]. unfold look. destruct n as [|n']; [done|].
    exists (Hn x), (Bn n' x). split_and!; [by apply HH|by apply HB|done].
  - rewrite Hbe. by apply HR.
  - rewrite Hbe. cbn [b_feats b_arg]. by apply HR.
Qed.
End statements.
