(** * ReordT: the order in which the faces of a cell are listed (C58) *)

From Verif Require Import Features Iso Main Spec SpecSub SpecFeat SpecAR SpecBest SpecFront SpecPool SpecGrow SpecFeed SpecHash
  SpecLine SpecMove SpecWhole SpecReord GraphP FeatT WholeU.

Section same.
Context {A : Arith}.
Implicit Types (g : graph) (X Y : gset nat).

Record same_faces (g g' : graph) : Prop := {
  sf_ent : ∀ x, entries (g_row g) (g_col g) (g_val g) x ≡ₚ entries (g_row g') (g_col g') (g_val g') x;
  sf_nb : ∀ x, nb_list (g_row g) (g_col g) x ≡ₚ nb_list (g_row g') (g_col g') x;
  sf_vol : g_vol g' = g_vol g;
  sf_cen : g_cen g' = g_cen g;
  sf_bnd : g_bnd g' = g_bnd g;
}.
Lemma same_faces_sym g g' : same_faces g g' → same_faces g' g.
Proof. intros []. by split. Qed.

Section one.
Context (g g' : graph) (HS : same_faces g g').
Notation row := (g_row g). Notation col := (g_col g). Notation val := (g_val g).
Notation row' := (g_row g'). Notation col' := (g_col g'). Notation val' := (g_val g').

Lemma sf_edge x y : edge row col x y ↔ edge row' col' x y.
Proof. by rewrite <- !elem_of_nb_list, (sf_nb _ _ HS x). Qed.
Lemma sf_to (P : nat → Prop) `{∀ y, Decision (P y)} x : faces_to row col val P x ≡ₚ faces_to row' col' val' P x.
Proof. unfold faces_to. apply fmap_Permutation, filter_Permutation, HS. Qed.
Lemma sf_in X (P : nat → Prop) `{∀ y, Decision (P y)} x : nb_in row col X P x = nb_in row' col' X P x.
Proof.
  unfold nb_in. f_equal. apply set_eq. intros y. rewrite !elem_of_filter, (sf_nb _ _ HS x). done.
Qed.
Lemma sf_len x : length (nb_list row col x) = length (nb_list row' col' x).
Proof. by rewrite (sf_nb _ _ HS x). Qed.
Lemma sf_count (P : nat → Prop) `{∀ y, Decision (P y)} x :
  length (filter P (nb_list row col x)) = length (filter P (nb_list row' col' x)).
Proof. by rewrite (sf_nb _ _ HS x). Qed.

Lemma sf_compact X c : compactness row col X c → compactness row' col' X c.
Proof.
  unfold compactness. destruct (decide (1 < size X)); [|done]. intros [(x & Hx & Hc) Hm]. split.
  - exists x. by rewrite <- sf_count.
  - intros y Hy. rewrite <- sf_count. by apply Hm.
Qed.
Lemma sf_outer X x : outer_faces row col (g_bnd g) X x = outer_faces row' col' (g_bnd g') X x.
Proof. unfold outer_faces. by rewrite (sf_bnd _ _ HS), sf_len, sf_in. Qed.
Lemma sf_ext X : ext_of g X = ext_of g' X.
Proof.
  unfold ext_of, external_faces. do 2 f_equal. apply list_fmap_ext. intros _ x _. apply sf_outer.
Qed.

Context (EA : exact_arith).
Lemma sf_bndw x : bnd_weight row col val (g_bnd g) x = bnd_weight row' col' val' (g_bnd g') x.
Proof.
  unfold bnd_weight. rewrite (sf_bnd _ _ HS). destruct (g_bnd g !! x) as [[]|]; try done;
  by rewrite (sum_l_perm EA _ _ (sf_to _ x)), sf_len.
Qed.
Lemma sf_intw X : internal_weight row col val X = internal_weight row' col' val' X.
Proof. unfold internal_weight. apply sum_over_ext. intros x _. apply (sum_l_perm EA), sf_to. Qed.
Lemma sf_extw X : external_weight row col val (g_bnd g) X = external_weight row' col' val' (g_bnd g') X.
Proof.
  unfold external_weight. apply sum_over_ext. intros x _. rewrite sf_bndw. f_equal. apply (sum_l_perm EA), sf_to.
Qed.
Lemma sf_ar dim q k X a : is_ar g dim q k X a → is_ar g' dim q k X a.
Proof.
  unfold is_ar. rewrite <- sf_intw, <- sf_extw, !(sf_vol _ _ HS), !(sf_cen _ _ HS).
  assert (∀ b X w, bary_dist g b X w ↔ bary_dist g' b X w) as HB.
  { intros. unfold bary_dist. by rewrite (sf_cen _ _ HS). }
  assert (∀ b X w, outer_bary_dist g b X w ↔ outer_bary_dist g' b X w) as HO.
  { intros b Y w. unfold outer_bary_dist. setoid_rewrite <- sf_outer. by rewrite (sf_cen _ _ HS). }
  assert (∀ b, centre_of g q X b → centre_of g' q X b) as HC.
  { intros b. unfold centre_of. by rewrite (sf_vol _ _ HS), (sf_cen _ _ HS). }
  destruct k; try done.
  - intros (b & D & Hb & Hc & [G1 G2] & ->). exists b, D. split_and!; [done|by apply HC| |done].
    split; [by apply HB|]. intros w Hw. apply G2, HB, Hw.
  - intros (b & D & E & Hb & Hc & [G1 G2] & [L1 L2] & ->). exists b, D, E. split_and!; [done|by apply HC| | |done].
    + split; [by rewrite <- HO|]. intros w. rewrite <- HO. apply G2.
    + split; [by rewrite <- HO|]. intros w. rewrite <- HO. apply L2.
Qed.
Lemma sf_extremes q X : extremes_ok g q X → extremes_ok g' q X.
Proof.
  intros HX b w Hc Ho. apply (HX b).
  - revert Hc. unfold centre_of. by rewrite (sf_vol _ _ HS), (sf_cen _ _ HS).
  - revert Ho. unfold outer_bary_dist. setoid_rewrite <- sf_outer. by rewrite (sf_cen _ _ HS).
Qed.

Section pick.
Context (prio : list W) (k : ar_kind) (dim : nat) (allowed : gset nat) (front : option Z) (dist : nat → Z).
Lemma listing_iff (P Q : nat → Prop) l : (∀ x, P x ↔ Q x) → listing prio P l → listing prio Q l.
Proof. intros HPQ [H1 H2]. split; [|done]. intros x. by rewrite H1. Qed.
Lemma sf_appended cs L : appended g prio allowed cs L → appended g' prio allowed cs L.
Proof.
  induction 1 as [|cs L c new HA IH HL]; [constructor|]. constructor; [done|].
  eapply listing_iff, HL. intros x. cbv beta. by rewrite sf_edge.
Qed.
Lemma sf_around cs j x : around row col allowed cs j x ↔ around row' col' allowed cs j x.
Proof. unfold around. by setoid_rewrite sf_edge. Qed.
Lemma sf_candidates cs L : candidates g prio allowed front cs L → candidates g' prio allowed front cs L.
Proof.
  unfold candidates. destruct front as [d|]; [|apply sf_appended]. intros [HF HL]. split; [|done].
  unfold front_candidates in *. destruct (bool_decide _).
  - intros x. rewrite HF. by setoid_rewrite sf_around.
  - destruct HF as [[HL0 HF]|(j & Hj & Hn & H1 & H2)]; [left|right].
    + split; [done|]. intros j x. rewrite <- sf_around. apply HF.
    + exists j. split_and!; [done|done| |].
      * intros x. rewrite H1. apply sf_around.
      * intros j' x Ht Hlt. rewrite <- sf_around. by apply H2.
Qed.
Lemma sf_ratio cs x a : ratio g k dim cs x a → ratio g' k dim cs x a.
Proof.
  unfold ratio. cbn zeta. destruct (two_cells_edge k _); [by rewrite (sf_cen _ _ HS)|apply sf_ar].
Qed.
Lemma sf_shared cs x : shared_faces g cs x = shared_faces g' cs x.
Proof. unfold shared_faces. by rewrite sf_in. Qed.
Lemma sf_judged n : ∀ cs x v, judged g prio k dim allowed front dist n cs x v → judged g' prio k dim allowed front dist n cs x v.
Proof.
  induction n as [|n IH]; intros cs x v; cbn [judged].
  - intros (a & Ha & ->). exists a. split; [by apply sf_ratio|]. by rewrite sf_shared.
  - intros (a & Ha & L & m & HL & -> & HM). exists a. split; [by apply sf_ratio|]. exists L, m.
    split; [by apply sf_candidates|]. split; [by rewrite sf_shared|].
    destruct HM as [?|(look & c & Hj & Hf & ->)]; [by left|right]. exists look, c.
    split; [intros y Hy; by apply IH, Hj|]. split; [done|]. by rewrite sf_shared.
Qed.
Lemma sf_picked n cs c : picked g prio k dim allowed front dist n cs c → picked g' prio k dim allowed front dist n cs c.
Proof.
  intros (L & look & HL & Hj & Hf). exists L, look. split; [by apply sf_candidates|]. split; [|done].
  intros y Hy. by apply sf_judged, Hj.
Qed.
End pick.

Lemma sf_walk (P S : nat → Prop) j x : walk (edge row col) P S j x → walk (edge row' col') P S j x.
Proof. induction 1; [by constructor|]. econstructor; [done| |done]. by apply sf_edge. Qed.
End one.

Lemma sf_at_dist g g' P S j x : same_faces g g' → at_dist (edge (g_row g) (g_col g)) P S j x ↔ at_dist (edge (g_row g') (g_col g')) P S j x.
Proof.
  intros HS. pose proof (same_faces_sym _ _ HS) as HS'.
  split; (intros [W1 W2]; split; [|intros j' Hj; apply W2]);
    first [by apply (sf_walk _ _ HS)|by apply (sf_walk _ _ HS')].
Qed.

Section grow.
Context (g g' : graph) (HS : same_faces g g') (EA : exact_arith) (ip : iso_params) (prio : list W) (dim : nat).
Lemma sf_hood free seed K dn : hood ip g free seed K dn → hood ip g' free seed K dn.
Proof.
  intros [H1 H2 H3].
  pose proof (λ j x, sf_at_dist g g' free (λ z, z = seed) j x HS) as HD. split.
  - intros x v. rewrite H1. by setoid_rewrite (HD _ _).
  - cbn zeta in *. destruct H2 as [H2|H2]; [left|by right]. intros j x Hj. apply (H2 j), HD, Hj.
  - cbn zeta in *. destruct H3 as [H3|[H3|(Y & HY & Hs)]]; [by left|right; by left|right; right].
    exists Y. split; [|done]. intros x. rewrite HY. by setoid_rewrite (HD _ _).
Qed.
Lemma sf_grown free seed X : grown_cell ip g prio dim free seed X → grown_cell ip g' prio dim free seed X.
Proof.
  intros [H1 (K & dn & Hh & HX)]. split; [done|]. exists K, dn. split; [by apply sf_hood|]. cbn zeta in *.
  destruct (bool_decide _); [done|]. destruct HX as (l & C & k & Hn & Hl & Hp & Hc & Hk & ->).
  exists l, C, k. split_and!; try done.
  - intros j c Hj. apply (sf_picked _ _ HS EA). by apply Hp.
  - intros j Hj. apply (sf_compact _ _ HS). by apply Hc.
  - revert Hk. unfold size_kept, optimal. by setoid_rewrite (sf_ext _ _ HS).
Qed.
Lemma sf_sequence aggl p Xs : sequence ip g prio dim aggl p Xs → sequence ip g' prio dim aggl p Xs.
Proof.
  induction 1 as [aggl p He|aggl p seed p1 X K dn p2 aggl' Xs Ht Hg Hh Hf Hl Hfr Hs IH]; [by constructor|].
  econstructor; [by rewrite (sf_bnd _ _ HS)|by apply sf_grown|by apply sf_hood| |done|done|done].
  rewrite (sf_bnd _ _ HS). destruct Hf as [F1 F2 F3].
  assert (∀ y, (is_free aggl y ∧ y ∉ X ∧ ∃ x, x ∈ X ∧ edge (g_row g') (g_col g') x y) ↔
    (is_free aggl y ∧ y ∉ X ∧ ∃ x, x ∈ X ∧ edge (g_row g) (g_col g) x y)) as HN.
  { intros y. by setoid_rewrite (sf_edge _ _ HS). }
  split; [done| |].
  - intros l q Hq. destruct (F2 l q Hq) as (add & Ha & Hx & Hst). exists add. split; [done|]. split; [|done].
    intros x. rewrite HN. apply Hx.
  - destruct (sp_bp p1); [|done]. destruct F3 as (t & t' & E1 & E2 & E3 & E4 & E5). exists t, t'.
    split_and!; try done.
    + intros x b. rewrite HN. apply E4.
    + destruct E5 as [?|(x & Hx & Hb)]; [by left|]. right. exists x. by rewrite HN.
Qed.
End grow.

(** ** Correction *)
Section move.
Context (g g' : graph) (HS : same_faces g g') (iso : nat → Prop).
Notation row := (g_row g). Notation col := (g_col g).
Notation row' := (g_row g'). Notation col' := (g_col g').
Lemma sf_compact_iff X c : compactness row col X c ↔ compactness row' col' X c.
Proof. split; apply sf_compact; [done|by apply same_faces_sym]. Qed.
Lemma sf_gains X Y : gains row col X Y ↔ gains row' col' X Y.
Proof. unfold gains. by setoid_rewrite sf_compact_iff. Qed.
Lemma sf_beside f old X k : beside row col iso f old X k ↔ beside row' col' iso f old X k.
Proof. unfold beside. by setoid_rewrite (sf_edge _ _ HS). Qed.
Lemma sf_rather f x k k' : rather row col f x k k' ↔ rather row' col' f x k k'.
Proof.
  unfold rather. cbn zeta. rewrite !sf_gains.
  assert (∀ X, faces_with row col x X = faces_with row' col' x X) as HF by (intros X; apply (sf_count _ _ HS)).
  by rewrite !HF.
Qed.
Lemma sf_joins (P Q : nat → Prop) f x k : (∀ k, P k ↔ Q k) → joins row col P f x k → joins row' col' Q f x k.
Proof.
  intros HPQ [H1 H2]. split; [by apply HPQ|]. intros k' Hk Hne. apply sf_rather, H2; [by apply HPQ|done].
Qed.
Lemma sf_obo f0 old l f f' : one_by_one row col iso f0 old l f f' → one_by_one row' col' iso f0 old l f f'.
Proof.
  induction 1 as [f|x k l f f' Hj Ho IH|x l f f' Hn Ho IH]; [constructor| |].
  - econstructor; [|done]. eapply sf_joins, Hj. intros ?. apply sf_beside.
  - apply obo_stay; [|done]. intros k. rewrite <- sf_beside. apply Hn.
Qed.
Lemma sf_absorbed f old f' : absorbed row col iso f old f' → absorbed row' col' iso f old f'.
Proof.
  unfold absorbed. cbn zeta. intros [(Hs & k & (J1 & J2 & J3) & ->)|(Hs & l & Hn & Hl & Ho)].
  - left. split; [done|]. exists k. split; [|done]. split; [by apply sf_beside|]. split; [by apply sf_gains|].
    intros k' Hk Hg. apply J3; [by apply sf_beside|by apply sf_gains].
  - right. split.
    + destruct Hs as [?|Hs]; [by left|]. right. intros k. rewrite <- sf_beside, <- sf_gains. apply Hs.
    + exists l. split; [done|]. split; [done|]. by apply sf_obo.
Qed.
Lemma sf_absorbed_all l f f' : absorbed_all row col iso l f f' → absorbed_all row' col' iso l f f'.
Proof. induction 1; [constructor|]. econstructor; [by apply sf_absorbed|done]. Qed.
End move.

(** ** Lines *)
Section line.
Context (g g' : graph) (HS : same_faces g g').
Notation row := (g_row g). Notation col := (g_col g). Notation val := (g_val g).
Notation row' := (g_row g'). Notation col' := (g_col g'). Notation val' := (g_val g').

Lemma greatest_iff (P Q : W → Prop) m : (∀ w, P w ↔ Q w) → greatest P m ↔ greatest Q m.
Proof. intros HPQ. unfold greatest. by setoid_rewrite HPQ. Qed.
Lemma least_iff (P Q : W → Prop) m : (∀ w, P w ↔ Q w) → least P m ↔ least Q m.
Proof. intros HPQ. unfold least. by setoid_rewrite HPQ. Qed.
Lemma preferred_iff (P Q : nat → W → Prop) y : (∀ y w, P y w ↔ Q y w) → preferred P y ↔ preferred Q y.
Proof. intros HPQ. unfold preferred. by setoid_rewrite HPQ. Qed.

Lemma sf_anisotropic is2d compl thr x : anisotropic row col val is2d compl thr x ↔ anisotropic row' col' val' is2d compl thr x.
Proof.
  unfold anisotropic, face_ratio.
  assert (∀ (Q : W → Prop) w, Q w ∨ w ∈ faces_to row col val (λ y, y ≠ x) x ↔ Q w ∨ w ∈ faces_to row' col' val' (λ y, y ≠ x) x) as HF.
  { intros Q w. by rewrite (sf_to _ _ HS _ x). }
  assert (∀ m, greatest (λ w, w = w0 ∨ w ∈ faces_to row col val (λ y, y ≠ x) x) m ↔
    greatest (λ w, w = w0 ∨ w ∈ faces_to row' col' val' (λ y, y ≠ x) x) m) as HG.
  { intros m. apply greatest_iff. intros w. apply (HF (λ w, w = w0)). }
  assert (∀ m, least (λ w, w = wmaxv ∨ w ∈ faces_to row col val (λ y, y ≠ x) x) m ↔
    least (λ w, w = wmaxv ∨ w ∈ faces_to row' col' val' (λ y, y ≠ x) x) m) as HL.
  { intros m. apply least_iff. intros w. apply (HF (λ w, w = wmaxv)). }
  by setoid_rewrite HG; setoid_rewrite HL.
Qed.

Context (mindist : bool) (thr : W) (force : bool).
Notation cen := (g_cen g).
Lemma sf_couplings x e : e ∈ couplings row col val cen mindist x ↔ e ∈ couplings row' col' val' cen mindist x.
Proof. unfold couplings. destruct mindist; [by rewrite (sf_nb _ _ HS x)|by rewrite (sf_ent _ _ HS x)]. Qed.
Lemma sf_couplings2 x w : w ∈ (couplings row col val cen mindist x).*2 ↔ w ∈ (couplings row' col' val' cen mindist x).*2.
Proof. rewrite !elem_of_list_fmap. by setoid_rewrite sf_couplings. Qed.
Lemma sf_max_coupling x m : max_coupling row col val cen mindist thr x m ↔ max_coupling row' col' val' cen mindist thr x m.
Proof.
  unfold max_coupling. destruct mindist eqn:Em; [|destruct (wlt _ _)]; apply greatest_iff; intros w.
  - pose proof (sf_couplings2 x w) as HC. rewrite Em in HC. by rewrite HC.
  - pose proof (sf_couplings2 x w) as HC. rewrite Em in HC. by rewrite HC.
  - by rewrite (sf_to _ _ HS _ x).
Qed.
Lemma sf_high x y w : high_coupled row col val cen mindist thr x y w ↔ high_coupled row' col' val' cen mindist thr x y w.
Proof. unfold high_coupled. rewrite sf_couplings. by setoid_rewrite sf_max_coupling. Qed.
Lemma sf_continued F x dir y : continued row col val cen mindist thr force F x dir y ↔ continued row' col' val' cen mindist thr force F x dir y.
Proof.
  unfold continued. destruct dir as [d|]; [destruct force|].
  - cbn zeta.
    assert (∀ y c, (y ∈ F ∧ (∃ w, high_coupled row col val cen mindist thr x y w) ∧ aligned cen x d y c) ↔
      (y ∈ F ∧ (∃ w, high_coupled row' col' val' cen mindist thr x y w) ∧ aligned cen x d y c)) as HH.
    { intros. by setoid_rewrite sf_high. }
    rewrite (preferred_iff _ _ y HH). setoid_rewrite HH.
    rewrite (preferred_iff (λ y c, y ∈ F ∧ y ∈ nb_list row col x ∧ aligned cen x d y c)
      (λ y c, y ∈ F ∧ y ∈ nb_list row' col' x ∧ aligned cen x d y c)); [done|].
    intros z c. by rewrite (sf_nb _ _ HS x).
  - apply preferred_iff. intros z w. by rewrite sf_high.
  - apply preferred_iff. intros z w. by rewrite sf_high.
Qed.
Lemma sf_prolonged F x dir l : prolonged row col val cen mindist thr force F x dir l → prolonged row' col' val' cen mindist thr force F x dir l.
Proof.
  induction 1 as [F x dir Hn|F x dir y l Hc Hp IH].
  - constructor. intros y. rewrite <- sf_continued. apply Hn.
  - constructor; [by apply sf_continued|done].
Qed.
Lemma sf_built F s l : built_from row col val cen mindist thr force F s l → built_from row' col' val' cen mindist thr force F s l.
Proof.
  intros (fwd & bwd & H1 & H2 & ->). exists fwd, bwd. split; [by apply sf_prolonged|]. split; [|done].
  destruct fwd; [done|]. by apply sf_prolonged.
Qed.
Lemma sf_all_built F ss ls : all_built row col val cen mindist thr force F ss ls → all_built row' col' val' cen mindist thr force F ss ls.
Proof.
  induction 1.
  - constructor.
  - by apply ab_used.
  - apply ab_line; [done|by apply sf_built|done..].
  - apply ab_alone; [done|by apply sf_built|done].
Qed.
End line.
End same.
