(** * RenumT: what the numbers of the cells are used for (C60) *)

From Verif Require Import Features Iso Main Spec SpecSub SpecFeat SpecAR SpecBest SpecFront SpecPool SpecGrow SpecFeed SpecHash
  SpecLine SpecMove SpecWhole SpecRenum GraphP FeatT WholeU.

(** ** Lists and sets *)
Section map.
Context (f h : nat → nat) (hf : ∀ x, h (f x) = x) (fh : ∀ x, f (h x) = x).
Implicit Types (X Y : gset nat) (l : list nat).

Lemma f_inj : Inj (=) (=) f.
Proof using h hf. intros x y E. by rewrite <- (hf x), <- (hf y), E. Qed.
#[local] Existing Instance f_inj.

Definition mp X : gset nat := set_map f X.
Lemma mp_in X x : f x ∈ mp X ↔ x ∈ X.
Proof using h hf. unfold mp. rewrite elem_of_map. split; [|by eauto]. intros (y & E%f_inj & ?). by subst. Qed.
Lemma mp_in' X y : y ∈ mp X ↔ h y ∈ X.
Proof using hf fh. rewrite <- (fh y) at 1. apply mp_in. Qed.
Lemma mp_elements X : elements (mp X) ≡ₚ f <$> elements X.
Proof using h hf.
  apply NoDup_Permutation; [apply NoDup_elements| |].
  - apply (NoDup_fmap_2 f), NoDup_elements.
  - intros y. unfold mp. rewrite elem_of_elements, elem_of_map, elem_of_list_fmap. by setoid_rewrite elem_of_elements.
Qed.
Lemma mp_size X : size (mp X) = size X.
Proof using h hf. unfold size, set_size. simpl. by rewrite mp_elements, fmap_length. Qed.
Lemma mp_list l : mp (list_to_set l) = list_to_set (f <$> l).
Proof.
  apply set_eq. intros y. unfold mp. rewrite elem_of_map, elem_of_list_to_set, elem_of_list_fmap.
  by setoid_rewrite elem_of_list_to_set.
Qed.
Lemma mp_union X Y : mp (X ∪ Y) = mp X ∪ mp Y.
Proof. apply set_map_union_L. Qed.
Lemma mp_single x : mp {[x]} = {[f x]}.
Proof. apply set_map_singleton_L. Qed.
Lemma mp_image X y : y ∈ mp X → ∃ x, y = f x ∧ x ∈ X.
Proof. unfold mp. by rewrite elem_of_map. Qed.
Lemma mp_eq_image X Y : (∀ y, y ∈ Y → ∃ x, y = f x) → (∀ x, f x ∈ Y ↔ x ∈ X) → Y = mp X.
Proof using h hf.
  intros HI HY. apply set_eq. intros y. split.
  - intros Hy. destruct (HI _ Hy) as [x ->]. by apply mp_in, HY.
  - intros (x & -> & Hx)%mp_image. by apply HY.
Qed.
Lemma mp_eq X Y : (∀ x, f x ∈ Y ↔ x ∈ X) → Y = mp X.
Proof using h hf fh. intros HY. apply set_eq. intros y. by rewrite <- (fh y), mp_in, HY. Qed.
Lemma in_fmap x l : f x ∈ f <$> l ↔ x ∈ l.
Proof using h hf. apply elem_of_list_fmap_inj, f_inj. Qed.
Lemma filter_map (P P' : nat → Prop) `{∀ y, Decision (P y)} `{∀ y, Decision (P' y)} l :
  (∀ x, P' (f x) ↔ P x) → filter P' (f <$> l) = f <$> filter P l.
Proof.
  intros HP. induction l as [|x l IH]; [done|]. rewrite fmap_cons, !filter_cons, IH.
  destruct (decide (P x)), (decide (P' (f x))); firstorder.
Qed.
Lemma ss_map (R R' : nat → nat → Prop) l : (∀ x y, R x y → R' (f x) (f y)) → StronglySorted R l → StronglySorted R' (f <$> l).
Proof.
  intros HR. induction 1 as [|x l Hs IH Hx]; [constructor|]. rewrite fmap_cons. constructor; [done|].
  rewrite Forall_fmap. eapply Forall_impl; [done|]. intros y. apply HR.
Qed.

Lemma rev_map l : rev (f <$> l) = f <$> rev l.
Proof. induction l as [|x l IH]; [done|]. rewrite fmap_cons. cbn [rev]. by rewrite IH, fmap_app. Qed.

(** A vector indexed by the cells. *)
Definition carry {B} (l : list B) : list B := omap (λ y, l !! h y) (seq 0 (length l)).
Lemma carry_spec {B} (l : list B) : (∀ x, f x < length l ↔ x < length l) →
  length (carry l) = length l ∧ ∀ x, carry l !! f x = l !! x.
Proof using fh hf.
  intros Hc.
  assert (∀ n, n ≤ length l → length (omap (λ y, l !! h y) (seq 0 n)) = n ∧
    ∀ y, y < n → omap (λ y, l !! h y) (seq 0 n) !! y = l !! h y) as HN.
  { induction n as [|n IH]; [split; [done|lia]|]. intros Hn. destruct IH as [I1 I2]; [lia|].
    rewrite seq_S, omap_app. simpl.
    destruct (l !! h n) as [b|] eqn:Eb.
    - split; [rewrite app_length, I1; simpl; lia|]. intros y Hy. destruct (decide (y = n)) as [->|].
      + rewrite lookup_app_r by lia. rewrite I1, Nat.sub_diag. done.
      + rewrite lookup_app_l by lia. apply I2. lia.
    - exfalso. apply lookup_ge_None in Eb. pose proof (Hc (h n)) as Hh. rewrite fh in Hh. lia. }
  destruct (HN (length l)) as [H1 H2]; [done|]. split; [done|]. intros x. unfold carry.
  destruct (decide (x < length l)) as [Hx|Hx].
  - rewrite H2 by (by apply Hc). by rewrite hf.
  - rewrite !lookup_ge_None_2; [done|lia|]. rewrite H1. pose proof (Hc x). lia.
Qed.
End map.

Section renum.
Context {A : Arith}.
Implicit Types (g : graph) (X Y : gset nat).

(** The mesh [g] is found in [g'], where its cell [x] is called [f x]; no face
    leads from one of its cells to a cell with another name. *)
Record embeds (f h : nat → nat) (g g' : graph) : Prop := {
  ca_left : ∀ x, h (f x) = x;
  ca_ent : ∀ x, entries (g_row g') (g_col g') (g_val g') (f x) ≡ₚ prod_map f id <$> entries (g_row g) (g_col g) (g_val g) x;
  ca_nb : ∀ x, nb_list (g_row g') (g_col g') (f x) ≡ₚ f <$> nb_list (g_row g) (g_col g) x;
  ca_vol : ∀ x, g_vol g' !! f x = g_vol g !! x;
  ca_cen : ∀ x, g_cen g' !! f x = g_cen g !! x;
  ca_bnd : ∀ x, g_bnd g' !! f x = g_bnd g !! x;
  ca_sym : sym_weights (g_row g) (g_col g) (g_val g);
  ca_sym' : sym_weights (g_row g') (g_col g') (g_val g');
}.
(** [g'] is [g] with other names. *)
Record carried (f h : nat → nat) (g g' : graph) : Prop := {
  ca_emb :> embeds f h g g';
  ca_right : ∀ x, f (h x) = x;
}.
Lemma carried_sym f h g g' : carried f h g g' → carried h f g' g.
Proof.
  intros HC. pose proof (ca_left _ _ _ _ HC) as hf. pose proof (ca_right _ _ _ _ HC) as fh.
  assert (∀ l : list nat, h <$> (f <$> l) = l) as HL.
  { intros l. rewrite <- list_fmap_compose. rewrite <- (list_fmap_id l) at 2. apply list_fmap_ext. intros. apply hf. }
  assert (∀ l : list (nat * W), prod_map h id <$> (prod_map f id <$> l) = l) as HL'.
  { intros l. rewrite <- list_fmap_compose. rewrite <- (list_fmap_id l) at 2. apply list_fmap_ext. intros _ [x w] _.
    cbn. by rewrite hf. }
  split; [|done]. split; try done; try apply HC.
  - intros x. rewrite <- (fh x) at 2. rewrite (ca_ent _ _ _ _ HC (h x)). by rewrite HL'.
  - intros x. rewrite <- (fh x) at 2. rewrite (ca_nb _ _ _ _ HC (h x)). by rewrite HL.
  - intros x. rewrite <- (fh x) at 2. symmetry. apply HC.
  - intros x. rewrite <- (fh x) at 2. symmetry. apply HC.
  - intros x. rewrite <- (fh x) at 2. symmetry. apply HC.
Qed.

Section one.
Context (f h : nat → nat) (g g' : graph) (HC : embeds f h g g').
Notation row := (g_row g). Notation col := (g_col g). Notation val := (g_val g).
Notation row' := (g_row g'). Notation col' := (g_col g'). Notation val' := (g_val g').
Notation mp := (mp f).
Let hf := ca_left _ _ _ _ HC.

Lemma ca_edge x y : edge row' col' (f x) (f y) ↔ edge row col x y.
Proof using HC. rewrite <- !elem_of_nb_list, (ca_nb _ _ _ _ HC x). apply (in_fmap f h hf). Qed.
Lemma ca_out x z : edge row' col' (f x) z → ∃ y, z = f y ∧ edge row col x y.
Proof using HC.
  rewrite <- elem_of_nb_list, (ca_nb _ _ _ _ HC x), elem_of_list_fmap. setoid_rewrite elem_of_nb_list. done.
Qed.
Lemma ca_len x : length (nb_list row' col' (f x)) = length (nb_list row col x).
Proof using HC. by rewrite (ca_nb _ _ _ _ HC x), fmap_length. Qed.
Lemma ca_count (P P' : nat → Prop) `{∀ y, Decision (P y)} `{∀ y, Decision (P' y)} x : (∀ y, P' (f y) ↔ P y) →
  length (filter P' (nb_list row' col' (f x))) = length (filter P (nb_list row col x)).
Proof using HC. intros HP. rewrite (ca_nb _ _ _ _ HC x), (filter_map f P P' _ HP). apply fmap_length. Qed.
Lemma ca_to (P P' : nat → Prop) `{∀ y, Decision (P y)} `{∀ y, Decision (P' y)} x : (∀ y, P' (f y) ↔ P y) →
  faces_to row' col' val' P' (f x) ≡ₚ faces_to row col val P x.
Proof using HC.
  intros HP. unfold faces_to. rewrite (ca_ent _ _ _ _ HC x).
  induction (entries row col val x) as [|[y w] l IH]; [done|]. rewrite fmap_cons, !filter_cons. cbn [prod_map fst snd].
  specialize (HP y). cbn. destruct (decide (P y)) as [|], (decide (P' (f y))); try tauto.
  cbn [fmap list_fmap]. by apply perm_skip.
Qed.
Lemma ca_in X (P P' : nat → Prop) `{∀ y, Decision (P y)} `{∀ y, Decision (P' y)} x : (∀ y, P' (f y) ↔ P y) →
  nb_in row' col' (mp X) P' (f x) = nb_in row col X P x.
Proof using HC.
  intros HP. unfold nb_in. rewrite <- (mp_size f h hf (filter _ X)). f_equal.
  apply (mp_eq_image f h hf); [intros y [_ (x' & -> & _)%mp_image]%elem_of_filter; by eauto|]. intros y.
  rewrite !elem_of_filter, (mp_in f h hf), HP, (ca_nb _ _ _ _ HC x), (in_fmap f h hf). done.
Qed.
Lemma ca_ne x y : f y ≠ f x ↔ y ≠ x.
Proof using HC. split; intros Hn E; [by subst|]. by apply (f_inj f h hf) in E. Qed.

Lemma ca_outer X x : outer_faces row' col' (g_bnd g') (mp X) (f x) = outer_faces row col (g_bnd g) X x.
Proof using HC.
  unfold outer_faces. by rewrite (ca_bnd _ _ _ _ HC), ca_len, (ca_in X (λ y, y ≠ x) (λ y, y ≠ f x)) by apply ca_ne.
Qed.
Lemma ca_compact X c : compactness row col X c → compactness row' col' (mp X) c.
Proof using HC.
  unfold compactness. rewrite (mp_size f h hf). destruct (decide (1 < size X)); [|done].
  assert (∀ x, length (filter (λ y, y ∈ mp X) (nb_list row' col' (f x))) = length (filter (λ y, y ∈ X) (nb_list row col x))) as HL.
  { intros x. apply ca_count. intros y. apply (mp_in f h hf). }
  intros [(x & Hx & Hc) Hm]. split.
  - exists (f x). by rewrite HL, (mp_in f h hf).
  - intros y (y' & -> & Hy)%mp_image. rewrite HL. by apply Hm.
Qed.
Lemma ca_ext X : ext_of g' (mp X) = ext_of g X.
Proof using HC.
  unfold ext_of, external_faces. rewrite (mp_size f h hf). f_equal.
  assert (∀ l k : list Z, l ≡ₚ k → foldr Z.add 0%Z l = foldr Z.add 0%Z k) as HF.
  { induction 1; simpl; lia. }
  rewrite (HF _ _ (fmap_Permutation _ _ _ (mp_elements f h hf X))). rewrite <- list_fmap_compose.
  f_equal. apply list_fmap_ext. intros _ x _. apply ca_outer.
Qed.

Context (EA : exact_arith).
Lemma ca_sum F F' X : (∀ x, x ∈ X → F' (f x) = F x) → sum_over F' (mp X) = sum_over F X.
Proof using HC EA.
  intros HF. unfold sum_over. rewrite (sum_l_perm EA _ _ (fmap_Permutation _ _ _ (mp_elements f h hf X))).
  rewrite <- list_fmap_compose. f_equal. apply list_fmap_ext. intros j x Hx%elem_of_list_lookup_2. apply HF.
  by apply elem_of_elements.
Qed.
Lemma ca_bndw x : bnd_weight row' col' val' (g_bnd g') (f x) = bnd_weight row col val (g_bnd g) x.
Proof using HC EA.
  unfold bnd_weight. rewrite (ca_bnd _ _ _ _ HC).
  assert (sum_l (faces_to row' col' val' (λ _, True) (f x)) = sum_l (faces_to row col val (λ _, True) x)) as ->.
  { by apply (sum_l_perm EA), ca_to. }
  by rewrite ca_len.
Qed.
Lemma ca_extw X : external_weight row' col' val' (g_bnd g') (mp X) = external_weight row col val (g_bnd g) X.
Proof using HC EA.
  unfold external_weight. apply ca_sum. intros x _. rewrite ca_bndw. f_equal. apply (sum_l_perm EA), ca_to.
  intros y. rewrite (mp_in f h hf). split; (intros [?|E]; [by left|right]); [by apply (f_inj f h hf) in E|by subst].
Qed.
Lemma ca_intw X : internal_weight row' col' val' (mp X) = internal_weight row col val X.
Proof using HC EA.
  revert X. apply set_ind_L.
  - unfold mp, internal_weight. rewrite set_map_empty. done.
  - intros x X Hx IH. rewrite (mp_union f), (mp_single f).
    rewrite (internal_add EA _ _ _ (ca_sym' _ _ _ _ HC)) by by rewrite (mp_in f h hf).
    rewrite (internal_add EA _ _ _ (ca_sym _ _ _ _ HC)) by done. rewrite IH. f_equal.
    apply (sum_l_perm EA), ca_to. intros y. by rewrite (mp_in f h hf), ca_ne.
Qed.
Lemma ca_meas X : measure (g_vol g') (mp X) = measure (g_vol g) X.
Proof using HC EA. unfold measure. apply ca_sum. intros x _. by rewrite (ca_vol _ _ _ _ HC). Qed.
Lemma ca_moment X d : moment (g_vol g') (g_cen g') (mp X) d = moment (g_vol g) (g_cen g) X d.
Proof using HC EA. unfold moment. apply ca_sum. intros x _. by rewrite (ca_vol _ _ _ _ HC), (ca_cen _ _ _ _ HC). Qed.

Lemma gr_iff (P Q : W → Prop) m : (∀ w, P w ↔ Q w) → greatest P m ↔ greatest Q m.
Proof. intros HPQ. unfold greatest. by setoid_rewrite HPQ. Qed.
Lemma le_iff (P Q : W → Prop) m : (∀ w, P w ↔ Q w) → least P m ↔ least Q m.
Proof. intros HPQ. unfold least. by setoid_rewrite HPQ. Qed.

Lemma ca_pair X w : pair_dist (g_cen g') (mp X) w ↔ pair_dist (g_cen g) X w.
Proof using HC.
  unfold pair_dist. split.
  - intros (x & y & c & c' & (x' & -> & Hx)%mp_image & (y' & -> & Hy)%mp_image & Hn & H1 & H2 & ->).
    exists x', y', c, c'. rewrite (ca_cen _ _ _ _ HC) in H1, H2. split_and!; try done. by apply ca_ne.
  - intros (x & y & c & c' & Hx & Hy & Hn & H1 & H2 & ->). exists (f x), (f y), c, c'.
    rewrite !(mp_in f h hf), !(ca_cen _ _ _ _ HC). split_and!; try done. by apply ca_ne.
Qed.
Lemma ca_diam X w : is_diam (g_cen g') (mp X) w ↔ is_diam (g_cen g) X w.
Proof using HC. apply gr_iff. intros v. by rewrite ca_pair. Qed.
Lemma ca_min X w : is_min_edge (g_cen g') (mp X) w ↔ is_min_edge (g_cen g) X w.
Proof using HC. apply le_iff. intros v. by rewrite ca_pair. Qed.
Lemma ca_bary b X w : bary_dist g' b (mp X) w ↔ bary_dist g b X w.
Proof using HC.
  unfold bary_dist. split.
  - intros (x & c & (x' & -> & Hx)%mp_image & H1 & ->). exists x', c. by rewrite (ca_cen _ _ _ _ HC) in H1.
  - intros (x & c & Hx & H1 & ->). exists (f x), c. by rewrite (mp_in f h hf), (ca_cen _ _ _ _ HC).
Qed.
Lemma ca_obary b X w : outer_bary_dist g' b (mp X) w ↔ outer_bary_dist g b X w.
Proof using HC.
  unfold outer_bary_dist. split.
  - intros (x & c & (x' & -> & Hx)%mp_image & H1 & -> & H2 & H3). exists x', c. rewrite (ca_cen _ _ _ _ HC) in H1.
    by rewrite ca_outer in H2.
  - intros (x & c & Hx & H1 & -> & H2 & H3). exists (f x), c. by rewrite (mp_in f h hf), (ca_cen _ _ _ _ HC), ca_outer.
Qed.
Lemma ca_centre q X b : centre_of g' q (mp X) b ↔ centre_of g q X b.
Proof using HC EA. unfold centre_of. apply forall_proper. intros d. by rewrite ca_moment. Qed.
Lemma ca_ar dim q k X a : is_ar g dim q k X a → is_ar g' dim q k (mp X) a.
Proof using HC EA.
  unfold is_ar. rewrite ca_intw, ca_extw, ca_meas. destruct k; try done.
  - intros (D & HD & ->). exists D. by rewrite ca_diam.
  - intros (D & E & HD & HE & ->). exists D, E. by rewrite ca_diam, ca_min.
  - by rewrite ca_diam.
  - intros (b & D & Hb & Hc & G & ->). exists b, D. split_and!; [done|by apply ca_centre| |done].
    revert G. apply gr_iff. intros w. apply ca_bary.
  - intros (b & D & E & Hb & Hc & G & L & ->). exists b, D, E. split_and!; [done|by apply ca_centre| | |done].
    + revert G. apply gr_iff. intros w. by rewrite ca_obary.
    + revert L. apply le_iff. intros w. by rewrite ca_obary.
Qed.
Lemma ca_extremes q X : extremes_ok g q X → extremes_ok g' q (mp X).
Proof using HC EA. intros HX b w Hc Ho. apply (HX b); [by apply ca_centre|by apply ca_obary]. Qed.

(** ** The next cell *)
Section pick.
Context (prio prio' : list W) (mu : ∀ x y, more_urgent prio x y → more_urgent prio' (f x) (f y)).
Context (k : ar_kind) (dim : nat) (allowed : gset nat) (front : option Z) (dist dist' : nat → Z).
Context (Hd : ∀ x, dist' (f x) = dist x).

Lemma ca_listing (P P' : nat → Prop) l : (∀ y, P' y → ∃ x, y = f x) → (∀ x, P' (f x) ↔ P x) →
  listing prio P l → listing prio' P' (f <$> l).
Proof using HC mu.
  intros HI HPQ [H1 H2]. split; [|by apply (ss_map f (more_urgent prio))]. intros y. split.
  - intros (x & -> & Hx)%elem_of_list_fmap. by apply HPQ, H1.
  - intros Hy. destruct (HI _ Hy) as [x ->]. by apply (in_fmap f h hf), H1, HPQ.
Qed.
Lemma ca_appended cs L : appended g prio allowed cs L → appended g' prio' (mp allowed) (f <$> cs) (f <$> L).
Proof using HC mu.
  induction 1 as [|cs L c new HA IH HL]; [constructor|].
  rewrite !fmap_app. rewrite <- (filter_map f (λ y, y ≠ c) (λ y, y ≠ f c)) by apply ca_ne. constructor; [done|].
  eapply ca_listing, HL; [intros y ((x & -> & _)%ca_out & _); by eauto|]. intros x. cbv beta. change ([f c]) with (f <$> [c]). rewrite <- fmap_app.
  by rewrite ca_edge, (mp_in f h hf), !(in_fmap f h hf).
Qed.
Lemma ca_around cs j x : around row' col' (mp allowed) (f <$> cs) j (f x) ↔ around row col allowed cs j x.
Proof using HC.
  unfold around. rewrite rev_map. split.
  - intros (c & Hc & He & Ha & Hn). rewrite list_lookup_fmap in Hc. apply fmap_Some in Hc as (c0 & Hc & ->). exists c0.
    rewrite ca_edge in He. rewrite (mp_in f h hf) in Ha. by rewrite (in_fmap f h hf) in Hn.
  - intros (c & Hc & He & Ha & Hn). exists (f c).
    by rewrite list_lookup_fmap, Hc, ca_edge, (mp_in f h hf), (in_fmap f h hf).
Qed.
Lemma ca_around_image cs j y : around row' col' (mp allowed) (f <$> cs) j y → ∃ x, y = f x.
Proof using HC.
  unfold around. rewrite rev_map. intros (c & Hc & He & Ha & Hn).
  rewrite list_lookup_fmap in Hc. apply fmap_Some in Hc as (c0 & Hc & ->). apply ca_out in He as (x & -> & _). by eauto.
Qed.
Lemma ca_candidates cs L : candidates g prio allowed front cs L → candidates g' prio' (mp allowed) front (f <$> cs) (f <$> L).
Proof using HC mu.
  unfold candidates. destruct front as [d|]; [|apply ca_appended]. intros [HF HL]. split; [|by apply (ss_map f (more_urgent prio))].
  unfold front_candidates in *. rewrite fmap_length. destruct (bool_decide _).
  - intros y. split.
    + intros (x & -> & Hx)%elem_of_list_fmap. setoid_rewrite ca_around. by apply HF.
    + intros (j & Hr). destruct (ca_around_image _ _ _ Hr) as [x ->]. apply (in_fmap f h hf), HF.
      exists j. by rewrite ca_around in Hr.
  - destruct HF as [[HL0 HF]|(j & Hj & Hn & H1 & H2)]; [left|right].
    + subst L. split; [done|]. intros j y Hr. destruct (ca_around_image _ _ _ Hr) as [x ->]. rewrite ca_around in Hr.
      by apply (HF j x).
    + exists j. split_and!; [done| | |].
      * intros E. apply fmap_nil_inv in E. done.
      * intros y. split.
        -- intros (x & -> & Hx)%elem_of_list_fmap. by apply ca_around, H1.
        -- intros Hr. destruct (ca_around_image _ _ _ Hr) as [x ->]. by apply (in_fmap f h hf), H1, ca_around.
      * intros j' y Ht Hlt Hr. destruct (ca_around_image _ _ _ Hr) as [x ->]. rewrite ca_around in Hr. by apply (H2 j' x).
Qed.
Lemma ca_ratio cs x a : ratio g k dim cs x a → ratio g' k dim (f <$> cs) (f x) a.
Proof using HC EA.
  unfold ratio. cbn zeta. rewrite <- fmap_cons, <- (mp_list f), (mp_size f h hf).
  assert (∀ X, two_cells_edge k (mp X) = two_cells_edge k X) as HT.
  { intros X. unfold two_cells_edge. by rewrite (mp_size f h hf). }
  rewrite HT. destruct (two_cells_edge k _); [by rewrite ca_diam|apply ca_ar].
Qed.
Lemma ca_shared cs x : shared_faces g' (f <$> cs) (f x) = shared_faces g cs x.
Proof using HC. unfold shared_faces. rewrite <- (mp_list f). f_equal. apply ca_in. intros y. apply ca_ne. Qed.
Lemma ca_first_best look look' L c : (∀ x, look' (f x) = look x) → first_best (key_of dist look) L c →
  first_best (key_of dist' look') (f <$> L) (f c).
Proof using HC Hd.
  intros Hl (pre & post & -> & H1 & H2). exists (f <$> pre), (f <$> post). split; [by rewrite fmap_app|].
  assert (∀ x, key_of dist' look' (f x) = key_of dist look x) as HK.
  { intros x. unfold key_of. by rewrite Hl, Hd. }
  split; intros y (x & -> & Hx)%elem_of_list_fmap; rewrite !HK; [by apply H1|by apply H2].
Qed.
Lemma ca_judged n : ∀ cs x v, judged g prio k dim allowed front dist n cs x v →
  judged g' prio' k dim (mp allowed) front dist' n (f <$> cs) (f x) v.
Proof using HC EA Hd mu.
  induction n as [|n IH]; intros cs x v; cbn [judged].
  - intros (a & Ha & ->). exists a. split; [by apply ca_ratio|]. by rewrite ca_shared.
  - intros (a & Ha & L & m & HL & -> & HM). exists a. split; [by apply ca_ratio|]. exists (f <$> L), m.
    change ([f x]) with (f <$> [x]). rewrite <- fmap_app.
    split; [by apply ca_candidates|]. split; [by rewrite ca_shared|].
    destruct HM as [[-> ->]|(look & c & Hj & Hf & ->)]; [by left|right]. exists (look ∘ h), (f c).
    split_and!.
    + intros z (y & -> & Hy)%elem_of_list_fmap. cbn. rewrite hf. by apply IH, Hj.
    + apply (ca_first_best look); [|done]. intros y. cbn. by rewrite hf.
    + by rewrite ca_shared.
Qed.
Lemma ca_picked n cs c : picked g prio k dim allowed front dist n cs c →
  picked g' prio' k dim (mp allowed) front dist' n (f <$> cs) (f c).
Proof using HC EA Hd mu.
  intros (L & look & HL & Hj & Hf). exists (f <$> L), (look ∘ h). split_and!.
  - by apply ca_candidates.
  - intros z (y & -> & Hy)%elem_of_list_fmap. cbn. rewrite hf. by apply ca_judged, Hj.
  - apply (ca_first_best look); [|done]. intros y. cbn. by rewrite hf.
Qed.
End pick.

Lemma ca_walk (P P' S S' : nat → Prop) j x : (∀ y, P y → P' (f y)) → (∀ y, S y → S' (f y)) →
  walk (edge row col) P S j x → walk (edge row' col') P' S' j (f x).
Proof using HC.
  intros HP HS. induction 1; [constructor; by apply HS|]. econstructor; [done| |by apply HP]. by apply ca_edge.
Qed.
End one.

Lemma ca_walk_back f h g g' (P P' S S' : nat → Prop) j z : embeds f h g g' → (∀ y, P' (f y) → P y) →
  (∀ z, S' z → ∃ y, z = f y ∧ S y) → walk (edge (g_row g') (g_col g')) P' S' j z →
  ∃ x, z = f x ∧ walk (edge (g_row g) (g_col g)) P S j x.
Proof.
  intros HC HP HS. induction 1 as [x Hx|j x y Hw (x' & -> & IH) He Hy].
  - destruct (HS _ Hx) as (y & -> & Hy). exists y. split; [done|]. by constructor.
  - destruct (ca_out _ _ _ _ HC _ _ He) as (y' & -> & He'). exists y'. split; [done|]. econstructor; [done|done|by apply HP].
Qed.
Lemma ca_at_dist f h g g' (P P' S S' : nat → Prop) j x : embeds f h g g' → (∀ y, P' (f y) ↔ P y) →
  (∀ z, S' z ↔ ∃ y, z = f y ∧ S y) →
  at_dist (edge (g_row g') (g_col g')) P' S' j (f x) ↔ at_dist (edge (g_row g) (g_col g)) P S j x.
Proof.
  intros HC HP HS.
  assert (∀ j, walk (edge (g_row g') (g_col g')) P' S' j (f x) ↔ walk (edge (g_row g) (g_col g)) P S j x) as HW.
  { intros j'. split; intros Hw.
    - apply (ca_walk_back f h g g' P P' S S') in Hw as (x' & E & Hw); [|done|apply HP|apply HS].
      apply (f_inj f h (ca_left _ _ _ _ HC)) in E. by subst.
    - apply (ca_walk _ _ _ _ HC P P' S S'); [apply HP| |done]. intros y Hy. apply HS. by eauto. }
  unfold at_dist. by setoid_rewrite HW.
Qed.

Section grow.
Context (f h : nat → nat) (g g' : graph) (HC : embeds f h g g') (EA : exact_arith) (ip : iso_params) (dim : nat).
Context (prio prio' : list W) (mu : ∀ x y, more_urgent prio x y → more_urgent prio' (f x) (f y)).
Notation mp := (mp f).
Let hf := ca_left _ _ _ _ HC.
#[local] Instance f_inj' : Inj (=) (=) f := f_inj f h hf.

Lemma ca_dom (dn : gmap nat Z) : dom (kmap f dn : gmap nat Z) = mp (dom dn).
Proof using HC. 
  apply (mp_eq_image f h hf); [|intros x; by rewrite !elem_of_dom, (lookup_kmap f)].
  intros y [v (x & -> & _)%(lookup_kmap_Some f)]%elem_of_dom. by eauto.
Qed.
Lemma ca_dn_size (dn : gmap nat Z) : size (kmap f dn : gmap nat Z) = size dn.
Proof using HC. rewrite <- !size_dom, ca_dom. apply (mp_size f h hf). Qed.

Lemma ca_hood (free free' : nat → Prop) seed K dn : (∀ x, free' (f x) ↔ free x) →
  hood ip g free seed K dn → hood ip g' free' (f seed) K (kmap f dn).
Proof using HC.
  intros HF [H1 H2 H3].
  assert (∀ j x, at_dist (edge (g_row g') (g_col g')) free' (λ z, z = f seed) j (f x) ↔
    at_dist (edge (g_row g) (g_col g)) free (λ z, z = seed) j x) as HD.
  { intros j x. apply (ca_at_dist f h); [done|done|]. intros z. split; [intros ->; by eauto|by intros (y & -> & ->)]. }
  assert (∀ j z, at_dist (edge (g_row g') (g_col g')) free' (λ z, z = f seed) j z → ∃ x, z = f x) as HI.
  { intros j z [Hw _]. apply (ca_walk_back f h g g' free free' (λ z, z = seed)) in Hw as (x & -> & _); [by eauto|done|apply HF|].
    intros ? ->. by eauto. }
  split.
  - intros z v. split.
    + intros (x & -> & Hx)%(lookup_kmap_Some f). rewrite (ca_ne f h _ _ HC). setoid_rewrite HD. by apply H1.
    + intros (Hne & j & Hj & Hv & Hd). destruct (HI _ _ Hd) as [x ->]. rewrite (lookup_kmap f). apply H1.
      rewrite (ca_ne f h _ _ HC) in Hne. split; [done|]. exists j. by rewrite HD in Hd.
  - cbn zeta in *. rewrite ca_dn_size. destruct H2 as [H2|H2]; [left|by right]. intros j z Hz.
    destruct (HI _ _ Hz) as [x ->]. rewrite HD in Hz. rewrite (lookup_kmap f). destruct (H2 j _ Hz) as [E|?]; [|by right]. left. by rewrite E.
  - cbn zeta in *. destruct H3 as [H3|[H3|(Y & HY & Hs)]]; [by left|right; by left|right; right].
    exists (mp Y). rewrite (mp_size f h hf). split; [|done]. intros z. split.
    + intros (x & -> & Hx)%mp_image. setoid_rewrite HD. by apply HY.
    + intros (j & Hj & Hd). destruct (HI _ _ Hd) as [x ->]. apply (mp_in f h hf), HY. exists j. by rewrite HD in Hd.
Qed.
Lemma ca_grown (free free' : nat → Prop) seed X : (∀ x, free' (f x) ↔ free x) →
  grown_cell ip g prio dim free seed X → grown_cell ip g' prio' dim free' (f seed) (mp X).
Proof using HC EA mu.
  intros HF [H1 (K & dn & Hh & HX)]. split; [by apply HF|]. exists K, (kmap f dn). split; [by eapply ca_hood|]. cbn zeta in *.
  rewrite ca_dn_size, ca_dom. destruct (bool_decide _).
  { by rewrite HX, (mp_union f), (mp_single f). }
  destruct HX as (l & C & k & Hn & Hl & Hp & Hc & Hk & ->).
  assert (∀ j, (list_to_set (take j (f seed :: (f <$> l))) : gset nat) = mp (list_to_set (take j (seed :: l)))) as HT.
  { intros j. by rewrite (mp_list f), fmap_take. }
  exists (f <$> l), C, k. rewrite fmap_length. split_and!; try done.
  - rewrite <- fmap_cons. by apply (NoDup_fmap_2 f).
  - intros j c Hj. rewrite list_lookup_fmap in Hj. apply fmap_Some in Hj as (c0 & Hj & ->).
    rewrite <- fmap_take, <- fmap_cons. eapply (ca_picked f h g g' HC EA prio prio' mu), Hp, Hj.
    intros x. by rewrite (lookup_kmap f).
  - intros j Hj. rewrite HT. apply (ca_compact f h _ _ HC). by apply Hc.
  - revert Hk. unfold size_kept, optimal. setoid_rewrite HT. by setoid_rewrite (ca_ext f h _ _ HC).
Qed.
End grow.
End renum.
