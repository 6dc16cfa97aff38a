(** * RelineT: lines of a mesh whose cells have other numbers (C60, C63) *)

From Verif Require Import Features Iso Main Spec SpecSub SpecFeat SpecAR SpecBest SpecFront SpecPool SpecGrow SpecFeed SpecHash
  SpecLine SpecMove SpecWhole SpecRenum GraphP FeatT WholeU ReordT ReordU RenumT.

Section line.
Context {A : Arith} (f h : nat → nat) (g g' : graph) (HC : embeds f h g g').
Notation row := (g_row g). Notation col := (g_col g). Notation val := (g_val g). Notation cen := (g_cen g).
Notation row' := (g_row g'). Notation col' := (g_col g'). Notation val' := (g_val g'). Notation cen' := (g_cen g').
Notation mp := (mp f).
Let hf := ca_left _ _ _ _ HC.

Lemma cl_to (P P' : nat → Prop) `{∀ y, Decision (P y)} `{∀ y, Decision (P' y)} x : (∀ y, P' (f y) ↔ P y) →
  faces_to row' col' val' P' (f x) ≡ₚ faces_to row col val P x.
Proof using HC.
  intros HP. unfold faces_to. rewrite (ca_ent _ _ _ _ HC x).
  induction (entries row col val x) as [|[z w] l IH]; [done|]. rewrite fmap_cons, !filter_cons. cbn.
  destruct (decide (P' (f z))) as [E|E], (decide (P z)) as [E'|E']; [|by destruct E'; apply HP|by destruct E; apply HP|exact IH].
  rewrite !fmap_cons. cbn. by rewrite IH.
Qed.
Lemma cl_others x w : w ∈ faces_to row' col' val' (λ y, y ≠ f x) (f x) ↔ w ∈ faces_to row col val (λ y, y ≠ x) x.
Proof using HC.
  rewrite (cl_to (λ y, y ≠ x)); [done|]. intros y. split; intros Hn E; apply Hn; [by rewrite E|by apply (f_inj f h hf)].
Qed.
Lemma cl_anisotropic is2d compl compl' thr x : (f x ∈ compl' ↔ x ∈ compl) →
  anisotropic row' col' val' is2d compl' thr (f x) ↔ anisotropic row col val is2d compl thr x.
Proof using HC.
  intros Hc. unfold anisotropic, face_ratio. rewrite Hc.
  assert (∀ m, greatest (λ w, w = w0 ∨ w ∈ faces_to row' col' val' (λ y, y ≠ f x) (f x)) m ↔
    greatest (λ w, w = w0 ∨ w ∈ faces_to row col val (λ y, y ≠ x) x) m) as HG.
  { intros m. apply greatest_iff. intros w. by rewrite cl_others. }
  assert (∀ m, least (λ w, w = wmaxv ∨ w ∈ faces_to row' col' val' (λ y, y ≠ f x) (f x)) m ↔
    least (λ w, w = wmaxv ∨ w ∈ faces_to row col val (λ y, y ≠ x) x) m) as HL.
  { intros m. apply least_iff. intros w. by rewrite cl_others. }
  by setoid_rewrite HG; setoid_rewrite HL.
Qed.

Context (mindist : bool) (thr : W) (force : bool).
(** The neighbours of a cell keep their order. *)
Context (Hord : ∀ x y z, edge row col x y → edge row col x z → y < z → f y < f z).
Context (Hval : length val = length col).
Notation cpl := (couplings row col val cen mindist).
Notation cpl' := (couplings row' col' val' cen' mindist).

Lemma cl_centre x : centre cen' (f x) = centre cen x.
Proof using HC. unfold centre. by rewrite (ca_cen _ _ _ _ HC). Qed.
Lemma cl_couplings x : cpl' (f x) ≡ₚ prod_map f id <$> cpl x.
Proof using HC.
  unfold couplings. destruct mindist; [|apply HC]. rewrite (ca_nb _ _ _ _ HC x), <- !list_fmap_compose.
  erewrite list_fmap_ext; [done|]. intros j y _. simpl. unfold prod_map. simpl. by rewrite !cl_centre.
Qed.
Lemma cl_in x y w : (f y, w) ∈ cpl' (f x) ↔ (y, w) ∈ cpl x.
Proof using HC.
  rewrite cl_couplings, elem_of_list_fmap. split.
  - intros ([z w'] & E & Hz). injection E as E ->. by apply (f_inj f h hf) in E as ->.
  - intros Hy. by exists (y, w).
Qed.
Lemma cl_image x z w : (z, w) ∈ cpl' (f x) → ∃ y, z = f y.
Proof using HC. rewrite cl_couplings, elem_of_list_fmap. intros ([y w'] & E & _). injection E as -> _. by exists y. Qed.
Lemma cl_in2 x w : w ∈ (cpl' (f x)).*2 ↔ w ∈ (cpl x).*2.
Proof using HC.
  rewrite cl_couplings, <- list_fmap_compose. erewrite list_fmap_ext; [done|]. by intros _ [y w'] _.
Qed.
Lemma cl_edge_of x y w : (y, w) ∈ cpl x → edge row col x y.
Proof using Hval.
  rewrite <- elem_of_nb_list. unfold couplings. destruct mindist.
  - rewrite elem_of_list_fmap. by intros (z & [= -> ->] & Hz).
  - intros Hy. rewrite <- (entries_fst _ _ val x Hval). apply elem_of_list_fmap. by exists (y, w).
Qed.
Lemma cl_max x m : max_coupling row' col' val' cen' mindist thr (f x) m ↔ max_coupling row col val cen mindist thr x m.
Proof using HC.
  unfold max_coupling. destruct mindist eqn:Em; [|destruct (wlt _ _)]; apply greatest_iff; intros w.
  - pose proof (cl_in2 x w) as E. rewrite Em in E. by rewrite E.
  - pose proof (cl_in2 x w) as E. rewrite Em in E. by rewrite E.
  - by rewrite cl_others.
Qed.
Lemma cl_high x y w : high_coupled row' col' val' cen' mindist thr (f x) (f y) w ↔ high_coupled row col val cen mindist thr x y w.
Proof using HC. unfold high_coupled. rewrite cl_in. by setoid_rewrite cl_max. Qed.
Lemma cl_aligned x d y c : aligned cen' (f x) d (f y) c ↔ aligned cen x d y c.
Proof using HC. unfold aligned. by rewrite !cl_centre. Qed.

Lemma cl_preferred (P P' : nat → W → Prop) x y : (∀ z w, P z w → edge row col x z) → (∀ z w, P' (f z) w ↔ P z w) →
  (∀ z w, P' z w → ∃ z1, z = f z1) → preferred P' (f y) ↔ preferred P y.
Proof using Hord Hval.
  intros HE HP HI. unfold preferred. split; intros (w & Hy & Hm); exists w.
  - split; [by apply HP|]. intros y' w' Hy'. destruct (Hm (f y') w' (proj2 (HP _ _) Hy')) as [?|[E Hle]]; [by left|right].
    split; [done|]. destruct (le_lt_dec y y') as [?|Hlt]; [done|]. assert (f y' < f y); [|lia].
    eapply Hord; [by eapply HE|eapply HE; by apply HP|done].
  - split; [by apply HP|]. intros z w' Hz. destruct (HI _ _ Hz) as [y' ->]. apply HP in Hz.
    destruct (Hm _ _ Hz) as [?|[E Hle]]; [by left|right]. split; [done|].
    destruct (decide (y = y')) as [->|Hne]; [done|]. assert (f y < f y'); [|lia]. eapply Hord; [by eapply HE|by eapply HE|lia].
Qed.

(** [F'] has the same cells of the smaller mesh as [F]. *)
Definition traced (F F' : gset nat) : Prop := ∀ x, f x ∈ F' ↔ x ∈ F.
Notation cont := (continued row col val cen mindist thr force).
Notation cont' := (continued row' col' val' cen' mindist thr force).

Lemma cl_high_image x z w : high_coupled row' col' val' cen' mindist thr (f x) z w → ∃ y, z = f y.
Proof using HC. intros [Hz _]. by eapply cl_image. Qed.
Lemma cl_nb_image x z : z ∈ nb_list row' col' (f x) → ∃ y, z = f y.
Proof using HC. rewrite elem_of_nb_list. intros (y & -> & _)%(ca_out f h _ _ HC). by exists y. Qed.
Lemma cl_cont_image F' x dir z : cont' F' (f x) dir z → ∃ y, z = f y.
Proof using HC.
  unfold continued. destruct dir as [d|]; [destruct force|].
  - intros [Hp|[_ Hp]].
    + destruct Hp as (w & (_ & (w' & Hh) & _) & _). by eapply cl_high_image.
    + destruct Hp as (w & (_ & Hn & _) & _). by eapply cl_nb_image.
  - intros (w & (_ & Hh) & _). by eapply cl_high_image.
  - intros (w & (_ & Hh) & _). by eapply cl_high_image.
Qed.
Lemma cl_continued F F' x dir y : traced F F' → cont' F' (f x) dir (f y) ↔ cont F x dir y.
Proof using HC Hord Hval.
  intros HF.
  assert (∀ z w, high_coupled row col val cen mindist thr x z w → edge row col x z) as HE.
  { intros z w [Hz _]. by eapply cl_edge_of. }
  unfold continued. destruct dir as [d|]; [destruct force|].
  - cbn zeta.
    assert (∀ z c, (f z ∈ F' ∧ (∃ w, high_coupled row' col' val' cen' mindist thr (f x) (f z) w) ∧ aligned cen' (f x) d (f z) c) ↔
      (z ∈ F ∧ (∃ w, high_coupled row col val cen mindist thr x z w) ∧ aligned cen x d z c)) as HH.
    { intros z c. rewrite (HF z), cl_aligned. by setoid_rewrite cl_high. }
    rewrite (cl_preferred (λ z c, z ∈ F ∧ (∃ w, high_coupled row col val cen mindist thr x z w) ∧ aligned cen x d z c) _ x y);
      [|intros z c (_ & (w & Hh) & _); by eapply HE|exact HH|intros z c (_ & (w & Hh) & _); by eapply cl_high_image].
    rewrite (cl_preferred (λ z c, z ∈ F ∧ z ∈ nb_list row col x ∧ aligned cen x d z c)
      (λ z c, z ∈ F' ∧ z ∈ nb_list row' col' (f x) ∧ aligned cen' (f x) d z c) x y).
    + apply or_iff_compat_l, and_iff_compat_r. split.
      * intros Hn z c Hz. by eapply Hn, HH.
      * intros Hn z c Hz. pose proof Hz as (_ & (w & Hh) & _). apply cl_high_image in Hh as [z1 ->]. by eapply Hn, HH.
    + intros z c (_ & Hz & _). by apply elem_of_nb_list.
    + intros z c. rewrite (HF z), cl_aligned, !elem_of_nb_list, (ca_edge f h _ _ HC). done.
    + intros z c (_ & Hz & _). by eapply cl_nb_image.
  - apply (cl_preferred _ _ x).
    + intros z w [_ Hh]. by eapply HE.
    + intros z w. by rewrite (HF z), cl_high.
    + intros z w [_ Hh]. by eapply cl_high_image.
  - apply (cl_preferred _ _ x).
    + intros z w [_ Hh]. by eapply HE.
    + intros z w. by rewrite (HF z), cl_high.
    + intros z w [_ Hh]. by eapply cl_high_image.
Qed.
Lemma traced_diff F F' x : traced F F' → traced (F ∖ {[x]}) (F' ∖ {[f x]}).
Proof using HC.
  intros HF y. rewrite !elem_of_difference, !elem_of_singleton, (HF y). split; intros [H1 H2]; (split; [done|]); intros E; apply H2.
  - by rewrite E.
  - by apply (f_inj f h hf).
Qed.
Lemma traced_list F F' l : traced F F' → traced (F ∖ list_to_set l) (F' ∖ list_to_set (f <$> l)).
Proof using HC. intros HF y. by rewrite !elem_of_difference, !elem_of_list_to_set, (HF y), (in_fmap f h hf). Qed.

Lemma cl_prolonged F x dir l : prolonged row col val cen mindist thr force F x dir l → ∀ F', traced F F' →
  prolonged row' col' val' cen' mindist thr force F' (f x) dir (f <$> l).
Proof using HC Hord Hval.
  induction 1 as [F x dir Hn|F x dir y l Hc Hp IH]; intros F' HF.
  - constructor. intros z Hz. destruct (cl_cont_image _ _ _ _ Hz) as [y ->]. eapply Hn, cl_continued; done.
  - rewrite fmap_cons. econstructor; [by apply (cl_continued _ _ _ _ _ HF)|]. rewrite !cl_centre. apply IH. by apply traced_diff.
Qed.
Lemma cl_built F F' s l : traced F F' → built_from row col val cen mindist thr force F s l →
  built_from row' col' val' cen' mindist thr force F' (f s) (f <$> l).
Proof using HC Hord Hval.
  intros HF (fwd & bwd & H1 & H2 & ->). exists (f <$> fwd), (f <$> bwd). split; [|split].
  - eapply cl_prolonged; [done|by apply traced_diff].
  - destruct fwd as [|y fwd]; [by rewrite H2|]. rewrite fmap_cons, !cl_centre, <- fmap_cons.
    eapply cl_prolonged; [done|by apply traced_list, traced_diff].
  - by rewrite fmap_app, fmap_cons, fmap_reverse.
Qed.
Lemma cl_all_built F ss ls : all_built row col val cen mindist thr force F ss ls → ∀ F', traced F F' →
  all_built row' col' val' cen' mindist thr force F' (f <$> ss) ((λ l : list nat, f <$> l) <$> ls).
Proof using HC Hord Hval.
  induction 1 as [F|F s ss ls Hs Ha IH|F s ss l ls Hs Hb Hl Ha IH|F s ss ls Hs Hb Ha IH]; intros F' HF; rewrite ?fmap_cons.
  - constructor.
  - apply ab_used; [by rewrite (HF s)|by apply IH].
  - apply ab_line; [by rewrite (HF s)|by eapply cl_built|by rewrite fmap_length|]. apply IH. by apply traced_list.
  - apply ab_alone; [by rewrite (HF s)|by apply (cl_built F F' s [s])|]. apply IH. by apply traced_diff.
Qed.
End line.
