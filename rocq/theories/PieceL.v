(** * PieceL: pieces of a mesh with lines (C63) *)

From Verif Require Import Features Iso Main Spec SpecSub SpecFeat SpecAR SpecBest SpecFront SpecPool SpecGrow SpecFeed SpecHash
  SpecLine SpecMove SpecWhole SpecRenum SpecReline SpecPiece GraphP FeatT ApiP ApiT DetT LineT MoveP MoveT RuleT WholeT WholeU ReordT ReordU
  RenumT RenumU RelineT RelineU PieceT PieceU.

(** ** Lists of lines *)
Section lists.
Context (f h : nat → nat) (hf : ∀ x, h (f x) = x).
Notation im := (im f h).
#[local] Instance im_decL y : Decision (im y).
Proof. unfold PieceT.im. apply _. Defined.

Lemma la_app ls1 ls ks1 ks : lines_among f ls1 ls → lines_among f ks1 ks → lines_among f (ls1 ++ ks1) (ls ++ ks).
Proof. induction 1; intros HK; cbn [app]; [done|constructor; by auto|apply la_out; by auto]. Qed.
Lemma la_ml ls : lines_among f ls (ml f ls).
Proof. induction ls as [|l ls IH]; [constructor|]. change (ml f (l :: ls)) with ((f <$> l) :: ml f ls). by constructor. Qed.
Lemma la_none ls : (∀ l x, l ∈ ls → f x ∉ l) → lines_among f [] ls.
Proof. induction ls as [|l ls IH]; intros HL; [constructor|]. apply la_out; [intros x; apply HL; by left|]. apply IH. intros l' x Hl. apply HL. by right. Qed.
Lemma la_elem ls1 ls x : lines_among f ls1 ls → f x ∈ concat ls ↔ x ∈ concat ls1.
Proof using hf.
  induction 1 as [|l ls1 ls HA IH|l ls1 ls Hn HA IH]; cbn [concat].
  - by rewrite !elem_of_nil.
  - by rewrite !elem_of_app, (in_fmap f h hf), IH.
  - rewrite elem_of_app, IH. split; [intros [Hx|?]; [by apply Hn in Hx|done]|by right].
Qed.
Lemma la_filter ls1 ls : lines_among f ls1 ls →
  lines_among f (filter (λ l : list nat, 2 ≤ length l) ls1) (filter (λ l : list nat, 2 ≤ length l) ls).
Proof.
  induction 1 as [|l ls1 ls HA IH|l ls1 ls Hn HA IH]; [constructor| |].
  - rewrite !filter_cons, fmap_length. destruct (decide (2 ≤ length l)); [by constructor|done].
  - rewrite filter_cons. destruct (decide (2 ≤ length l)); [by apply la_out|done].
Qed.
Lemma la_among ls1 ls : lines_among f ls1 ls → among f ((list_to_set : list nat → gset nat) <$> ls1) ((list_to_set : list nat → gset nat) <$> ls).
Proof.
  induction 1 as [|l ls1 ls HA IH|l ls1 ls Hn HA IH]; rewrite ?fmap_cons.
  - constructor.
  - rewrite <- mp_list. by constructor.
  - apply am_out; [|done]. intros x. rewrite elem_of_list_to_set. apply Hn.
Qed.
(** Two relations which fit each other. *)
Lemma la_forall2 (R1 R : list nat → list nat → Prop) ls1 ls : lines_among f ls1 ls →
  (∀ l w, l ∈ ls1 → R1 l w → R (f <$> l) (f <$> w)) → (∀ l w w', R l w → R l w' → w = w') →
  (∀ l w x, R l w → x ∈ w → x ∈ l) →
  ∀ ws1 ws, Forall2 R1 ls1 ws1 → Forall2 R ls ws → lines_among f ws1 ws.
Proof.
  intros HA HR HU HI. induction HA as [|l ls1 ls HA IH|l ls1 ls Hn HA IH]; intros ws1 ws F1 F2.
  - apply Forall2_nil_inv_l in F1 as ->. apply Forall2_nil_inv_l in F2 as ->. constructor.
  - apply Forall2_cons_inv_l in F1 as (w1 & ws1' & H1 & F1 & ->). apply Forall2_cons_inv_l in F2 as (w & ws' & H2 & F2 & ->).
    rewrite (HU _ _ _ H2 (HR l w1 ltac:(by left) H1)). constructor. apply IH; [|done|done]. intros l' w' Hl'. apply HR. by right.
  - apply Forall2_cons_inv_l in F2 as (w & ws' & H2 & F2 & ->). apply la_out; [|by apply IH].
    intros x Hx. by apply (Hn x), (HI _ _ _ H2).
Qed.
Lemma la_cut odd (u u1 : nat → nat) ws1 ws ps1 ps : (∀ n, u1 n = u n) → lines_among f ws1 ws →
  Forall2 (λ l parts, ∃ rest, cut_spec odd (take (u1 (length l)) l) parts rest) ws1 ps1 →
  Forall2 (λ l parts, ∃ rest, cut_spec odd (take (u (length l)) l) parts rest) ws ps →
  lines_among f (concat ps1) (concat ps).
Proof.
  intros Hu HA. revert ps1 ps. induction HA as [|l ls1 ls HA IH|l ls1 ls Hn HA IH]; intros ps1 ps F1 F2.
  - apply Forall2_nil_inv_l in F1 as ->. apply Forall2_nil_inv_l in F2 as ->. constructor.
  - apply Forall2_cons_inv_l in F1 as (w1 & ws1' & (rest1 & H1) & F1 & ->). apply Forall2_cons_inv_l in F2 as (w & ws' & (rest & H2) & F2 & ->).
    cbn [concat]. apply la_app; [|by apply IH]. apply (ml_cut f) in H1. rewrite fmap_take, Hu in H1. rewrite fmap_length in H2.
    rewrite (cut_unique _ _ _ _ _ _ H2 H1). apply la_ml.
  - apply Forall2_cons_inv_l in F2 as (w & ws' & (rest & H2) & F2 & ->). cbn [concat]. apply (la_app [] w); [|by apply IH].
    apply la_none. intros p x Hp Hx. apply (Hn x). destruct H2 as [C1 _ _ _].
    assert (f x ∈ take (u (length l)) l) as Ht.
    { rewrite <- C1. apply elem_of_app. left. apply elem_of_concat. by exists p. }
    apply elem_of_take in Ht as (j & Hj & _). by eapply elem_of_list_lookup_2.
Qed.
Lemma la_line ls1 ls l : lines_among f ls1 ls → l ∈ ls1 → (f <$> l) ∈ ls.
Proof. induction 1; intros Hl; [by apply elem_of_nil in Hl| |right; by auto]. apply elem_of_cons in Hl as [->|Hl]; [left|right; by auto]. Qed.
End lists.

(** ** The start of the seeds pool *)
Section start.
Context {A : Arith} (prio : list W) (bnd : list Z) (Hb3 : ∀ x b, bnd !! x = Some b → (0 <= b <= 3)%Z).
Implicit Types (p : pool) (aggl : list bool).
#[local] Instance is_free_decL aggl x : Decision (is_free aggl x).
Proof. unfold is_free. apply _. Defined.

(** The cells [nb] with [l] boundary faces. *)
Definition at_level (nb : list nat) (l : nat) : list nat := filter (λ y, bnd !! y = Some (Z.of_nat l)) nb.

(** What a queue is at the start: the neighbours of lines of that level, or, if
    there are none and no free cell is above the level, all the free cells of the
    level. *)
Definition first_queue aggl (nb : list nat) (l : nat) (q : list nat) : Prop :=
  q = at_level nb l ∨
  at_level nb l = [] ∧ (∀ x b, is_free aggl x → bnd !! x = Some b → (b <= Z.of_nat l)%Z) ∧
    listing prio (λ x, is_free aggl x ∧ bnd !! x = Some (Z.of_nat l)) q.

Lemma listing_sub (P Q : nat → Prop) `{∀ x, Decision (Q x)} l : listing prio P l → listing prio (λ x, Q x ∧ P x) (filter Q l).
Proof. intros [H1 H2]. split; [|by apply ss_filter]. intros x. by rewrite elem_of_list_filter, H1. Qed.
Lemma listing_iff (P Q : nat → Prop) l : (∀ x, P x ↔ Q x) → listing prio P l → listing prio Q l.
Proof. intros HP [H1 H2]. split; [|done]. intros x. by rewrite H1, HP. Qed.

Lemma init_queue aggl p nb (m : Z) p' : length (sp_q p) = 4 → sp_one p = false → sp_bp p = true → (0 <= m <= 3)%Z →
  (∀ y, y ∈ nb → is_free aggl y) →
  (∀ l, l < 4 → default [] (sp_q p !! l : option (list nat)) = at_level nb l) → at_level nb (Z.to_nat m) = [] →
  (∀ x b, is_free aggl x → bnd !! x = Some b → (b <= m)%Z) → initialised prio bnd p m p' →
  pinv bnd aggl p' ∧ ∀ l, l < 4 → first_queue aggl nb l (fq aggl p' l).
Proof.
  intros Hlen Hone Hbp Hm Hnf Hq Hno Hhi (all & q & Hqm & Hall & Hw). rewrite Hone in Hw.
  assert (Z.of_nat (Z.to_nat m) = m) as Em by lia.
  assert (q = []) as ->. { rewrite <- Hno, <- Hq by lia. by rewrite Hqm. }
  cbn [app] in Hw.
  assert (∀ l, l < 4 → l ≠ Z.to_nat m → fq aggl p l = at_level nb l) as Hfq.
  { intros l Hl _. unfold fq. rewrite Hq by done. apply filter_all. intros x [_ Hx]%elem_of_list_filter. by apply Hnf. }
  split.
  - rewrite Hw. split; simpl; [done|by rewrite insert_length| |].
    + intros t x b [= <-] Hx Hb. rewrite Em. by eapply Hhi.
    + intros l c (q & Hl & Hc) Hcf. simpl in Hl. destruct (decide (l = Z.to_nat m)) as [->|Hn].
      * rewrite list_lookup_insert in Hl by lia. injection Hl as <-. apply Hall in Hc as (b & Hb & Hle).
        pose proof (Hhi _ _ Hcf Hb). rewrite Hb, Em. f_equal. lia.
      * rewrite list_lookup_insert_ne in Hl by done.
        assert (c ∈ at_level nb l) as Hc'. { rewrite <- Hq; [by rewrite Hl|]. rewrite <- Hlen. by eapply lookup_lt_Some. }
        by apply elem_of_list_filter in Hc' as [? _].
  - intros l Hl. rewrite (fq_left _ _ _ _ _ _ Hw) by lia. destruct (decide (l = Z.to_nat m)) as [->|Hn].
    + right. rewrite Em. split; [done|]. split; [done|]. apply (listing_sub _ (is_free aggl)) in Hall. eapply listing_iff, Hall.
      intros x. cbv beta. split.
      * intros (Hx & b & Hb & Hle). pose proof (Hhi _ _ Hx Hb). split; [done|]. rewrite Hb. f_equal. lia.
      * intros (Hx & Hb). split; [done|]. exists m. split; [done|lia].
    + left. by apply Hfq.
Qed.

Lemma start_queues aggl nb p : (∀ y, y ∈ nb → is_free aggl y) → started prio bnd true false aggl nb p →
  pinv bnd aggl p ∧ ∀ l, l < 4 → first_queue aggl nb l (fq aggl p l).
Proof using Hb3.
  intros Hnf. destruct nb as [|x nb].
  - intros (t & [Ht Hmax] & Hi). apply (init_queue aggl (Pool (replicate 4 []) None false true) [] t p); try done.
    + apply elem_of_list_lookup in Ht as [y Hy]. by eapply Hb3.
    + intros l Hl. cbn [sp_q]. destruct ((replicate 4 [] : list (list nat)) !! l) as [q|] eqn:E; [|done].
      by apply empty_lookup in E as ->.
    + intros y b _ Hy. by eapply Hmax, elem_of_list_lookup_2.
  - unfold started. cbn zeta. intros (b & t & Hx & [(y & Hy & Hyt) Hmax] & HP).
    set (nb' := x :: nb) in *. unfold level_of in HP. cbn [sp_bp] in HP.
    set (qs := (λ l, filter (λ z, (λ b, b) <$> bnd !! z = Some (Z.of_nat l)) nb') <$> seq 0 4) in *.
    assert (∀ l, l < 4 → qs !! l = Some (at_level nb' l)) as Hqs.
    { intros l Hl. unfold qs. rewrite list_lookup_fmap, lookup_seq_lt by done. cbn [fmap option_fmap option_map]. f_equal.
      unfold at_level. apply list_filter_iff. intros z. destruct (bnd !! z); done. }
    assert (length qs = 4) as Hlen by (unfold qs; by rewrite fmap_length, seq_length).
    destruct HP as [(m & [(c & Hc & Hcb) Hm] & Htm & Hi)|[Hle ->]].
    + apply (init_queue aggl (Pool qs (Some t) false true) nb' m p); try done.
      * by eapply Hb3.
      * intros l Hl. cbn [sp_q]. by rewrite Hqs.
      * apply filter_none. intros z Hz Hzb. pose proof (Hmax _ _ Hz Hzb). pose proof (Hb3 _ _ Hcb). lia.
    + split.
      * split; cbn [sp_q sp_bp sp_top]; [done|done| |].
        -- intros t' z b' [= <-]. apply Hle.
        -- intros l c (q & Hq & Hc) _. cbn [sp_q] in Hq. assert (l < 4) as Hl by (rewrite <- Hlen; by eapply lookup_lt_Some).
           rewrite Hqs in Hq by done. injection Hq as <-. by apply elem_of_list_filter in Hc as [? _].
      * intros l Hl. left. unfold fq. cbn [sp_q]. rewrite Hqs by done. cbn [default from_option].
        apply filter_all. intros z [_ Hz]%elem_of_list_filter. by apply Hnf.
Qed.
End start.

Section sim.
Context {A : Arith} (WO : weak_order (@wlt A) (λ _, True)).
Context (f h : nat → nat) (g1 g : graph) (HC : embeds f h g1 g).
Context (prio1 prio : list W) (mu : ∀ x y, more_urgent prio1 x y ↔ more_urgent prio (f x) (f y)).
Context (Hb3 : ∀ x b, g_bnd g !! x = Some b → (0 <= b <= 3)%Z).
Notation im := (im f h).
#[local] Instance im_decS y : Decision (im y).
Proof. unfold PieceT.im. apply _. Defined.
Let hf := ca_left _ _ _ _ HC.
Let Hb := ca_bnd _ _ _ _ HC.

Lemma start_sim_nb aggl1 nb1 p1 aggl nb p : (∀ x, is_free aggl (f x) ↔ is_free aggl1 x) →
  (∀ y, y ∈ nb → is_free aggl y) → filter im nb = f <$> nb1 →
  started prio1 (g_bnd g1) true false aggl1 nb1 p1 → started prio (g_bnd g) true false aggl nb p →
  PieceT.sim f h g1 g prio1 aggl1 p1 aggl p.
Proof using WO HC mu Hb3.
  intros fr Hnf Hnb S1 S.
  assert (∀ x b, g_bnd g1 !! x = Some b → (0 <= b <= 3)%Z) as Hb31 by (intros x b; rewrite <- Hb; apply Hb3).
  assert (∀ y, y ∈ nb1 → is_free aggl1 y) as Hnf1.
  { intros y Hy. apply fr, Hnf. assert (f y ∈ filter im nb) as Hf by (rewrite Hnb; by apply (in_fmap f h hf)).
    by apply elem_of_list_filter in Hf as [_ ?]. }
  destruct (start_queues prio1 (g_bnd g1) Hb31 _ _ _ Hnf1 S1) as [I1 Q1].
  destruct (start_queues prio (g_bnd g) Hb3 _ _ _ Hnf S) as [I Q].
  split; [done|done|done|]. intros l Hl. specialize (Q1 l Hl). specialize (Q l Hl).
  assert (filter im (at_level (g_bnd g) nb l) = f <$> at_level (g_bnd g1) nb1 l) as HN.
  { unfold at_level. rewrite <- (filter_map f (λ y, g_bnd g1 !! y = Some (Z.of_nat l)) (λ y, g_bnd g !! y = Some (Z.of_nat l)))
      by (intros y; by rewrite Hb).
    rewrite <- Hnb, !list_filter_filter. apply list_filter_iff. intros x. tauto. }
  destruct Q1 as [Q1|(N1 & M1 & L1)], Q as [Q|(N & M & L)].
  - left. by rewrite Q, Q1.
  - right. rewrite N, filter_nil in HN. symmetry in HN. apply fmap_nil_inv in HN.
    destruct (listing_filter f h _ _ HC _ _ mu (λ x, is_free aggl1 x ∧ g_bnd g1 !! x = Some (Z.of_nat l)) _ _
      (free_b f h _ _ HC _ _ _ fr) L) as (all & E & Hall).
    exists all. split_and!; [done| |left; by rewrite Q1|by right].
    intros x b Hx Hxb. apply (M (f x)); [by apply fr|by rewrite Hb].
  - right. rewrite N1 in HN. exists (fq aggl1 p1 l). split_and!; [done|done|by right|left]. by rewrite Q.
  - right. exists (fq aggl1 p1 l). split_and!; [done|done|by right|right].
    by apply (free_listing WO f h _ _ HC _ _ mu aggl1 aggl (Z.of_nat l)).
Qed.
End sim.

(** ** Lines built in a piece *)
Section line.
Context {A : Arith} (f h : nat → nat) (g g' : graph) (HC : embeds f h g g').
Context (Hsym : ∀ x y, edge (g_row g') (g_col g') x y → edge (g_row g') (g_col g') y x).
Context (mindist : bool) (thr : W) (force : bool).
Context (Hord : ∀ x y z, edge (g_row g) (g_col g) x y → edge (g_row g) (g_col g) x z → y < z → f y < f z).
Context (Hval : length (g_val g) = length (g_col g)) (Hval' : length (g_val g') = length (g_col g')).
Notation im := (im f h).
#[local] Instance im_decB y : Decision (im y).
Proof. unfold PieceT.im. apply _. Defined.
Let hf := ca_left _ _ _ _ HC.
Notation prol := (prolonged (g_row g) (g_col g) (g_val g) (g_cen g) mindist thr force).
Notation prol' := (prolonged (g_row g') (g_col g') (g_val g') (g_cen g') mindist thr force).
Notation bf := (built_from (g_row g) (g_col g) (g_val g) (g_cen g) mindist thr force).
Notation bf' := (built_from (g_row g') (g_col g') (g_val g') (g_cen g') mindist thr force).
Notation ab := (all_built (g_row g) (g_col g) (g_val g) (g_cen g) mindist thr force).
Notation ab' := (all_built (g_row g') (g_col g') (g_val g') (g_cen g') mindist thr force).

Lemma cont_edge F x dir y : continued (g_row g') (g_col g') (g_val g') (g_cen g') mindist thr force F x dir y → edge (g_row g') (g_col g') x y.
Proof using Hval'.
  assert (∀ z w, high_coupled (g_row g') (g_col g') (g_val g') (g_cen g') mindist thr x z w → edge (g_row g') (g_col g') x z) as HE.
  { intros z w [Hz _]. by eapply (cl_edge_of g' mindist Hval'). }
  unfold continued. destruct dir as [d|]; [destruct force|].
  - intros [Hp|[_ Hp]].
    + destruct Hp as (w & (_ & (w' & Hh) & _) & _). by eapply HE.
    + destruct Hp as (w & (_ & Hn & _) & _). by apply elem_of_nb_list.
  - intros (w & (_ & Hh) & _). by eapply HE.
  - intros (w & (_ & Hh) & _). by eapply HE.
Qed.
Lemma prol_out F x dir l : prol' F x dir l → ¬ im x → ∀ y, y ∈ l → ¬ im y.
Proof using HC Hsym Hval'.
  induction 1 as [F x dir Hn|F x dir y l Hc Hp IH]; intros Hx z Hz; [by apply elem_of_nil in Hz|].
  assert (¬ im y) as Hy. { intros Hy. apply Hx. eapply (im_edge f h _ _ HC Hsym); [|exact Hy]. by eapply cont_edge. }
  apply elem_of_cons in Hz as [->|Hz]; [done|by apply IH].
Qed.
Lemma built_out F s l : bf' F s l → ¬ im s → ∀ y, y ∈ l → ¬ im y.
Proof using HC Hsym Hval'.
  intros (fwd & bwd & H1 & H2 & ->) Hs y. rewrite elem_of_app, elem_of_reverse, elem_of_cons. intros [Hy|[->|Hy]]; [|done|by eapply prol_out].
  destruct fwd as [|z fwd]; [subst; by apply elem_of_nil in Hy|]. by eapply prol_out.
Qed.
Lemma prol_in F' x' dir l' : prol' F' x' dir l' → ∀ x F, x' = f x → traced f F F' → ∃ l, l' = f <$> l ∧ prol F x dir l.
Proof using HC Hord Hval.
  induction 1 as [F' x' dir Hn|F' x' dir y' l' Hc Hp IH]; intros x F -> HF.
  - exists []. split; [done|]. constructor. intros y Hy. eapply (Hn (f y)), (cl_continued f h _ _ HC _ _ _ Hord Hval _ _ _ _ _ HF); done.
  - destruct (cl_cont_image f h _ _ HC _ _ _ _ _ _ _ Hc) as [y ->].
    destruct (IH y (F ∖ {[y]}) eq_refl) as (l & -> & Hl); [by apply (traced_diff f h _ _ HC)|].
    exists (y :: l). split; [done|]. econstructor.
    + by apply (cl_continued f h _ _ HC _ _ _ Hord Hval _ _ _ _ _ HF).
    + by rewrite !(cl_centre f h _ _ HC) in Hl.
Qed.
Lemma built_in F F' s l' : traced f F F' → bf' F' (f s) l' → ∃ l, l' = f <$> l ∧ bf F s l.
Proof using HC Hord Hval.
  intros HF (fwd' & bwd' & H1 & H2 & ->).
  destruct (prol_in _ _ _ _ H1 s (F ∖ {[s]}) eq_refl) as (fwd & -> & P1); [by apply (traced_diff f h _ _ HC)|].
  destruct fwd as [|y fwd].
  - simpl in H2. subst. exists [s]. split; [done|]. by exists [], [].
  - rewrite fmap_cons in H2. cbn beta iota in H2. rewrite <- fmap_cons, !(cl_centre f h _ _ HC) in H2.
    destruct (prol_in _ _ _ _ H2 s (F ∖ {[s]} ∖ list_to_set (y :: fwd)) eq_refl) as (bwd & -> & P2).
    { by apply (traced_list f h _ _ HC), (traced_diff f h _ _ HC). }
    exists (reverse bwd ++ s :: y :: fwd). split; [by rewrite fmap_app, fmap_cons, fmap_reverse|]. by exists (y :: fwd), bwd.
Qed.
Lemma traced_out (F F' : gset nat) (l : gset nat) : traced f F F' → (∀ y, y ∈ l → ¬ im y) → traced f F (F' ∖ l).
Proof using HC. intros HF Hl x. rewrite elem_of_difference, (HF x). split; [by intros [? _]|]. intros Hx. split; [done|]. intros Hy. by apply (Hl _ Hy), (im_f f h _ _ HC). Qed.
Lemma built_piece F' ss' ls' : ab' F' ss' ls' → ∀ F ss, traced f F F' → filter im ss' = f <$> ss →
  ∃ ls, ab F ss ls ∧ lines_among f ls ls'.
Proof using HC Hsym Hord Hval Hval'.
  induction 1 as [F'|F' s' ss' ls' Hs Ha IH|F' s' ss' l' ls' Hs Hb Hl Ha IH|F' s' ss' ls' Hs Hb Ha IH]; intros F ss HF Hss.
  - rewrite filter_nil in Hss. symmetry in Hss. apply fmap_nil_inv in Hss as ->. exists []. split; constructor.
  - destruct (decide (im s')) as [Hi|Hi].
    + rewrite filter_cons_True in Hss by done. destruct ss as [|s ss]; [done|]. rewrite fmap_cons in Hss. injection Hss as -> Hss.
      destruct (IH F ss HF Hss) as (ls & H1 & H2). exists ls. split; [|done]. apply ab_used; [|done]. by rewrite <- (HF s).
    + rewrite filter_cons_False in Hss by done. by apply IH.
  - destruct (decide (im s')) as [Hi|Hi].
    + rewrite filter_cons_True in Hss by done. destruct ss as [|s ss]; [done|]. rewrite fmap_cons in Hss. injection Hss as -> Hss.
      destruct (built_in _ _ _ _ HF Hb) as (l & -> & Hl1). rewrite fmap_length in Hl.
      destruct (IH (F ∖ list_to_set l) ss) as (ls & H1 & H2); [by apply (traced_list f h _ _ HC)|done|].
      exists (l :: ls). split; [|by constructor]. apply ab_line; [by rewrite <- (HF s)|done|done|done].
    + rewrite filter_cons_False in Hss by done. pose proof (built_out _ _ _ Hb Hi) as Hout.
      destruct (IH F ss) as (ls & H1 & H2); [|done|].
      { apply traced_out; [done|]. intros y Hy%elem_of_list_to_set. by apply Hout. }
      exists ls. split; [done|]. apply la_out; [|done]. intros x Hx. by apply (Hout _ Hx), (im_f f h _ _ HC).
  - destruct (decide (im s')) as [Hi|Hi].
    + rewrite filter_cons_True in Hss by done. destruct ss as [|s ss]; [done|]. rewrite fmap_cons in Hss. injection Hss as -> Hss.
      destruct (built_in _ _ _ _ HF Hb) as (l & El & Hl1).
      assert (l = [s]) as ->.
      { destruct l as [|z [|? ?]]; try done. rewrite fmap_cons in El. injection El as El. by apply (f_inj f h hf) in El as ->. }
      destruct (IH (F ∖ {[s]}) ss) as (ls & H1 & H2); [by apply (traced_diff f h _ _ HC)|done|].
      exists ls. split; [|done]. apply ab_alone; [by rewrite <- (HF s)|done|done].
    + rewrite filter_cons_False in Hss by done. apply IH; [|done]. apply traced_out; [done|]. by intros y ->%elem_of_singleton.
Qed.
End line.

(** ** Calls *)
Lemma ps_sorted {A : Arith} (prio : list W) (l : list nat) :
  prio_sorted prio l ↔ StronglySorted (λ a b, ∀ wa wb, prio !! a = Some wa → prio !! b = Some wb → wlt wb wa = true ∨ wlt wa wb = false ∧ a < b) l.
Proof.
  split.
  - induction l as [|x l IH]; intros HS; constructor.
    + apply IH. intros j k a b wa wb Hjk Ha Hb. apply (HS (S j) (S k)); [lia|done|done].
    + apply Forall_forall. intros y [k Hk]%elem_of_list_lookup wa wb. apply (HS 0 (S k)); [lia|done|done].
  - induction 1 as [|x l HS IH HF]; intros j k a b wa wb Hjk; [done|]. destruct j as [|j]; simpl.
    + intros [= <-] Hk. destruct k as [|k]; [lia|]. simpl in Hk. rewrite Forall_forall in HF. apply HF. by eapply elem_of_list_lookup_2.
    + destruct k as [|k]; [lia|]. simpl. apply IH. lia.
Qed.
Lemma among_app f l1 l k1 k : among f l1 l → among f k1 k → ∃ m : nat → nat, (∀ j k, j < k → m j < m k) ∧
  (∀ j X, (l1 ++ k1) !! j = Some X → (l ++ k) !! m j = Some (mp f X)) ∧ (∀ j, length (l1 ++ k1) ≤ j → length (l ++ k) ≤ m j) ∧
  (∀ j, m j < length l ↔ j < length l1).
Proof.
  intros HA HB. destruct (among_index f _ _ HA) as (ma & A1 & A2 & A3). destruct (among_index f _ _ HB) as (mb & B1 & B2 & B3).
  assert (∀ j, j < length l1 → ma j < length l) as HL.
  { intros j [X HX]%lookup_lt_is_Some_2. eapply lookup_lt_Some. by apply A2. }
  exists (λ j, if decide (j < length l1) then ma j else length l + mb (j - length l1)). split_and!.
  - intros i j Hij. pose proof (HL i). pose proof (A1 i j Hij). pose proof (B1 (i - length l1) (j - length l1)).
    repeat case_decide; lia.
  - intros j X HX. case_decide as Hj.
    + rewrite lookup_app_l in HX by done. rewrite lookup_app_l by by apply HL. by apply A2.
    + rewrite lookup_app_r in HX by lia. rewrite lookup_app_r by lia. replace (length l + _ - length l) with (mb (j - length l1)) by lia.
      by apply B2.
  - intros j. rewrite !app_length. intros Hj. case_decide; [|pose proof (B3 (j - length l1)); lia].
    assert (length k1 = 0) by lia. pose proof (HL j). lia.
  - intros j. pose proof (HL j). case_decide; lia.
Qed.

Section call.
Context {A : Arith} (f h : nat → nat).
Implicit Types (i : input) (o r : outs).
Notation im := (im f h).
#[local] Instance im_decC y : Decision (im y).
Proof. unfold PieceT.im. apply _. Defined.
Section one.
Context i1 i (WM : wf_mesh i) (HP : piece f h i1 i).
Context (Hsw : sym_weights (in_row i) (in_col i) (in_val i)).
Context (HO : total_order A) (EA : exact_arith) (HE : equal_ties (A := A)) (HT : keeps_ties f i1).
Let hf := pc_left _ _ _ _ HP.
Let WM1 := pc_mesh f h i1 i WM HP.
Let HC := pc_embeds f h i1 i WM HP Hsw.

Lemma pl_less x y wx wy : in_prio i1 !! x = Some wx → in_prio i1 !! y = Some wy → wlt wx wy = false → wlt wy wx = false → f x < f y ↔ x < y.
Proof using HT.
  intros Hx Hy H1 H2. split; [|by apply (HT x y wx wy)]. intros Hl. destruct (lt_eq_lt_dec x y) as [[?| ->]|Hg]; [done|lia|].
  pose proof (HT y x wy wx Hy Hx H2 H1 Hg). lia.
Qed.
Lemma pl_first x y : x < in_n i1 → y < in_n i1 → comes_first i (f x) (f y) ↔ comes_first i1 x y.
Proof using WM HP HE HT.
  intros Hx Hy. unfold comes_first, clipped, prio_of. rewrite !(pc_bnd _ _ _ _ HP), !(pc_prio _ _ _ _ HP).
  replace (in_dim i1) with (in_dim i) by (by rewrite (pc_rest _ _ _ _ HP)).
  apply or_iff_compat_l, and_iff_compat_l, or_iff_compat_l.
  rewrite <- (wf_prio _ WM1) in Hx, Hy. apply lookup_lt_is_Some in Hx as [wx Hx], Hy as [wy Hy]. rewrite Hx, Hy. simpl.
  split; intros [He Hl]; (split; [done|]); destruct (HE _ _ He) as [E1 E2]; by apply (pl_less x y wx wy Hx Hy E1 E2).
Qed.
Lemma pl_oriented l w : (∀ x, x ∈ l → x < in_n i1) → oriented i1 l w → oriented i (f <$> l) (f <$> w).
Proof using WM HP HE HT.
  intros Hl (x & y & Hx & Hy & Hc). exists (f x), (f y).
  assert (x < in_n i1) as Hxn by (by apply Hl, head_Some_elem_of).
  assert (y < in_n i1) as Hyn by (by apply Hl, last_Some_elem_of).
  rewrite fmap_last, Hy, pl_first by done. split; [destruct l; [done|]; by injection Hx as ->|]. split; [done|].
  destruct Hc as [[? ->]|[? ->]]; [by left|right]. by rewrite fmap_reverse.
Qed.
Lemma oriented_fun l w w' : oriented i l w → oriented i l w' → w = w'.
Proof using.
  intros (x & y & Hx & Hy & Hc) (x' & y' & Hx' & Hy' & Hc'). rewrite Hx in Hx'. rewrite Hy in Hy'. simplify_eq.
  destruct Hc as [[? ->]|[? ->]], Hc' as [[? ->]|[? ->]]; done.
Qed.

Lemma pl_built lines1 lines : keeps_neighbours f i1 → built_lines i1 lines1 → built_lines i lines → lines_among f lines1 lines.
Proof using WM HP Hsw HO HT.
  intros HN HB1 (ss & F & H1 & H2 & H3 & H4 & H5).
  set (ss1 := h <$> filter im ss).
  assert (filter im ss = f <$> ss1) as Ess. { apply (im_list f h). by intros x [? _]%elem_of_list_filter. }
  assert (∀ x, x ∈ ss1 ↔ f x ∈ ss) as Hin.
  { intros x. rewrite <- (in_fmap f h hf), <- Ess, elem_of_list_filter. split; [by intros [_ ?]|]. intros Hx. split; [|done]. by apply (im_f f h _ _ HC). }
  destruct (built_piece f h _ _ HC (wf_sym _ WM) (bool_decide (in_coupling i = 1%Z)) (in_thr i) (in_force i) HN (wf_val _ WM1) (wf_val _ WM) F ss lines H5
    (list_to_set ss1) ss1) as (ls & HL1 & HL2); [|done|].
  { intros x. by rewrite elem_of_list_to_set, Hin, H4. }
  replace lines1 with ls; [done|]. apply (built_lines_uniq i1); [done..| |done].
  exists ss1, (list_to_set ss1). split_and!.
  - apply (NoDup_fmap_1 f). rewrite <- Ess. by apply NoDup_filter.
  - apply ps_sorted. apply ps_sorted in H2. apply (ss_filter _ im) in H2. rewrite Ess in H2. clear -H2 HT HP.
    induction ss1 as [|x l IH]; [constructor|]. rewrite fmap_cons in H2. apply StronglySorted_inv in H2 as [H2 HF]. constructor; [by apply IH|].
    rewrite Forall_fmap in HF. eapply Forall_impl; [exact HF|]. intros y. simpl. rewrite !(pc_prio _ _ _ _ HP). intros Hxy wa wb Ha Hb.
    destruct (Hxy wa wb Ha Hb) as [?|[Hw Hl]]; [by left|]. destruct (wlt wb wa) eqn:E; [by left|right]. split; [done|].
    by apply (pl_less x y wa wb).
  - intros x. rewrite Hin, H3. rewrite (cl_anisotropic f h _ _ HC _ (in_compl i1) (in_compl i)) by (symmetry; apply HP).
    replace (in_dim i1) with (in_dim i) by (by rewrite (pc_rest _ _ _ _ HP)).
    by replace (in_thr i1) with (in_thr i) by (by rewrite (pc_rest _ _ _ _ HP)).
  - intros x. by rewrite elem_of_list_to_set.
  - replace (in_coupling i1) with (in_coupling i) by (by rewrite (pc_rest _ _ _ _ HP)).
    replace (in_thr i1) with (in_thr i) by (by rewrite (pc_rest _ _ _ _ HP)).
    by replace (in_force i1) with (in_force i) by (by rewrite (pc_rest _ _ _ _ HP)).
Qed.

Lemma no_given o : ¬ (2 ≤ length (o_idx o) ∧ o_lines o ≠ []) → filter (λ l : list nat, 2 ≤ length l) (split_lines (o_idx o) (o_lines o)) = [].
Proof using.
  intros Hn. apply elem_of_nil_inv. intros l [Hl2 Hl]%elem_of_list_filter. apply Hn. unfold split_lines in Hl.
  apply elem_of_lookup_zip_with in Hl as (j & a & b & -> & Ha & Hb). split.
  - destruct (o_idx o) as [|? [|? ?]]; [done|done|simpl; lia].
  - intros E. rewrite E, drop_nil, take_nil in Hl2. simpl in Hl2. lia.
Qed.

Lemma pl_lines o1 o lines1 lines : aniso_on i o → (in_build i = true → keeps_neighbours f i1) →
  (in_build i = false → lines_among f (split_lines (o_idx o1) (o_lines o1)) (split_lines (o_idx o) (o_lines o))) →
  (aniso_on i1 o1 → lines_right i1 o1 lines1) → (¬ aniso_on i1 o1 → lines1 = []) → lines_right i o lines → lines_among f lines1 lines.
Proof using WM HP Hsw HO HT.
  intros Ha HN HL R1 R2 R. unfold lines_right, aniso_on in *. destruct Ha as [Ha _].
  replace (in_build i1) with (in_build i) in * by (by rewrite (pc_rest _ _ _ _ HP)).
  replace (in_aniso i1) with (in_aniso i) in * by (by rewrite (pc_rest _ _ _ _ HP)).
  destruct (in_build i).
  - apply pl_built; [by apply HN|by apply R1|done].
  - rewrite R. assert (lines1 = filter (λ l : list nat, 2 ≤ length l) (split_lines (o_idx o1) (o_lines o1))) as ->; [|by apply la_filter, HL].
    destruct (decide (2 ≤ length (o_idx o1) ∧ o_lines o1 ≠ [])) as [Hd|Hd]; [by apply R1|]. rewrite no_given by done. apply R2.
    intros [_ H']. by apply Hd, H'.
Qed.

Lemma pl_neighbours aggl1 aggl walked1 walked : (∀ x, is_free aggl (f x) ↔ is_free aggl1 x) → lines_among f walked1 walked →
  (∀ x, nb_list (in_row i) (in_col i) (f x) = f <$> nb_list (in_row i1) (in_col i1) x) →
  filter im (line_neighbours i aggl walked) = f <$> line_neighbours i1 aggl1 walked1.
Proof using WM HP Hsw.
  intros fr HA HL. unfold line_neighbours. unfold is_free in fr.
  assert (∀ l k, concat (nb_list (in_row i) (in_col i) <$> filter (λ x, aggl !! x ≠ Some false) (l ++ k)) =
    concat (nb_list (in_row i) (in_col i) <$> filter (λ x, aggl !! x ≠ Some false) l) ++ concat (nb_list (in_row i) (in_col i) <$> filter (λ x, aggl !! x ≠ Some false) k)) as E.
  { intros l k. by rewrite filter_app, fmap_app, concat_app. }
  assert (∀ l k, concat (nb_list (in_row i1) (in_col i1) <$> filter (λ x, aggl1 !! x ≠ Some false) (l ++ k)) =
    concat (nb_list (in_row i1) (in_col i1) <$> filter (λ x, aggl1 !! x ≠ Some false) l) ++ concat (nb_list (in_row i1) (in_col i1) <$> filter (λ x, aggl1 !! x ≠ Some false) k)) as E1.
  { intros l k. by rewrite filter_app, fmap_app, concat_app. }
  induction HA as [|l ls1 ls HA IH|l ls1 ls Hn HA IH]; cbn [concat]; [done| |].
  - rewrite E, E1, !filter_app, fmap_app, IH. f_equal. clear -fr HL HC hf.
    rewrite filter_all.
    + rewrite (filter_map f (λ x, aggl1 !! x ≠ Some false) (λ x, aggl !! x ≠ Some false)) by (intros x; by rewrite fr).
      rewrite <- (filter_map f (λ x, aggl1 !! x = Some false) (λ x, aggl !! x = Some false)) by done. f_equal.
      induction (filter _ l) as [|x k IH]; [done|]. rewrite !fmap_cons. cbn [concat]. by rewrite fmap_app, IH, HL.
    + intros y [_ (k & Hy & Hk)%elem_of_concat]%elem_of_list_filter. apply elem_of_list_fmap in Hk as (z & -> & [_ Hz]%elem_of_list_filter).
      apply elem_of_list_fmap in Hz as (x & -> & _). rewrite HL in Hy. apply elem_of_list_fmap in Hy as (w & -> & _). by apply (im_f f h _ _ HC).
  - rewrite E, !filter_app, IH. rewrite (filter_none im); [done|].
    intros y [_ (k & Hy & Hk)%elem_of_concat]%elem_of_list_filter Hi. apply elem_of_list_fmap in Hk as (z & -> & [_ Hz]%elem_of_list_filter).
    apply elem_of_nb_list in Hy. pose proof (im_edge f h _ _ HC (wf_sym _ WM) _ _ Hy Hi) as Hzi. apply (Hn (h z)). by rewrite Hzi.
Qed.

Lemma pl_whole o1 o : good_call i o → good_call i1 o1 → aniso_on i o → in_order i = 0%Z → (in_build i = true → keeps_neighbours f i1) →
  (in_build i = false → lines_among f (split_lines (o_idx o1) (o_lines o1)) (split_lines (o_idx o) (o_lines o))) →
  (∀ x, nb_list (in_row i) (in_col i) (f x) = f <$> nb_list (in_row i1) (in_col i1) x) →
  alike_wholes f h i1 i o1 o.
Proof using WM HP Hsw HT HO EA HE.
  intros HG HG1 Ha Hord HN HL Hnb r1 r
    (lines1 & walked1 & pieces1 & ip1 & d1 & aggl1 & p1 & X1s & L11 & L12 & Hw1 & Hp1 & Hip1 & Hdm1 & La1 & Fa1 & St1 & Sq1 & Lf1 & Fc1 & An1 & Af1)
    (lines & walked & pieces & ip & d & aggl & p & Xs & L1 & L2 & Hw & Hp & Hip & Hdm & La & Fa & St & Sq & Lf & Fc & An & Af).
  assert (0 <= in_dim i <= 3)%Z as Hd3 by (destruct (ac_dim _ (gc_acc _ _ HG)); lia).
  assert (ip1 = ip) as ->.
  { destruct Hip, Hip1. rewrite (pc_rest _ _ _ _ HP) in *. destruct ip, ip1. simpl in *. congruence. }
  assert (d1 = d) as ->.
  { destruct (lookup_lt_is_Some_2 (in_cen i1) 0) as [c Hc]; [rewrite (wf_cen _ WM1); apply HP|].
    rewrite <- (Hdm1 _ _ Hc). rewrite <- (pc_cen _ _ _ _ HP) in Hc. by rewrite <- (Hdm _ _ Hc). }
  pose proof (pl_lines o1 o lines1 lines Ha HN HL L11 L12 (L1 Ha)) as HA.
  assert (aniso_on i1 o1 ∨ ¬ aniso_on i1 o1) as Hdec.
  { unfold aniso_on. destruct (in_aniso i1); [|right; by intros [? _]].
    destruct (in_build i1); [left; split; [done|]; by intros ?|].
    destruct (decide (2 ≤ length (o_idx o1) ∧ o_lines o1 ≠ [])) as [?|Hd]; [by left|right]. intros [_ H']. by apply Hd, H'. }
  assert (∀ x, x ∈ concat lines1 → x < in_n i1) as Hin1.
  { destruct Hdec as [Hy|Hy]; [by apply (lines_in i1 WM1 o1); auto|]. rewrite (L12 Hy). by intros x ?%elem_of_nil. }
  assert (lines_among f walked1 walked) as HW.
  { eapply (la_forall2 f (oriented i1) (oriented i)); [exact HA| |apply oriented_fun| |done|done].
    - intros l w Hl. apply pl_oriented. intros x Hx. apply Hin1, elem_of_concat. by exists l.
    - intros l w x [->| ->]%oriented_or; [done|by rewrite elem_of_reverse]. }
  assert (lines_among f (concat pieces1) (concat pieces)) as HPs.
  { replace (in_odd i1) with (in_odd i) in Hp1 by (by rewrite (pc_rest _ _ _ _ HP)).
    eapply (la_cut f _ (used i) (used i1)); [|exact HW|exact Hp1|exact Hp]. intros n. unfold used. by rewrite (pc_rest _ _ _ _ HP). }
  assert (∀ x, is_free aggl (f x) ↔ is_free aggl1 x) as fr.
  { intros x. by rewrite Fa, Fa1, (pc_cells _ _ _ _ HP), (la_elem f h hf _ _ x HPs). }
  replace (in_order i1) with (in_order i) in St1 by (by rewrite (pc_rest _ _ _ _ HP)). rewrite Hord in *.
  assert (∀ x b, g_bnd (mesh_of i) !! x = Some b → (0 <= b <= 3)%Z) as Hb3.
  { intros x b. simpl. rewrite list_lookup_fmap. intros (b0 & Hx & ->)%fmap_Some. pose proof (wf_bnd_pos _ WM _ _ Hx). lia. }
  destruct HO as [WO HTo].
  pose proof (start_sim_nb WO f h _ _ HC _ _ (pc_urgent f h _ _ HP HT) Hb3 aggl1 _ p1 aggl _ p fr
    ltac:(by intros y [? _]%elem_of_list_filter) (pl_neighbours _ _ _ _ fr HW Hnb) St1 St) as HS.
  pose proof (sim_sequence WO HTo f h _ _ HC EA ip d (wf_sym _ WM) _ _ (pc_urgent f h _ _ HP HT) Hb3 _ _ _ Sq _ _ _ HS Sq1) as HX.
  destruct (among_app f _ _ _ _ (la_among f _ _ HPs) HX) as (m & M1 & M2 & M3 & M4). exists m. split; [done|]. split.
  - split.
    + intros x. destruct (o_fc2cc r1 !! x) as [k|] eqn:E; simpl.
      * apply Fc1 in E as (X & HX' & Hx). apply Fc. exists (mp f X). split; [by apply M2|]. by apply (mp_in f h hf).
      * apply lookup_ge_None in E. apply lookup_ge_None. pose proof (pc_cells _ _ _ _ HP x). lia.
    + intros y k Hy. apply Fc in Hy as (X & HX' & Hy). destruct (((list_to_set <$> concat pieces1) ++ X1s) !! k) as [X1|] eqn:E.
      * pose proof (M2 _ _ E) as HX''. rewrite HX' in HX''. injection HX'' as ->. apply mp_image in Hy as (x & -> & _).
        by apply (im_f f h _ _ HC).
      * apply lookup_ge_None in E. apply lookup_lt_Some in HX'. pose proof (M3 k E). lia.
  - intros k x Hx. unfold aniso_id. destruct (An Ha) as [-> _]. rewrite elem_of_seq. specialize (M4 k). rewrite !fmap_length in M4.
    destruct Hdec as [Hy|Hy].
    + destruct (An1 Hy) as [-> _]. rewrite elem_of_seq. split; intros [_ ?]; (split; [done|]); lia.
    + rewrite (L12 Hy) in Hw1. apply Forall2_nil_inv_l in Hw1 as ->. apply Forall2_nil_inv_l in Hp1 as ->. simpl in M4.
      split; [intros [_ ?]; lia|by intros [? _]].
Qed.
End one.
End call.

Lemma C63_lines_lem {A : Arith} {H : HashOrder} f h i1 i o1 o r1 e1 r e :
  exact_arith → total_order A → equal_ties → good_call i o → good_call i1 o1 → simple_csr (in_row i) (in_col i) →
  sym_weights (in_row i) (in_col i) (in_val i) → extremes_fine i →
  in_corr i = false ∨ (corr_size i <= 1)%Z → aniso_on i o → in_order i = 0%Z →
  piece f h i1 i → keeps_ties f i1 → (in_build i = true → keeps_neighbours f i1) →
  (in_build i = false → lines_among f (split_lines (o_idx o1) (o_lines o1)) (split_lines (o_idx o) (o_lines o))) →
  (∀ x, nb_list (in_row i) (in_col i) (f x) = f <$> nb_list (in_row i1) (in_col i1) x) →
  agglomerate_one_level i o = (r, e) → agglomerate_one_level i1 o1 = (r1, e1) →
  e = Ok () ∧ e1 = Ok () ∧
  (∀ x y c d c1 d1, o_fc2cc r !! f x = Some c → o_fc2cc r !! f y = Some d → o_fc2cc r1 !! x = Some c1 →
    o_fc2cc r1 !! y = Some d1 → (c = d ↔ c1 = d1) ∧ (c < d ↔ c1 < d1)) ∧
  (∀ x y c, o_fc2cc r !! f x = Some c → o_fc2cc r !! y = Some c → ∃ z, y = f z).
Proof.
  intros EA HO HE HG HG1 Hs Hsw Hex Hc Ha Hord HP HT HN HL Hnb E E1. pose proof (gc_mesh _ _ HG) as WM.
  apply (C63_gen f h i1 i o1 o r1 e1 r e EA HO HG HG1 Hs Hsw Hex Hc HP); [..|done|done].
  - by apply pl_whole.
  - apply pl_whole; try done; [by apply (gc_mesh _ _ (good_uncorrected _ _ HG))|by apply pc_uncorrected|by apply good_uncorrected|by apply good_uncorrected].
Qed.
