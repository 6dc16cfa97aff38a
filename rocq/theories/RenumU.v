(** * RenumU: calls with the cells numbered otherwise (C60) *)

From Verif Require Import Features Iso Main Spec SpecSub SpecFeat SpecAR SpecBest SpecFront SpecPool SpecGrow SpecFeed SpecHash
  SpecLine SpecMove SpecWhole SpecRenum GraphP FeatT ApiP ApiT RuleT WholeU ReordU RenumT.

(** ** The queues *)
Section pool.
Context {A : Arith} (f h : nat → nat) (hf : ∀ x, h (f x) = x) (fh : ∀ x, f (h x) = x).
Context (prio prio' : list W) (mu : ∀ x y, more_urgent prio x y → more_urgent prio' (f x) (f y)).
Context (bnd bnd' : list Z) (Hb : ∀ x, bnd' !! f x = bnd !! x).
Implicit Types (p : pool) (aggl : list bool).

Definition pm p : pool := Pool ((λ q : list nat, f <$> q : list nat) <$> (sp_q p : list (list nat))) (sp_top p) (sp_one p) (sp_bp p).

Lemma pm_q p l : sp_q (pm p) !! l = (λ q : list nat, f <$> q : list nat) <$> (sp_q p !! l : option (list nat)).
Proof. simpl. apply list_lookup_fmap. Qed.
Lemma pm_queued p l c : queued (pm p) l (f c) ↔ queued p l c.
Proof using hf.
  unfold queued. setoid_rewrite pm_q. split.
  - intros (q & Hq & Hc). apply fmap_Some in Hq as (q0 & Hq & ->). exists q0. by rewrite (in_fmap f h hf) in Hc.
  - intros (q & Hq & Hc). exists (f <$> q). by rewrite Hq, (in_fmap f h hf).
Qed.
Lemma pm_emptied (P : nat → Prop) p p0 : emptied P p p0 → emptied P (pm p) (pm p0).
Proof.
  intros (H1 & H2 & H3 & H4). split_and!; [done|done|simpl; by rewrite !fmap_length|].
  intros l q. rewrite !pm_q. intros Hq. apply fmap_Some in Hq as (q0 & Hq & ->).
  destruct (H4 _ _ Hq) as [E1 E2]. split; intros HP; [by rewrite (E1 HP)|by rewrite (E2 HP)].
Qed.
Lemma pm_left p l q p' : left_with p l q p' → left_with (pm p) l (f <$> q) (pm p').
Proof. unfold left_with. intros ->. unfold pm. simpl. by rewrite list_fmap_insert. Qed.

Section free.
Context (aggl aggl' : list bool) (fr : ∀ x, is_free aggl' (f x) ↔ is_free aggl x).
Lemma pm_spent p l : spent aggl p l → spent aggl' (pm p) l.
Proof using hf fh fr. intros Hs c. rewrite <- (fh c), pm_queued, fr. apply Hs. Qed.
Lemma pm_taken p l s p' : taken aggl p l s p' → taken aggl' (pm p) l (f s) (pm p').
Proof using h hf fh fr.
  intros (H1 & pre & post & Hq & Hp & Hl). split; [by apply fr|]. exists (f <$> pre), (f <$> post).
  rewrite pm_q, Hq. split_and!.
  - simpl. by rewrite fmap_app.
  - intros c. rewrite <- (fh c), (in_fmap f h hf), fr. apply Hp.
  - by apply pm_left.
Qed.
Lemma pm_highest b : highest_free bnd aggl b → highest_free bnd' aggl' b.
Proof using h fh fr Hb.
  intros [(c & Hc & Hcb) Hm]. split.
  - exists (f c). by rewrite fr, Hb.
  - intros c' b'. rewrite <- (fh c'), fr, Hb. apply Hm.
Qed.
Lemma lowest (P : nat → Prop) `{∀ x, Decision (P x)} (l : list nat) c : c ∈ l → P c →
  ∃ m, m ∈ l ∧ P m ∧ ∀ y, y ∈ l → P y → f m ≤ f y.
Proof.
  revert c. induction l as [|x l IH]; intros c Hc HP; [by apply elem_of_nil in Hc|].
  destruct (decide (Exists P l)) as [(y & Hy & Hpy)%Exists_exists|Hn].
  - destruct (IH y Hy Hpy) as (m & Hm & Hpm & Hl). destruct (decide (P x ∧ f x < f m)) as [[Hx Hlt]|Hx].
    + exists x. split; [by left|]. split; [done|]. intros z Hz Hpz. apply elem_of_cons in Hz as [->|Hz]; [done|].
      specialize (Hl z Hz Hpz). lia.
    + exists m. split; [by right|]. split; [done|]. intros z Hz Hpz. apply elem_of_cons in Hz as [->|Hz]; [|by apply Hl].
      destruct (decide (f x < f m)); [|lia]. by exfalso; apply Hx.
  - assert (P x) as Hx.
    { apply elem_of_cons in Hc as [->|Hc]; [done|]. exfalso. apply Hn, Exists_exists. eauto. }
    exists x. split; [by left|]. split; [done|]. intros z Hz Hpz. apply elem_of_cons in Hz as [->|Hz]; [done|].
    exfalso. apply Hn, Exists_exists. eauto.
Qed.
(** Either no free cell is above the level in use, or levels are kept in order. *)
Definition level_ok (t : Z) : Prop :=
  (∀ x b, is_free aggl x → bnd !! x = Some b → (b <= t)%Z) ∨
  (∀ x y bx b_y, bnd !! x = Some bx → bnd !! y = Some b_y → bx ≠ b_y → x < y → f x < f y).
Lemma pm_above t b : level_ok t → first_above bnd aggl t b → first_above bnd' aggl' t b.
Proof using h fh fr Hb.
  intros HL [Ht (c & Hc & Hcb & Hm)]. split; [done|].
  set (P x := is_free aggl x ∧ ∃ b', bnd !! x = Some b' ∧ (t <= b')%Z).
  assert (∀ x, Decision (P x)) as HD.
  { intros x. subst P. cbv beta. unfold is_free. destruct (bnd !! x) as [b'|].
    - destruct (decide (t <= b')%Z).
      + destruct (decide (aggl !! x = Some false)); [left|right]; [by eauto|tauto].
      + right. intros (_ & ? & [= <-] & ?). done.
    - right. by intros (_ & ? & ? & _). }
  destruct (lowest P (seq 0 (length aggl)) c) as (m & Hmin & [Hfm (bm & Hbm & Htm)] & Hlow).
  { apply elem_of_seq. apply lookup_lt_Some in Hc. lia. }
  { split; [done|]. eauto. }
  exists (f m). split; [by apply fr|]. rewrite Hb, Hbm.
  assert (bm = b) as ->.
  { destruct HL as [HL|HL].
    - pose proof (HL _ _ Hc Hcb). pose proof (HL _ _ Hfm Hbm). lia.
    - destruct (decide (bm = b)) as [|Hne]; [done|]. exfalso. pose proof (Hm _ _ Hfm Hbm Htm) as Hle.
      assert (c ≠ m) by congruence. assert (f c < f m) as Hlt by (eapply HL; [done|done|congruence|lia]).
      assert (f m ≤ f c); [|lia]. apply Hlow; [|split; by eauto].
      apply elem_of_seq. apply lookup_lt_Some in Hc. lia. }
  split; [done|]. intros c' b'. rewrite <- (fh c'), fr, Hb. intros H1 H2 H3. apply Hlow; [|split; by eauto].
  apply elem_of_seq. apply lookup_lt_Some in H1. lia.
Qed.
Lemma pm_listing (P P' : nat → Prop) l : (∀ x, P' (f x) ↔ P x) → listing prio P l → listing prio' P' (f <$> l).
Proof using hf fh mu.
  intros HPQ [H1 H2]. split; [|by apply (ss_map f (more_urgent prio))]. intros x.
  by rewrite <- (fh x), (in_fmap f h hf), HPQ, H1.
Qed.
Lemma pm_takes p s p' : (∀ t, sp_top p = Some t → level_ok t) → takes prio bnd aggl p s p' → takes prio' bnd' aggl' (pm p) (f s) (pm p').
Proof using hf fh fr Hb mu.
  intros HL (t & Ht & HT). exists t. split; [done|]. destruct HT as [(l & p0 & H1 & H2 & H3 & H4)|(H1 & b & p0 & H2 & H3 & H4)]; [left|right].
  - exists l, (pm p0). split_and!; [done| | |].
    + intros l' Hi Hlt. by apply pm_spent, H2.
    + by apply pm_emptied in H3.
    + by apply pm_taken.
  - split; [intros l Hi; by apply pm_spent, H1|]. exists b, (pm p0). split_and!.
    + destruct H2 as [H2|[H2 ?]]; [left; apply pm_above; by eauto|right; split; [by apply pm_highest|done]].
    + by apply pm_emptied in H3.
    + destruct H4 as [H4|(Hs & rest & Hl & Hw)]; [left; by apply pm_taken|right]. split; [by apply pm_spent|].
      exists (f <$> rest). split; [|by apply pm_left]. rewrite <- fmap_cons. eapply pm_listing, Hl.
      intros x. by rewrite fr, Hb.
Qed.
End free.

Lemma pm_fed (d d' : nat → option Z) (N N' : nat → Prop) p p' : (∀ x, d' (f x) = d x) → (∀ x, N' (f x) ↔ N x) →
  fed prio bnd d N p p' → fed prio' bnd' d' N' (pm p) (pm p').
Proof using hf fh Hb mu.
  intros Hd HN [F1 F2 F3]. split.
  - simpl. by rewrite !fmap_length.
  - intros l q. rewrite pm_q. intros Hq. apply fmap_Some in Hq as (q0 & Hq & ->).
    destruct (F2 l q0 Hq) as (add & Ha & Hx & Hst). exists (f <$> add). rewrite pm_q, Ha. split_and!.
    + simpl. by rewrite fmap_app.
    + intros x. rewrite <- (fh x), (in_fmap f h hf), HN, Hb. apply Hx.
    + eapply ss_map, Hst. intros x y. unfold queued_before. rewrite !Hd, !Hb.
      intros [?|(E & bx & b_y & H1 & H2 & H3)]; [by left|right]. split; [done|]. exists bx, b_y. split_and!; [done|done|].
      destruct H3 as [?|[-> ?]]; [by left|right]. split; [done|]. by apply mu.
  - simpl. destruct (sp_bp p); [|done]. destruct F3 as (t & t' & E1 & E2 & E3 & E4 & E5). exists t, t'.
    split_and!; try done.
    + intros x b. rewrite <- (fh x), HN, Hb. apply E4.
    + destruct E5 as [?|(x & Hx & Hxb)]; [by left|]. right. exists (f x). by rewrite HN, Hb.
Qed.
Lemma pm_init p t p' : initialised prio bnd p t p' → initialised prio' bnd' (pm p) t (pm p').
Proof using hf fh Hb mu.
  intros (l & q & Hq & Hl & Hw). exists (f <$> l), (f <$> q). rewrite pm_q, Hq. split_and!; [done| |].
  - eapply pm_listing, Hl. intros x. by rewrite Hb.
  - apply pm_left in Hw. rewrite fmap_app in Hw. simpl. by destruct (sp_one p); [rewrite fmap_take in Hw|].
Qed.
Lemma in_bnd_iff b : b ∈ bnd' ↔ b ∈ bnd.
Proof using h fh Hb.
  rewrite !elem_of_list_lookup. split; intros [x Hx]; [exists (h x)|exists (f x)]; [by rewrite <- Hb, fh|by rewrite Hb].
Qed.
Lemma pm_started bp one aggl aggl' p : started prio bnd bp one aggl [] p → started prio' bnd' bp one aggl' [] (pm p).
Proof using hf fh Hb mu.
  intros (t & Ht & Hi). exists t. split.
  - unfold highest_bnd. rewrite in_bnd_iff. by setoid_rewrite in_bnd_iff.
  - by apply pm_init in Hi.
Qed.

(** The level in use is not below that of any free cell. *)
Definition top_ok aggl p : Prop :=
  ∀ t x b, sp_top p = Some t → is_free aggl x → bnd !! x = Some b → (b <= t)%Z.
Lemma started_top bp one aggl p : started prio bnd bp one aggl [] p → top_ok aggl p ∧ sp_bp p = bp.
Proof.
  intros (t & Ht & (l & q & Hq & Hl & ->)). split; [|done]. intros t' x b [= <-] _ Hx. apply elem_of_list_lookup_2, Ht in Hx.
  lia.
Qed.
Lemma takes_top aggl p s p' : sp_bp p = true → top_ok aggl p → takes prio bnd aggl p s p' → top_ok aggl p' ∧ sp_bp p' = true.
Proof.
  intros Hbp HT (t & Ht & Hc). assert (∀ l, inspected p t l → l = Z.to_nat t) as HI.
  { intros l. unfold inspected. by rewrite Hbp. }
  assert (∀ P p0, emptied P p p0 → sp_bp p0 = true) as HE by (intros P p0 (-> & _); done).
  destruct Hc as [(l & p0 & H1 & H2 & H3 & (Hs & pre & post & Hq & Hp & ->))|(H1 & b & p0 & H2 & H3 & H4)].
  - rewrite (HI _ H1). split; [|simpl; by eapply HE]. intros t' x b [= <-] Hx Hxb. pose proof (HT _ _ _ Ht Hx Hxb). lia.
  - assert (∀ x b', is_free aggl x → bnd !! x = Some b' → (b' <= b)%Z) as Hle.
    { destruct H2 as [[Htb _]|[[_ Hm] _]]; [|done]. intros x b' Hx Hxb. pose proof (HT _ _ _ Ht Hx Hxb). lia. }
    destruct H4 as [(Hs & pre & post & Hq & Hp & ->)|(Hs & rest & Hl & ->)]; (split; [|simpl; by eapply HE]);
      intros t' x b' [= <-] Hx Hxb; pose proof (Hle _ _ Hx Hxb); lia.
Qed.
Lemma fed_top d N aggl p p' : sp_bp p = true → top_ok aggl p → fed prio bnd d N p p' → top_ok aggl p' ∧ sp_bp p' = true.
Proof.
  intros Hbp HT [F1 F2 F3]. split; [|by destruct F1 as [-> _]]. rewrite Hbp in F3. destruct F3 as (t & t' & E1 & E2 & E3 & _).
  intros t0 x b E Hx Hxb. pose proof (HT _ _ _ E1 Hx Hxb). assert (t0 = t') by congruence. lia.
Qed.
End pool.

(** ** The coarse cells *)
Section seq.
Context {A : Arith} (f h : nat → nat) (g g' : graph) (HC : carried f h g g') (EA : exact_arith) (ip : iso_params) (dim : nat).
Context (prio prio' : list W) (mu : ∀ x y, more_urgent prio x y → more_urgent prio' (f x) (f y)).
Context (n : nat) (Hn : ∀ x, f x < n ↔ x < n) (bp : bool).
Context (HL : bp = false → ∀ x y bx b_y, g_bnd g !! x = Some bx → g_bnd g !! y = Some b_y → bx ≠ b_y → x < y → f x < f y).
Let hf := ca_left _ _ _ _ HC.
Let fh := ca_right _ _ _ _ HC.
Let Hb := ca_bnd _ _ _ _ HC.

Lemma ca_sequence aggl p Xs : sequence ip g prio dim aggl p Xs → length aggl = n → sp_bp p = bp → (bp = true → top_ok (g_bnd g) aggl p) →
  ∀ aggl', length aggl' = n → (∀ x, is_free aggl' (f x) ↔ is_free aggl x) →
  sequence ip g' prio' dim aggl' (pm f p) (mp f <$> Xs).
Proof using HC EA mu Hn HL.
  induction 1 as [aggl p He|aggl p seed p1 X K dn p2 aggl1 Xs Ht Hg Hh Hf Hl Hfr Hs IH]; intros Hlen Hbp Htop aggl' Hlen' fr.
  { constructor. intros x. rewrite <- (fh x), fr. apply He. }
  destruct (carry_spec f h hf fh aggl1) as [Hc1 Hc2].
  { intros x. rewrite Hl, Hlen. apply Hn. }
  assert (∀ x, is_free (carry h aggl1) (f x) ↔ is_free aggl1 x) as fr1.
  { intros x. unfold is_free. by rewrite Hc2. }
  assert (sp_bp p2 = bp ∧ (bp = true → top_ok (g_bnd g) aggl1 p2)) as [Hbp2 Htop2].
  { destruct bp.
    - destruct (takes_top prio (g_bnd g) _ _ _ _ Hbp (Htop eq_refl) Ht) as [T1 B1].
      destruct (fed_top prio (g_bnd g) _ _ _ _ _ B1 T1 Hf) as [T2 B2]. split; [done|]. intros _ t x b E Hx.
      apply T2; [done|]. by apply Hfr.
    - split; [|done]. destruct Hf as [(-> & _) _ _]. destruct Ht as (t & _ & HT).
      destruct HT as [(l & p0 & H1 & H2 & (H3 & _) & (Hs' & pre & post & Hq & Hp & ->))|(H1 & b & p0 & H2 & (H3 & _) & H4)]; [by rewrite <- Hbp|].
      destruct H4 as [(Hs' & pre & post & Hq & Hp & ->)|(Hs' & rest & Hl' & ->)]; by rewrite <- Hbp. }
  rewrite fmap_cons.
  apply (seq_step _ _ _ _ _ _ (f seed) (pm f p1) _ K (kmap f dn) (pm f p2) (carry h aggl1)).
  - eapply (pm_takes f h hf fh prio prio' mu _ _ Hb); [done| |done].
    intros t Et. destruct bp; [left; intros x b; by apply Htop|right; by apply HL].
  - by eapply (ca_grown f h g g' HC EA).
  - by eapply (ca_hood f h g g' HC).
  - eapply (pm_fed f h hf fh prio prio' mu _ _ Hb), Hf.
    + intros x. pose proof (f_inj f h hf). by rewrite (lookup_kmap f).
    + intros x. rewrite fr, (mp_in f h hf). do 2 (apply and_iff_compat_l). split.
      * intros (y & Hy & He). exists (h y). rewrite <- (fh y) in He, Hy. by rewrite (mp_in f h hf), (ca_edge f h _ _ HC) in *.
      * intros (y & Hy & He). exists (f y). by rewrite (mp_in f h hf), (ca_edge f h _ _ HC).
  - lia.
  - intros x. rewrite <- (fh x), fr1, fr, (mp_in f h hf). apply Hfr.
  - apply IH; [lia|done|done|lia|done].
Qed.
End seq.

(** ** Correction *)
Section move.
Context {A : Arith} (f h : nat → nat) (g g' : graph) (HC : carried f h g g') (n : nat) (Hn : ∀ x, f x < n ↔ x < n).
Context (iso : nat → Prop).
Notation row := (g_row g). Notation col := (g_col g).
Notation row' := (g_row g'). Notation col' := (g_col g').
Notation mp := (mp f).
Let hf := ca_left _ _ _ _ HC.
Let fh := ca_right _ _ _ _ HC.

Definition vm (F F' : list nat) : Prop := length F = n ∧ length F' = n ∧ ∀ x, F' !! f x = F !! x.
Lemma vm_cells F F' k : vm F F' → cells_in F' k = mp (cells_in F k).
Proof using HC Hn.
  intros (L1 & L2 & HF). apply (mp_eq f h hf fh). intros x. unfold cells_in.
  rewrite !elem_of_list_to_set, !elem_of_list_filter, !elem_of_seq, HF, L1, L2.
  apply and_iff_compat_l. pose proof (Hn x). lia.
Qed.
Lemma mv_compact X c : compactness row' col' (mp X) c ↔ compactness row col X c.
Proof using HC.
  split; [|apply (ca_compact f h _ _ HC)]. intros Hc. apply (ca_compact h f _ _ (carried_sym _ _ _ _ HC)) in Hc.
  assert (RenumT.mp h (mp X) = X) as E; [|by rewrite E in Hc].
  symmetry. apply (mp_eq h f fh hf). intros x. by rewrite (mp_in' f h hf fh).
Qed.
Lemma mv_gains X Y : gains row' col' (mp X) (mp Y) ↔ gains row col X Y.
Proof using HC. unfold gains. rewrite <- (mp_union f). by setoid_rewrite mv_compact. Qed.
Lemma mv_beside F F' old X k : vm F F' → beside row' col' iso F' old (mp X) k ↔ beside row col iso F old X k.
Proof using HC.
  intros (_ & _ & HF). unfold beside. do 2 (apply and_iff_compat_l). split.
  - intros (x & y & Hx & He & Hk). exists (h x), (h y). rewrite (mp_in' f h hf fh) in Hx.
    rewrite <- (fh x), <- (fh y), (ca_edge f h _ _ HC) in He. by rewrite <- (fh y), HF in Hk.
  - intros (x & y & Hx & He & Hk). exists (f x), (f y). by rewrite (mp_in f h hf), (ca_edge f h _ _ HC), HF.
Qed.
Lemma mv_smaller F F' k k' : vm F F' → smaller F' k k' ↔ smaller F k k'.
Proof using HC Hn. intros HV. unfold smaller. by rewrite !(vm_cells _ _ _ HV), !(mp_size f h hf). Qed.
Lemma mv_with x X : faces_with row' col' (f x) (mp X) = faces_with row col x X.
Proof using HC. apply (ca_count f h _ _ HC). intros y. apply (mp_in f h hf). Qed.
Lemma mv_rather F F' x k k' : vm F F' → rather row' col' F' (f x) k k' ↔ rather row col F x k k'.
Proof using HC Hn.
  intros HV. unfold rather. cbn zeta. rewrite !(vm_cells _ _ _ HV), <- (mp_single f), !mv_gains, !mv_with.
  by rewrite (mv_smaller _ _ _ _ HV).
Qed.
Lemma mv_insert F F' x k : vm F F' → vm (<[x := k]> F) (<[f x := k]> F').
Proof using HC Hn.
  intros (L1 & L2 & HF). split_and!; [by rewrite insert_length|by rewrite insert_length|]. intros y.
  destruct (decide (y = x)) as [->|Hne].
  - destruct (decide (x < n)) as [Hx|Hx].
    + rewrite !list_lookup_insert; [done|lia|]. rewrite L2. by apply Hn.
    + rewrite !list_insert_ge; [done|lia|]. rewrite L2. pose proof (Hn x). lia.
  - rewrite !list_lookup_insert_ne; [done|congruence|]. intros E. apply Hne. by apply (f_inj f h hf) in E.
Qed.
Lemma mv_obo F0 F0' old l F F1 : vm F0 F0' → one_by_one row col iso F0 old l F F1 → ∀ F', vm F F' →
  ∃ F1', vm F1 F1' ∧ one_by_one row' col' iso F0' old (f <$> l) F' F1'.
Proof using HC Hn.
  intros HV0. induction 1 as [F|x k l F F1 [J1 J2] Ho IH|x l F F1 Hs Ho IH]; intros F' HV.
  - exists F'. split; [done|constructor].
  - destruct (IH _ (mv_insert _ _ x k HV)) as (F1' & HV1 & Ho'). exists F1'. split; [done|]. rewrite fmap_cons.
    econstructor; [|done]. split.
    + rewrite <- (mp_single f). by apply (mv_beside _ _ _ _ _ HV0).
    + intros k'. rewrite <- (mp_single f), (mv_beside _ _ _ _ _ HV0), (mv_rather _ _ _ _ _ HV). apply J2.
  - destruct (IH _ HV) as (F1' & HV1 & Ho'). exists F1'. split; [done|]. rewrite fmap_cons. apply obo_stay; [|done].
    intros k. rewrite <- (mp_single f), (mv_beside _ _ _ _ _ HV0). apply Hs.
Qed.
Lemma mv_absorbed F F' old F1 : vm F F' → absorbed row col iso F old F1 → ∃ F1', vm F1 F1' ∧ absorbed row' col' iso F' old F1'.
Proof using HC Hn.
  intros HV. unfold absorbed. cbn zeta. rewrite (vm_cells _ _ _ HV), (mp_size f h hf).
  intros [(Hs & k & (J1 & J2 & J3) & ->)|(Hs & l & Hnd & Hl & Ho)].
  - eexists. split; [|left; split; [done|]; exists k; split; [|reflexivity]].
    + destruct HV as (L1 & L2 & HF). split_and!; [by rewrite fmap_length|by rewrite fmap_length|]. intros x.
      by rewrite !list_lookup_fmap, HF.
    + split; [by apply (mv_beside _ _ _ _ _ HV)|]. split; [rewrite (vm_cells _ _ _ HV); by apply mv_gains|].
      intros k'. rewrite (mv_beside _ _ _ _ _ HV), (vm_cells _ _ _ HV), mv_gains, (mv_smaller _ _ _ _ HV). apply J3.
  - destruct (mv_obo _ _ _ _ _ _ HV Ho _ HV) as (F1' & HV1 & Ho'). exists F1'. split; [done|]. right. split.
    + destruct Hs as [?|Hs]; [by left|]. right. intros k. rewrite (mv_beside _ _ _ _ _ HV), (vm_cells _ _ _ HV), mv_gains. apply Hs.
    + pose proof (f_inj f h hf). exists (f <$> l). split; [by apply (NoDup_fmap_2 f)|]. split; [|done].
      intros x. rewrite <- (fh x), (in_fmap f h hf), (mp_in f h hf). apply Hl.
Qed.
Lemma mv_absorbed_all l F F1 : absorbed_all row col iso l F F1 → ∀ F', vm F F' →
  ∃ F1', vm F1 F1' ∧ absorbed_all row' col' iso l F' F1'.
Proof using HC Hn.
  induction 1 as [F|old l F F1 F2 Ha Hs IH]; intros F' HV; [exists F'; split; [done|constructor]|].
  destruct (mv_absorbed _ _ _ _ HV Ha) as (F1' & HV1 & Ha'). destruct (IH _ HV1) as (F2' & HV2 & Hs').
  exists F2'. split; [done|]. by econstructor.
Qed.
End move.

(** ** Calls *)
Section call.
Context {A : Arith} (f h : nat → nat).
Implicit Types (i : input) (o r : outs).

Section one.
Context i i' (WM : wf_mesh i) (HR : relabelled f h i i').
Context (Hsw : sym_weights (in_row i) (in_col i) (in_val i)).
Let hf := rn_left _ _ _ _ HR.
Let fh := rn_right _ _ _ _ HR.

Lemma rn_n : in_n i' = in_n i.
Proof using HR. unfold in_n at 1. rewrite (csr_len _ _ _ (rn_csr _ _ _ _ HR)). lia. Qed.
Lemma rn_length {B} (l l' : list B) : (∀ x, l' !! f x = l !! x) → length l = in_n i → length l' = in_n i.
Proof using HR.
  intros Hl Hn.
  assert (∀ y, y < length l' ↔ y < in_n i) as HY.
  { intros y. rewrite <- lookup_lt_is_Some, <- (fh y), Hl, lookup_lt_is_Some, Hn. symmetry. apply HR. }
  pose proof (HY (length l')). pose proof (HY (in_n i)). lia.
Qed.
Lemma rn_nb x : nb_list (in_row i') (in_col i') (f x) ≡ₚ f <$> nb_list (in_row i) (in_col i) x.
Proof using WM HR.
  rewrite <- (entries_fst _ _ _ (f x) (rn_val _ _ _ _ HR)), <- (entries_fst _ _ _ x (wf_val _ WM)).
  rewrite (rn_faces _ _ _ _ HR x). rewrite <- !list_fmap_compose. done.
Qed.
Lemma rn_edge x y : edge (in_row i') (in_col i') (f x) (f y) ↔ edge (in_row i) (in_col i) x y.
Proof using WM HR. rewrite <- !elem_of_nb_list, (rn_nb x). apply (in_fmap f h hf). Qed.
Lemma rn_to y x : faces_to (in_row i') (in_col i') (in_val i') (λ z, z = f y) (f x) ≡ₚ faces_to (in_row i) (in_col i) (in_val i) (λ z, z = y) x.
Proof using HR.
  unfold faces_to. rewrite (rn_faces _ _ _ _ HR x).
  induction (entries (in_row i) (in_col i) (in_val i) x) as [|[z w] l IH]; [done|]. rewrite fmap_cons, !filter_cons. cbn.
  destruct (decide (f z = f y)) as [E|E], (decide (z = y)) as [E'|E']; try done.
  - cbn. by apply perm_skip.
  - by apply (f_inj f h hf) in E.
  - by subst.
Qed.
Lemma rn_sym : sym_weights (in_row i') (in_col i') (in_val i').
Proof using HR Hsw. intros x y. rewrite <- (fh x), <- (fh y), !rn_to. apply Hsw. Qed.
Lemma rn_carried : carried f h (mesh_of i) (mesh_of i').
Proof using WM HR Hsw.
  split; [|done]. split; try done; simpl; try apply HR.
  - apply rn_nb.
  - intros x. rewrite !list_lookup_fmap, (rn_bnd _ _ _ _ HR). by rewrite (rn_rest _ _ _ _ HR).
  - apply rn_sym.
Qed.
Lemma rn_prio_in w : w ∈ in_prio i' ↔ w ∈ in_prio i.
Proof using HR.
  rewrite !elem_of_list_lookup. split; intros [x Hx]; [exists (h x)|exists (f x)];
    [by rewrite <- (rn_prio _ _ _ _ HR), fh|by rewrite (rn_prio _ _ _ _ HR)].
Qed.
Lemma rn_mesh : wf_mesh i'.
Proof using WM HR.
  split; rewrite ?rn_n; try apply WM; try apply HR.
  - intros x y. rewrite <- (fh x), <- (fh y), !rn_edge. apply WM.
  - eapply rn_length; [apply HR|apply WM].
  - eapply rn_length; [apply HR|apply WM].
  - destruct (wf_dim _ WM) as [d Hd]. exists d. intros x c. rewrite <- (fh x), (rn_cen _ _ _ _ HR). apply Hd.
  - eapply rn_length; [apply HR|apply WM].
  - destruct (wf_prio_ord _ WM) as [W1 W2 W3]. split; intros x; [rewrite rn_prio_in; apply W1| |];
      intros y z; rewrite !rn_prio_in; [apply W2|apply W3].
  - eapply rn_length; [apply HR|apply WM].
  - intros x b. rewrite <- (fh x), (rn_bnd _ _ _ _ HR). apply WM.
  - intros x. rewrite <- (fh x), (rn_compl _ _ _ _ HR), (rn_cells _ _ _ _ HR). apply WM.
Qed.
Lemma rn_aniso o : aniso_on i' o ↔ aniso_on i o.
Proof using HR. unfold aniso_on. by rewrite (rn_rest _ _ _ _ HR). Qed.
Lemma rn_good o : ¬ aniso_on i o → good_call i o → good_call i' o.
Proof using WM HR.
  intros Ha [_ HA H1 Hb Hg]. split.
  - apply rn_mesh.
  - rewrite (rn_rest _ _ _ _ HR). destruct HA. by split.
  - intros Ho w. rewrite rn_prio_in. apply H1. by rewrite (rn_rest _ _ _ _ HR) in Ho.
  - rewrite rn_aniso. done.
  - rewrite rn_aniso. done.
Qed.
Lemma rn_simple : simple_csr (in_row i) (in_col i) → simple_csr (in_row i') (in_col i').
Proof using WM HR.
  intros Hs x. rewrite <- (fh x). destruct (Hs (h x)) as [H1 H2]. rewrite rn_edge. split; [|done].
  rewrite (rn_nb (h x)). pose proof (f_inj f h hf). by apply (NoDup_fmap_2 f).
Qed.
Lemma rn_extremes : exact_arith → extremes_fine i → extremes_fine i'.
Proof using WM HR Hsw.
  intros EA HX Ha Y. rewrite rn_n. intros HY.
  assert (Y = mp f (mp h Y)) as E. { apply (mp_eq f h hf fh). intros x. by rewrite (mp_in' h f fh hf). }
  rewrite E, (mp_size f h hf). apply (ca_extremes _ _ _ _ rn_carried EA). apply HX.
  - by rewrite (rn_rest _ _ _ _ HR) in Ha.
  - intros x. rewrite (mp_in' h f fh hf). intros Hx%HY. by apply (rn_cells _ _ _ _ HR).
Qed.
Lemma rn_urgent : keeps_ties f i → ∀ x y, more_urgent (in_prio i) x y → more_urgent (in_prio i') (f x) (f y).
Proof using HR.
  intros HT x y (wx & w_y & Hx & Hy & Hc). exists wx, w_y. rewrite !(rn_prio _ _ _ _ HR). split_and!; [done|done|].
  destruct Hc as [?|(H1 & H2 & H3)]; [by left|right]. split_and!; [done|done|]. by apply (HT x y wx w_y).
Qed.

(** [r'] is [r] with the cells relabelled. *)
Definition same_upto r r' : Prop :=
  length (o_fc2cc r') = length (o_fc2cc r) ∧ (∀ x, o_fc2cc r' !! f x = o_fc2cc r !! x) ∧
  o_idx r' = o_idx r ∧ o_lines r' = o_lines r.

Lemma rn_whole o r : exact_arith → ¬ aniso_on i o → keeps_ties f i →
  in_order i = 0%Z ∨ in_order i = 10%Z ∨ keeps_levels f i → whole i o r → ∃ r', same_upto r r' ∧ whole i' o r'.
Proof using WM HR Hsw.
  intros EA Ha HT HO (lines & walked & pieces & ip & d & aggl & p & Xs & L1 & L2 & Hw & Hp & Hip & Hd & La & Fa & St & Sq & Lf & Fc & An & Af).
  rewrite (L2 Ha) in Hw. apply Forall2_nil_inv_l in Hw as ->. apply Forall2_nil_inv_l in Hp as ->.
  pose proof rn_carried as HC. pose proof (rn_cells _ _ _ _ HR) as Hn.
  destruct (carry_spec f h hf fh aggl) as [A1 A2]; [by rewrite La|].
  destruct (carry_spec f h hf fh (o_fc2cc r)) as [F1 F2]; [by rewrite Lf|].
  exists (Outs (carry h (o_fc2cc r)) (o_idx r) (o_lines r)). split; [by split_and!|].
  exists [], [], [], ip, d, (carry h aggl), (pm f p), (mp f <$> Xs).
  rewrite rn_n, rn_aniso. split_and!; try done.
  - destruct Hip. rewrite (rn_rest _ _ _ _ HR). by split.
  - intros x c. rewrite <- (fh x), (rn_cen _ _ _ _ HR). apply Hd.
  - by rewrite A1.
  - intros x. rewrite <- (fh x). unfold is_free. rewrite A2, Hn. pose proof (Fa (h x)) as HF. unfold is_free in HF. rewrite HF. simpl.
    apply and_iff_compat_l. split; intros _ E; by apply elem_of_nil in E.
  - change (line_neighbours i' (carry h aggl) []) with (@nil nat). change (line_neighbours i aggl []) with (@nil nat) in St.
    replace (in_order i') with (in_order i) by (by rewrite (rn_rest _ _ _ _ HR)).
    exact (pm_started f h hf fh _ _ (rn_urgent HT) _ _ (ca_bnd _ _ _ _ HC) _ _ aggl _ p St).
  - change (line_neighbours i aggl []) with (@nil nat) in St. destruct (started_top _ _ _ _ _ _ St) as [T1 T2].
    eapply (ca_sequence f h _ _ HC EA ip d _ _ (rn_urgent HT) (in_n i) Hn); [|exact Sq|done|exact T2|done|by rewrite A1|].
    + intros Hbp x y bx b_y. simpl. rewrite !list_lookup_fmap. intros Hx Hy.
      apply fmap_Some in Hx as (bx0 & Hx & ->). apply fmap_Some in Hy as (by0 & Hy & ->).
      apply bool_decide_eq_false in Hbp. destruct HO as [?|[?|HO]]; [by exfalso; apply Hbp; left|by exfalso; apply Hbp; right|].
      by apply HO.
    + intros x. unfold is_free. by rewrite A2.
  - simpl. by rewrite F1.
  - simpl. intros x c. rewrite <- (fh x), F2, Fc. simpl. split.
    + intros (X & HX & Hx). exists (mp f X). by rewrite list_lookup_fmap, HX, (mp_in f h hf).
    + intros (X' & HX & Hx). rewrite list_lookup_fmap in HX. apply fmap_Some in HX as (X & HX & ->). exists X.
      by rewrite (mp_in f h hf) in Hx.
Qed.
End one.

Lemma rn_uncorrected i i' : relabelled f h i i' → relabelled f h (uncorrected i) (uncorrected i').
Proof.
  intros HR. pose proof (rn_rest _ _ _ _ HR) as E. destruct HR. split; try done. unfold uncorrected, put_mesh. simpl. by rewrite E.
Qed.
(** If that is so without correction, it is so with correction. *)
Lemma rn_right_gen i i' o o' r : wf_mesh i → relabelled f h i i' → sym_weights (in_row i) (in_col i) (in_val i) →
  (aniso_on i' o' ↔ aniso_on i o) →
  (∀ r0, whole i o r0 → ∃ r0', same_upto r0 r0' ∧ whole i' o' r0') →
  (∀ r0, whole (uncorrected i) o r0 → ∃ r0', same_upto r0 r0' ∧ whole (uncorrected i') o' r0') →
  result_right i o r → ∃ r', same_upto r r' ∧ result_right i' o' r'.
Proof.
  intros WM HR Hsw Hao HWr HWu. unfold result_right.
  replace (in_corr i') with (in_corr i) by (by rewrite (rn_rest _ _ _ _ HR)).
  destruct (in_corr i); [|apply HWr].
  intros (r0 & HW & [(sing & f1 & R & S1 & S2 & S3 & S4 & S5) C2 C3]).
  pose proof (rn_left _ _ _ _ HR) as hf. pose proof (rn_right _ _ _ _ HR) as fh.
  destruct (HWu r0 HW) as (r0' & (U1 & U2 & U3 & U4) & HW').
  assert (length (o_fc2cc r0) = in_n i) as L0.
  { destruct HW as (? & ? & ? & ? & ? & ? & ? & ? & _ & _ & _ & _ & _ & _ & _ & _ & _ & _ & Lf & _). exact Lf. }
  pose proof (rn_carried i i' WM HR Hsw) as HC. pose proof (rn_cells _ _ _ _ HR) as Hn.
  assert (vm f (in_n i) (o_fc2cc r0) (o_fc2cc r0')) as HV by (split_and!; [done|lia|done]).
  assert (∀ k, iso_id i' o' r0' k ↔ iso_id i o r0 k) as HI.
  { intros k. unfold iso_id, aniso_id. rewrite Hao, U4.
    apply and_iff_compat_r. split; intros [x Hx]; [exists (h x)|exists (f x)]; [by rewrite <- U2, fh|by rewrite U2]. }
  destruct (mv_absorbed_all f h _ _ HC (in_n i) Hn (iso_id i o r0) _ _ _ S3 _ HV) as (f1' & (V1 & V2 & V3) & Ha').
  exists (Outs ((λ k, if decide (k ∈ R) then k else rank R k) <$> f1') (o_idx r) (o_lines r)). split.
  - split_and!; try done; simpl.
    + by rewrite S5, !fmap_length, V1, V2.
    + intros x. by rewrite S5, !list_lookup_fmap, V3.
  - exists r0'. split; [done|]. split; simpl; [|by rewrite U3|by rewrite U4].
    exists sing, f1', R. split_and!; try done.
    + intros k. rewrite HI, S2. rewrite (vm_cells f h _ _ HC (in_n i) Hn _ _ k HV), (mp_size f h hf).
      unfold corr_size. by rewrite (rn_rest _ _ _ _ HR).
    + clear -Ha' HI. revert Ha'.
      assert (∀ l F F1, absorbed_all (in_row i') (in_col i') (iso_id i o r0) l F F1 →
        absorbed_all (in_row i') (in_col i') (iso_id i' o' r0') l F F1) as HA; [|apply HA].
      assert (∀ F old X k, beside (in_row i') (in_col i') (iso_id i o r0) F old X k ↔ beside (in_row i') (in_col i') (iso_id i' o' r0') F old X k) as HB.
      { intros. unfold beside. by rewrite HI. }
      assert (∀ F0 old l F F1, one_by_one (in_row i') (in_col i') (iso_id i o r0) F0 old l F F1 →
        one_by_one (in_row i') (in_col i') (iso_id i' o' r0') F0 old l F F1) as HO.
      { intros F0 old l F F1. induction 1 as [F|x k l F F1 [J1 J2] Ho IH|x l F F1 Hs Ho IH]; [constructor| |].
        - econstructor; [|done]. split; [by apply HB|]. intros k'. rewrite <- HB. apply J2.
        - apply obo_stay; [|done]. intros k. rewrite <- HB. apply Hs. }
      intros l F F1. induction 1 as [F|old l F F1 F2 Hx Hs IH]; [constructor|]. econstructor; [|done].
      revert Hx. unfold absorbed. cbn zeta. intros [(Hc & k & (J1 & J2 & J3) & ->)|(Hc & l' & Hnd & Hl & Ho)]; [left|right].
      * split; [done|]. exists k. split; [|done]. split; [by apply HB|]. split; [done|]. intros k'. rewrite <- HB. apply J3.
      * split; [|exists l'; split_and!; [done|done|by apply HO]].
        destruct Hc as [?|Hc]; [by left|right]. intros k. rewrite <- HB. apply Hc.
    + intros k. rewrite S4. apply and_iff_compat_l. split; intros (x & H1 & H2).
      * exists (f x). by rewrite U2, V3.
      * exists (h x). rewrite <- U2, <- V3, fh. done.
Qed.
Lemma rn_right_call i i' o r : exact_arith → wf_mesh i → relabelled f h i i' → sym_weights (in_row i) (in_col i) (in_val i) →
  ¬ aniso_on i o → keeps_ties f i → in_order i = 0%Z ∨ in_order i = 10%Z ∨ keeps_levels f i →
  result_right i o r → ∃ r', same_upto r r' ∧ result_right i' o r'.
Proof.
  intros EA WM HR Hsw Ha HT HO. apply rn_right_gen; [done|done|done|by apply rn_aniso| |].
  - intros r0. by apply rn_whole.
  - intros r0. apply rn_whole; try done; [destruct WM; by split|by apply rn_uncorrected].
Qed.
End call.

Lemma C60_lem {A : Arith} {H : HashOrder} f h i i' o r e r' e' :
  exact_arith → total_order A → good_call i o → simple_csr (in_row i) (in_col i) →
  sym_weights (in_row i) (in_col i) (in_val i) → extremes_fine i →
  in_corr i = false ∨ (corr_size i <= 1)%Z → ¬ aniso_on i o →
  relabelled f h i i' → keeps_ties f i →
  in_order i = 0%Z ∨ in_order i = 10%Z ∨ keeps_levels f i →
  agglomerate_one_level i o = (r, e) → agglomerate_one_level i' o = (r', e') →
  e = Ok () ∧ e' = Ok () ∧ length (o_fc2cc r') = length (o_fc2cc r) ∧
  (∀ x, o_fc2cc r' !! f x = o_fc2cc r !! x) ∧ o_idx r' = o_idx r ∧ o_lines r' = o_lines r.
Proof.
  intros EA HT HG Hs Hsw Hex Hc Ha HR Hties Hlev E E'. pose proof (gc_mesh _ _ HG) as WM.
  destruct (C57_lem _ _ _ _ EA HT HG Hs Hsw Hex E) as (-> & R1 & _).
  destruct (C57_lem _ _ _ _ EA HT (rn_good f h i i' WM HR o Ha HG) (rn_simple f h i i' WM HR Hs)
    (rn_sym f h i i' HR Hsw) (rn_extremes f h i i' WM HR Hsw EA Hex) E') as (-> & _ & R2).
  destruct (rn_right_call f h i i' o r EA WM HR Hsw Ha Hties Hlev R1) as (r1 & Hu & HW).
  assert (r1 = r') as <-; [|done]. apply R2; [|done].
  replace (in_corr i') with (in_corr i) by (by rewrite (rn_rest _ _ _ _ HR)).
  unfold corr_size in *. by rewrite (rn_rest _ _ _ _ HR).
Qed.
