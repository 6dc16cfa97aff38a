(** * PieceT: pieces of a mesh are agglomerated independently (C63) *)

From Verif Require Import Features Iso Main Spec SpecSub SpecFeat SpecAR SpecBest SpecFront SpecPool SpecGrow SpecFeed SpecHash
  SpecLine SpecMove SpecWhole SpecRenum SpecPiece GraphP FeatT ApiP ApiT DetT RuleT WholeT WholeU RenumT RenumU.

(** ** The free cells of the queues, boundary-priority pools *)
Section abs.
Context {A : Arith} (prio : list W) (bnd : list Z) (Hb3 : ∀ x b, bnd !! x = Some b → (0 <= b <= 3)%Z).
Implicit Types (p : pool) (aggl : list bool).

#[local] Instance is_free_dec aggl x : Decision (is_free aggl x).
Proof. unfold is_free. apply _. Defined.
Definition fq aggl p (l : nat) : list nat := filter (is_free aggl) (default [] (sp_q p !! l : option (list nat))).

Record pinv aggl p : Prop := {
  pi_bp : sp_bp p = true;
  pi_len : length (sp_q p) = 4;
  pi_top : top_ok bnd aggl p;
  pi_lev : ∀ l c, queued p l c → is_free aggl c → bnd !! c = Some (Z.of_nat l);
}.

Lemma fq_queued aggl p l c : c ∈ fq aggl p l ↔ is_free aggl c ∧ queued p l c.
Proof.
  unfold fq, queued. rewrite elem_of_list_filter. apply and_iff_compat_l. destruct (sp_q p !! l) as [q|]; simpl.
  - split; [by eauto|]. by intros (? & [= <-] & ?).
  - split; [by intros ?%elem_of_nil|]. by intros (? & ? & _).
Qed.
Lemma spent_fq aggl p l : spent aggl p l → fq aggl p l = [].
Proof.
  intros Hs. destruct (fq aggl p l) as [|c q] eqn:E; [done|]. exfalso.
  assert (c ∈ fq aggl p l) as Hc by (rewrite E; by left). apply fq_queued in Hc as [Hf Hq]. by apply (Hs c).
Qed.
Lemma filter_none (P : nat → Prop) `{∀ x, Decision (P x)} (l : list nat) : (∀ x, x ∈ l → ¬ P x) → filter P l = [].
Proof.
  induction l as [|x l IH]; intros HP; [done|]. rewrite filter_cons_False by (apply HP; by left). apply IH. intros y Hy. apply HP. by right.
Qed.
Lemma filter_all (P : nat → Prop) `{∀ x, Decision (P x)} (l : list nat) : (∀ x, x ∈ l → P x) → filter P l = l.
Proof.
  induction l as [|x l IH]; intros HP; [done|]. rewrite filter_cons_True by (apply HP; by left). f_equal. apply IH. intros y Hy. apply HP. by right.
Qed.
Lemma ss_filter (R : nat → nat → Prop) (P : nat → Prop) `{∀ x, Decision (P x)} (l : list nat) :
  StronglySorted R l → StronglySorted R (filter P l).
Proof.
  induction 1 as [|x l Hs IH Hx]; [constructor|]. rewrite filter_cons. destruct (decide (P x)); [|done].
  constructor; [done|]. rewrite Forall_forall in *. intros y [_ Hy]%elem_of_list_filter. by apply Hx.
Qed.
Lemma fq_left aggl p l q p' l' : left_with p l q p' → l < length (sp_q p) →
  fq aggl p' l' = if decide (l' = l) then filter (is_free aggl) q else fq aggl p l'.
Proof.
  intros -> Hl. unfold fq. simpl. destruct (decide (l' = l)) as [->|Hn].
  - by rewrite list_lookup_insert.
  - by rewrite list_lookup_insert_ne by done.
Qed.
Lemma emptied_fq aggl (P : nat → Prop) p p0 l : emptied P p p0 → (∀ l, P l ∨ ¬ P l) → (∀ l, P l → spent aggl p l) →
  fq aggl p0 l = fq aggl p l.
Proof.
  intros (_ & _ & HL & HE) HD HS. destruct (sp_q p !! l) as [q|] eqn:Eq.
  - destruct (HE _ _ Eq) as [E1 E2]. destruct (HD l) as [Hp|Hp].
    + rewrite (spent_fq _ _ _ (HS _ Hp)). unfold fq. by rewrite (E1 Hp).
    + unfold fq. by rewrite (E2 Hp), Eq.
  - assert (sp_q p0 !! l = None) as E0. { apply lookup_ge_None in Eq. apply lookup_ge_None. lia. }
    unfold fq. by rewrite Eq, E0.
Qed.
Lemma emptied_queued (P : nat → Prop) p p0 l c : emptied P p p0 → (∀ l, P l ∨ ¬ P l) → queued p0 l c → queued p l c.
Proof.
  intros (_ & _ & HL & HE) HD (q0 & Hq0 & Hc). destruct (sp_q p !! l) as [q|] eqn:Eq.
  - destruct (HE _ _ Eq) as [E1 E2]. destruct (HD l) as [Hp|Hp].
    + rewrite (E1 Hp) in Hq0. injection Hq0 as <-. by apply elem_of_nil in Hc.
    + exists q. rewrite (E2 Hp) in Hq0. by injection Hq0 as <-.
  - apply lookup_ge_None in Eq. apply lookup_lt_Some in Hq0. lia.
Qed.
Lemma taken_fq aggl p l s p' : taken aggl p l s p' → fq aggl p l = s :: fq aggl p' l ∧ (∀ l', l' ≠ l → fq aggl p' l' = fq aggl p l') ∧
  (∀ l' c, queued p' l' c → queued p l' c) ∧ sp_top p' = Some (Z.of_nat l) ∧ length (sp_q p') = length (sp_q p).
Proof.
  intros (Hf & pre & post & Hq & Hp & Hw). assert (l < length (sp_q p)) as Hl by by eapply lookup_lt_Some.
  split_and!.
  - rewrite (fq_left _ _ _ _ _ _ Hw Hl), decide_True by done. unfold fq. rewrite Hq. simpl.
    rewrite filter_app, (filter_none _ pre), filter_cons_True by done. done.
  - intros l' Hn. by rewrite (fq_left _ _ _ _ _ _ Hw Hl), decide_False by done.
  - intros l' c (q & Hq' & Hc). rewrite Hw in Hq'. simpl in Hq'. destruct (decide (l' = l)) as [->|Hn].
    + rewrite list_lookup_insert in Hq' by done. injection Hq' as <-. eexists. split; [done|].
      apply elem_of_app. right. by right.
    + rewrite list_lookup_insert_ne in Hq' by done. by exists q.
  - by rewrite Hw.
  - rewrite Hw. simpl. apply insert_length.
Qed.

(** [s] is the first free cell of the queue of level [b], or the most urgent one
    of those with [b] boundary faces if there is none in the queue. *)
Definition next_of aggl (b : Z) (q : list nat) (s : nat) (rest : list nat) : Prop :=
  q = s :: rest ∨ q = [] ∧ listing prio (λ x, is_free aggl x ∧ bnd !! x = Some b) (s :: rest).

Lemma takes_abs aggl p s p' : pinv aggl p → takes prio bnd aggl p s p' →
  pinv aggl p' ∧ ∃ b, highest_free bnd aggl b ∧ is_free aggl s ∧ bnd !! s = Some b ∧ (0 <= b <= 3)%Z ∧
    (∀ l, l ≠ Z.to_nat b → fq aggl p' l = fq aggl p l) ∧
    next_of aggl b (fq aggl p (Z.to_nat b)) s (fq aggl p' (Z.to_nat b)).
Proof using Hb3.
  intros [Hbp Hlen Htop Hlev] HT. destruct (takes_top prio bnd _ _ _ _ Hbp Htop HT) as [Htop' Hbp'].
  destruct HT as (t & Ht & HT).
  assert (∀ l, inspected p t l ↔ l = Z.to_nat t) as HI. { intros l. unfold inspected. by rewrite Hbp. }
  assert (∀ l, inspected p t l ∨ ¬ inspected p t l) as HD. { intros l. rewrite HI. lia. }
  destruct HT as [(l & p0 & H1 & H2 & H3 & H4)|(H1 & b & p0 & H2 & H3 & H4)].
  - assert (∀ l', (inspected p t l' ∧ l < l') ∨ ¬ (inspected p t l' ∧ l < l')) as HD'. { intros l'. rewrite HI. lia. }
    assert (∀ l', fq aggl p0 l' = fq aggl p l') as E0.
    { intros l'. eapply emptied_fq; [done|done|]. intros l2 [? ?]. by apply H2. }
    destruct (taken_fq _ _ _ _ _ H4) as (T1 & T2 & T3 & T4 & T5). apply HI in H1 as ->.
    assert (is_free aggl s ∧ queued p (Z.to_nat t) s) as [Hf Hq].
    { apply fq_queued. rewrite <- E0, T1. by left. }
    pose proof (Hlev _ _ Hq Hf) as Hb. pose proof (Htop _ _ _ Ht Hf Hb) as Hle. pose proof (Hb3 _ _ Hb).
    assert (Z.of_nat (Z.to_nat t) = t) as Et by lia. rewrite Et in Hb.
    split; [split; [done| |done|]|].
    + rewrite T5. destruct H3 as (_ & _ & -> & _). done.
    + intros l' c Hc. apply Hlev. apply T3 in Hc. by eapply emptied_queued.
    + exists t. split_and!; try done; try lia.
      * split; [by eauto|]. intros c b' Hc Hcb. by apply (Htop _ c).
      * intros l' Hn. by rewrite T2, E0.
      * left. by rewrite <- E0.
  - assert (∀ l', fq aggl p0 l' = fq aggl p l') as E0.
    { intros l'. eapply emptied_fq; [done|done|]. intros l2 ?. by apply H1. }
    assert (length (sp_q p0) = 4) as L0. { destruct H3 as (_ & _ & -> & _). done. }
    assert (∀ l' c, queued p0 l' c → is_free aggl c → bnd !! c = Some (Z.of_nat l')) as Hlev0.
    { intros l' c Hc. apply Hlev. by eapply emptied_queued. }
    assert (highest_free bnd aggl b) as HF.
    { destruct H2 as [[Htb (c & Hc & Hcb & _)]|[? _]]; [|done]. pose proof (Htop _ _ _ Ht Hc Hcb).
      split; [by eauto|]. intros c' b' Hc' Hcb'. pose proof (Htop _ _ _ Ht Hc' Hcb'). lia. }
    assert (0 <= b <= 3)%Z as Hb. { destruct HF as [(c & _ & Hc) _]. by eapply Hb3. }
    assert (Z.of_nat (Z.to_nat b) = b) as Eb by lia.
    destruct H4 as [H4|(Hs & rest & Hl & Hw)].
    + destruct (taken_fq _ _ _ _ _ H4) as (T1 & T2 & T3 & T4 & T5).
      assert (is_free aggl s ∧ queued p0 (Z.to_nat b) s) as [Hf Hq]. { apply fq_queued. rewrite T1. by left. }
      split; [split; [done|congruence|done|by eauto]|]. exists b. split_and!; try done; try lia.
      * rewrite (Hlev0 _ _ Hq Hf). by f_equal.
      * intros l' Hn. by rewrite T2, E0.
      * left. by rewrite <- E0.
    + assert (Z.to_nat b < length (sp_q p0)) as Hlt by lia.
      assert (∀ x, x ∈ s :: rest → is_free aggl x ∧ bnd !! x = Some b) as Hx by (intros x; apply Hl).
      destruct (Hx s) as [Hf Hsb]; [by left|].
      split.
      * split; [done| |done|].
        -- rewrite Hw. simpl. by rewrite insert_length.
        -- intros l' c (q & Hq & Hc) Hcf. rewrite Hw in Hq. simpl in Hq. destruct (decide (l' = Z.to_nat b)) as [->|Hn].
           ++ rewrite list_lookup_insert in Hq by done. injection Hq as <-. rewrite Eb. apply Hx. by right.
           ++ rewrite list_lookup_insert_ne in Hq by done. apply Hlev0; [by exists q|done].
      * exists b. split_and!; try done; try lia.
        -- intros l' Hn. by rewrite (fq_left _ _ _ _ _ _ Hw Hlt), decide_False, E0 by done.
        -- right. rewrite <- E0, (spent_fq _ _ _ Hs). split; [done|].
           rewrite (fq_left _ _ _ _ _ _ Hw Hlt), decide_True, (filter_all _ rest) by (done || (intros x Hxr; apply Hx; by right)). done.
Qed.

Lemma fed_abs (d : nat → option Z) (N : nat → Prop) (X : gset nat) aggl aggl' p p' : pinv aggl p → fed prio bnd d N p p' →
  (∀ x, N x → is_free aggl x ∧ x ∉ X) → (∀ x, is_free aggl' x ↔ is_free aggl x ∧ x ∉ X) →
  pinv aggl' p' ∧ ∀ l, ∃ add, fq aggl' p' l = filter (λ x, x ∉ X) (fq aggl p l) ++ add ∧
    (∀ x, x ∈ add ↔ l < 4 ∧ N x ∧ bnd !! x = Some (Z.of_nat l)) ∧ StronglySorted (queued_before prio bnd d) add.
Proof.
  intros [Hbp Hlen Htop Hlev] HF HN Hfr. destruct (fed_top prio bnd d N aggl p p' Hbp Htop HF) as [Htop' Hbp'].
  destruct HF as [(F1 & F1' & F1'') F2 F3].
  assert (∀ b, level_of p b = b) as HLv by (intros b; unfold level_of; by rewrite Hbp).
  split.
  - split; [done|congruence| |].
    + intros t x b Et Hx. apply Htop'; [done|]. by apply Hfr.
    + intros l c (q' & Hq' & Hc) Hcf. assert (l < length (sp_q p)) as Hl by (rewrite <- F1''; by eapply lookup_lt_Some).
      apply lookup_lt_is_Some in Hl as [q Hq]. destruct (F2 _ _ Hq) as (add & Ha & Hadd & _). rewrite Ha in Hq'.
      injection Hq' as <-. apply elem_of_app in Hc as [Hc|Hc]; [apply Hlev; [by exists q|by apply Hfr]|].
      apply Hadd in Hc as (_ & b & Hb & E). by rewrite HLv in E; subst.
  - intros l. destruct (decide (l < 4)) as [Hl|Hl].
    + assert (l < length (sp_q p)) as Hl' by lia. apply lookup_lt_is_Some in Hl' as [q Hq].
      destruct (F2 _ _ Hq) as (add & Ha & Hadd & Hs). exists add. unfold fq. rewrite Hq, Ha. simpl. split_and!; [| |done].
      * rewrite filter_app, (filter_all _ add).
        -- f_equal. clear -Hfr. induction q as [|x q IH]; [done|]. rewrite !filter_cons.
           destruct (decide (is_free aggl x)) as [H1|H1], (decide (is_free aggl' x)) as [H2|H2].
           ++ rewrite filter_cons_True by (by apply Hfr). by f_equal.
           ++ rewrite filter_cons_False; [done|]. rewrite Hfr in H2. tauto.
           ++ rewrite Hfr in H2. tauto.
           ++ done.
        -- intros x Hx. apply Hadd in Hx as [Hx _]. by apply Hfr, HN.
      * intros x. rewrite Hadd. setoid_rewrite HLv. split.
        -- intros (H1 & b & H2 & ->). done.
        -- intros (_ & H1 & H2). eauto.
    + exists []. assert (sp_q p !! l = None ∧ sp_q p' !! l = None) as [E1 E2].
      { split; apply lookup_ge_None; lia. }
      unfold fq. rewrite E1, E2. simpl. split_and!; [done| |constructor]. intros x. rewrite elem_of_nil. lia.
Qed.
End abs.

(** ** One piece and the whole mesh *)
Section sim.
Context {A : Arith} (WO : weak_order (@wlt A) (λ _, True)) (HT : ∀ a b : W, wlt a b = false → wlt b a = false → a = b).
Context (f h : nat → nat) (g1 g : graph) (HC : embeds f h g1 g) (EA : exact_arith) (ip : iso_params) (dim : nat).
Context (Hsym : ∀ x y, edge (g_row g) (g_col g) x y → edge (g_row g) (g_col g) y x).
Context (prio1 prio : list W) (mu : ∀ x y, more_urgent prio1 x y ↔ more_urgent prio (f x) (f y)).
Context (Hb3 : ∀ x b, g_bnd g !! x = Some b → (0 <= b <= 3)%Z).
Notation row := (g_row g). Notation col := (g_col g).
Notation mp := (mp f).
Let hf := ca_left _ _ _ _ HC.
Let Hb := ca_bnd _ _ _ _ HC.

(** [y] is a cell of the piece. *)
Definition im (y : nat) : Prop := f (h y) = y.
#[local] Instance im_dec y : Decision (im y).
Proof. unfold im. apply _. Defined.
Lemma im_f x : im (f x).
Proof using HC. unfold im. by rewrite hf. Qed.
Lemma im_edge x y : edge row col x y → im y → im x.
Proof using HC Hsym.
  intros He%Hsym Hy. unfold im in Hy. rewrite <- Hy in He. apply (ca_out _ _ _ _ HC) in He as (z & -> & _). apply im_f.
Qed.
Lemma im_edge' x y : edge row col x y → im x → im y.
Proof using HC Hsym. intros He. apply im_edge. by apply Hsym. Qed.

(** A coarse cell lies in the piece of its seed. *)
Lemma candidates_allowed allowed front cs L x : candidates g prio allowed front cs L → x ∈ L → x ∈ allowed.
Proof.
  unfold candidates. destruct front as [d|].
  - intros [HF _]. unfold front_candidates in HF. intros Hx. destruct (bool_decide _).
    + apply HF in Hx as (j & c & _ & _ & Ha & _). done.
    + destruct HF as [[-> _]|(j & _ & _ & HF & _)]; [by apply elem_of_nil in Hx|].
      apply HF in Hx as (c & _ & _ & Ha & _). done.
  - induction 1 as [|cs L c new HA IH HL]; intros Hx; [by apply elem_of_nil in Hx|].
    apply elem_of_app in Hx as [Hx|Hx]; [apply IH; by apply elem_of_list_filter in Hx as [_ ?]|].
    apply HL in Hx as (_ & ? & _). done.
Qed.
Lemma grown_in free seed X K dn : grown_cell ip g prio dim free seed X → hood ip g free seed K dn →
  ∀ x, x ∈ X → x = seed ∨ x ∈ dom dn.
Proof.
  intros [_ (K' & dn' & Hh' & HX)] Hh x Hx. rewrite (hood_unique _ _ _ _ _ _ _ _ Hh' Hh) in HX. cbn zeta in HX.
  destruct (bool_decide _).
  - rewrite HX in Hx. apply elem_of_union in Hx as [Hx|?]; [left; by apply elem_of_singleton in Hx|by right].
  - destruct HX as (l & C & k & _ & _ & Hp & _ & _ & ->). apply elem_of_list_to_set in Hx.
    assert (x ∈ seed :: l) as Hx'. { rewrite <- (take_drop k (seed :: l)). apply elem_of_app. by left. }
    apply elem_of_cons in Hx' as [->|Hl]; [by left|right]. apply elem_of_list_lookup in Hl as [j Hj].
    destruct (Hp _ _ Hj) as (L & look & HL & _ & (pre & post & -> & _)). eapply candidates_allowed; [done|].
    apply elem_of_app. right. by left.
Qed.
Lemma walk_im free seed j x : walk (edge row col) free (λ z, z = seed) j x → im x ↔ im seed.
Proof using HC Hsym.
  induction 1 as [x ->|j x y Hw IH He Hy]; [done|]. rewrite <- IH. split; [by apply im_edge|by apply im_edge'].
Qed.
Lemma hood_im free seed K dn x : hood ip g free seed K dn → x ∈ dom dn → im x ↔ im seed.
Proof using HC Hsym.
  intros [HD _ _] [v Hv]%elem_of_dom. apply HD in Hv as (_ & j & _ & _ & Hw & _). by eapply walk_im.
Qed.
Lemma grown_im free seed X K dn : grown_cell ip g prio dim free seed X → hood ip g free seed K dn →
  ∀ x, x ∈ X → im x ↔ im seed.
Proof using HC Hsym.
  intros Hg Hh x Hx. destruct (grown_in _ _ _ _ _ Hg Hh x Hx) as [->|Hd]; [done|]. by eapply hood_im.
Qed.

(** The queue of a level, seen from the piece, is the same in both runs, unless
    no free cell of the piece is above that level; then it may be empty in one of
    the runs and contain all the cells in the other. *)
Definition alike (aggl1 : list bool) (l : nat) (q1 q : list nat) : Prop :=
  q = f <$> q1 ∨
  ∃ all, listing prio1 (λ x, is_free aggl1 x ∧ g_bnd g1 !! x = Some (Z.of_nat l)) all ∧
    (∀ x b, is_free aggl1 x → g_bnd g1 !! x = Some b → (b <= Z.of_nat l)%Z) ∧
    (q1 = [] ∨ q1 = all) ∧ (q = [] ∨ q = f <$> all).

Record sim (aggl1 : list bool) (p1 : pool) (aggl : list bool) (p : pool) : Prop := {
  sm_free : ∀ x, is_free aggl (f x) ↔ is_free aggl1 x;
  sm_inv1 : pinv (g_bnd g1) aggl1 p1;
  sm_inv : pinv (g_bnd g) aggl p;
  sm_q : ∀ l, l < 4 → alike aggl1 l (fq aggl1 p1 l) (filter im (fq aggl p l));
}.

Lemma Hb31 x b : g_bnd g1 !! x = Some b → (0 <= b <= 3)%Z.
Proof using HC Hb3. rewrite <- Hb. apply Hb3. Qed.

Lemma im_list (l : list nat) : (∀ x, x ∈ l → im x) → l = f <$> (h <$> l).
Proof.
  induction l as [|x l IH]; intros HI; [done|]. rewrite !fmap_cons. f_equal; [symmetry; apply HI; by left|].
  apply IH. intros y Hy. apply HI. by right.
Qed.
Lemma listing_filter (P1 P : nat → Prop) l : (∀ x, P (f x) ↔ P1 x) → listing prio P l →
  ∃ l1, filter im l = f <$> l1 ∧ listing prio1 P1 l1.
Proof using HC mu.
  intros HP [H1 H2]. exists (h <$> filter im l). assert (filter im l = f <$> (h <$> filter im l)) as E.
  { apply im_list. by intros x [? _]%elem_of_list_filter. }
  split; [done|]. split.
  - intros x. rewrite <- HP, <- H1, <- (in_fmap f h hf), <- E, elem_of_list_filter. pose proof (im_f x). tauto.
  - assert (StronglySorted (more_urgent prio) (filter im l)) as Hs by by apply ss_filter.
    rewrite E in Hs. revert Hs. generalize (h <$> filter im l). clear -mu.
    induction l as [|x l IH]; intros Hs; [constructor|]. rewrite fmap_cons in Hs.
    apply StronglySorted_inv in Hs as [Hs Hx]. constructor; [by apply IH|].
    rewrite Forall_fmap in Hx. eapply Forall_impl; [done|]. intros y. cbv beta. by rewrite mu.
Qed.

Lemma free_b (aggl1 aggl : list bool) b : (∀ x, is_free aggl (f x) ↔ is_free aggl1 x) →
  ∀ x, (is_free aggl (f x) ∧ g_bnd g !! f x = Some b) ↔ is_free aggl1 x ∧ g_bnd g1 !! x = Some b.
Proof using HC. intros fr x. by rewrite fr, Hb. Qed.
Lemma free_listing (aggl1 aggl : list bool) b l1 l : (∀ x, is_free aggl (f x) ↔ is_free aggl1 x) →
  listing prio (λ x, is_free aggl x ∧ g_bnd g !! x = Some b) l →
  listing prio1 (λ x, is_free aggl1 x ∧ g_bnd g1 !! x = Some b) l1 → filter im l = f <$> l1.
Proof using HC WO mu.
  intros fr HL H1. destruct (listing_filter (λ x, is_free aggl1 x ∧ g_bnd g1 !! x = Some b) _ _
    (free_b _ _ _ fr) HL) as (l2 & -> & H2).
  by rewrite (listing_unique WO _ _ _ _ H1 H2).
Qed.

(** A seed outside the piece. *)
Lemma sim_out aggl1 p1 aggl p s p' (X : gset nat) d N p2 aggl' : sim aggl1 p1 aggl p → takes prio (g_bnd g) aggl p s p' → ¬ im s →
  fed prio (g_bnd g) d N p' p2 → (∀ x, N x → is_free aggl x ∧ x ∉ X) → (∀ x, is_free aggl' x ↔ is_free aggl x ∧ x ∉ X) →
  (∀ x, x ∈ X → ¬ im x) → (∀ x, N x → ¬ im x) → sim aggl1 p1 aggl' p2.
Proof using HC WO mu Hb3.
  intros [fr I1 I Hq] Ht Hs Hf HN Hfr HX HNi.
  destruct (takes_abs prio (g_bnd g) Hb3 _ _ _ _ I Ht) as (I' & b & Hhi & Hsf & Hsb & Hb4 & Hoth & Hnext).
  destruct (fed_abs prio (g_bnd g) d N X _ _ _ _ I' Hf HN Hfr) as (I2 & Hadd).
  split; [|done|done|].
  { intros x. rewrite Hfr, fr. split; [by intros [? _]|]. intros Hx. split; [done|]. intros HxX. by apply (HX _ HxX), im_f. }
  intros l Hl. destruct (Hadd l) as (add & -> & Ha & _).
  assert (filter im (filter (λ x, x ∉ X) (fq aggl p' l) ++ add) = filter im (fq aggl p' l)) as ->.
  { rewrite filter_app, (filter_none im add), app_nil_r by (intros x Hx; apply Ha in Hx as (_ & Hx & _); by apply HNi).
    generalize (fq aggl p' l). clear -HX. induction l as [|x l IH]; [done|]. rewrite !filter_cons.
    destruct (decide (x ∉ X)) as [Hn|Hn]; [by rewrite !filter_cons, IH|]. rewrite IH.
    rewrite decide_False; [done|]. apply HX. destruct (decide (x ∈ X)); [done|]. by destruct Hn. }
  destruct (decide (l = Z.to_nat b)) as [->|Hn]; [|by rewrite Hoth; auto].
  destruct Hnext as [Hnext|[Hnil Hlist]].
  - specialize (Hq _ Hl). rewrite Hnext, filter_cons_False in Hq by done. done.
  - specialize (Hq _ Hl). rewrite Hnil, filter_nil in Hq.
    assert (Z.of_nat (Z.to_nat b) = b) as Eb by lia.
    destruct (listing_filter (λ x, is_free aggl1 x ∧ g_bnd g1 !! x = Some b) _ _
      (free_b _ _ _ fr) Hlist) as (all & Eall & Hall).
    rewrite filter_cons_False in Eall by done. right. exists all. rewrite Eb. split_and!; [done| | |by right].
    + intros x b' Hx Hxb. destruct Hhi as [_ Hhi]. apply (Hhi (f x)); [by apply fr|by rewrite Hb].
    + destruct Hq as [Hq|(all' & Hall' & _ & Hq & _)].
      * left. by destruct (fq aggl1 p1 (Z.to_nat b)).
      * rewrite Eb in Hall'. by rewrite (listing_unique WO _ _ _ _ Hall Hall').
Qed.

(** A seed in the piece. *)
Lemma sim_seed aggl1 p1 aggl p s p' s1 p1' : sim aggl1 p1 aggl p → takes prio (g_bnd g) aggl p s p' → im s →
  takes prio1 (g_bnd g1) aggl1 p1 s1 p1' →
  s = f s1 ∧ pinv (g_bnd g1) aggl1 p1' ∧ pinv (g_bnd g) aggl p' ∧
  ∀ l, l < 4 → filter im (fq aggl p' l) = f <$> fq aggl1 p1' l.
Proof using HC WO mu Hb3.
  intros [fr I1 I Hq] Ht Hs Ht1.
  destruct (takes_abs prio (g_bnd g) Hb3 _ _ _ _ I Ht) as (I' & b & Hhi & Hsf & Hsb & Hb4 & Hoth & Hnext).
  destruct (takes_abs prio1 (g_bnd g1) Hb31 _ _ _ _ I1 Ht1) as (I1' & b1 & Hhi1 & Hsf1 & Hsb1 & _ & Hoth1 & Hnext1).
  assert (is_free aggl1 (h s)) as Hhs. { apply fr. by rewrite Hs. }
  assert (g_bnd g1 !! h s = Some b) as Hhb. { rewrite <- Hb. by rewrite Hs. }
  assert (b1 = b) as ->.
  { destruct Hhi as [_ Hhi], Hhi1 as [_ Hhi1]. pose proof (Hhi1 _ _ Hhs Hhb).
    assert (b1 <= b)%Z; [|lia]. apply (Hhi (f s1)); [by apply fr|by rewrite Hb]. }
  assert (Z.of_nat (Z.to_nat b) = b) as Eb by lia. assert (Z.to_nat b < 4) as Hlt by lia.
  assert (s :: filter im (fq aggl p' (Z.to_nat b)) = f <$> s1 :: fq aggl1 p1' (Z.to_nat b)) as E.
  { assert (s :: filter im (fq aggl p' (Z.to_nat b)) = filter im (s :: fq aggl p' (Z.to_nat b))) as ->
      by by rewrite filter_cons_True.
    pose proof (Hq _ Hlt) as Hql. unfold next_of in *. destruct Hql as [Hql|(all & Hall & _ & Q1 & Q)].
    - destruct Hnext as [Hnext|[Hnil Hlist]], Hnext1 as [Hnext1|[Hnil1 Hlist1]].
      + by rewrite <- Hnext, <- Hnext1.
      + rewrite Hnext, Hnil1, filter_cons_True in Hql by done. done.
      + by rewrite Hnil, Hnext1 in Hql.
      + by apply (free_listing aggl1 aggl b).
    - rewrite Eb in Hall.
      assert (s1 :: fq aggl1 p1' (Z.to_nat b) = all) as ->.
      { destruct Hnext1 as [Hnext1|[Hnil1 Hlist1]]; [|by apply (listing_unique WO _ _ _ _ Hlist1 Hall)].
        rewrite <- Hnext1. destruct Q1 as [Q1|Q1]; [|done]. by rewrite Hnext1 in Q1. }
      destruct Hnext as [Hnext|[Hnil Hlist]].
      + rewrite <- Hnext. destruct Q as [Q|Q]; [|done]. by rewrite Hnext, filter_cons_True in Q by done.
      + by apply (free_listing aggl1 aggl b). }
  rewrite fmap_cons in E. injection E as -> E. split_and!; [done|done|done|].
  intros l Hl. destruct (decide (l = Z.to_nat b)) as [->|Hn]; [done|]. rewrite Hoth, Hoth1 by done.
  destruct (Hq _ Hl) as [Hql|(all & Hall & Hle & Q1 & Q)]; [done|].
  assert (all = []) as ->.
  { destruct all as [|x all]; [done|]. exfalso. destruct (proj1 (proj1 Hall x)) as [Hxf Hxb]; [by left|].
    destruct Hhi1 as [_ Hhi1]. pose proof (Hhi1 _ _ Hxf Hxb). pose proof (Hle _ _ Hhs Hhb). lia. }
  destruct Q1 as [-> | ->], Q as [-> | ->]; done.
Qed.

Lemma sim_fed aggl1 p1 aggl p (X1 : gset nat) d1 d N1 N p1' p' aggl1' aggl' : (∀ x, is_free aggl (f x) ↔ is_free aggl1 x) →
  pinv (g_bnd g1) aggl1 p1 → pinv (g_bnd g) aggl p → (∀ l, l < 4 → filter im (fq aggl p l) = f <$> fq aggl1 p1 l) →
  fed prio1 (g_bnd g1) d1 N1 p1 p1' → fed prio (g_bnd g) d N p p' →
  (∀ x, N1 x → is_free aggl1 x ∧ x ∉ X1) → (∀ x, is_free aggl1' x ↔ is_free aggl1 x ∧ x ∉ X1) →
  (∀ x, N x → is_free aggl x ∧ x ∉ mp X1) → (∀ x, is_free aggl' x ↔ is_free aggl x ∧ x ∉ mp X1) →
  (∀ x, N (f x) ↔ N1 x) → (∀ x, N x → im x) → (∀ x, d (f x) = d1 x) → sim aggl1' p1' aggl' p'.
Proof using HC WO mu.
  intros fr I1 I Hq F1 F HN1 Hfr1 HN Hfr HNN HNi Hd.
  destruct (fed_abs prio1 (g_bnd g1) d1 N1 X1 _ _ _ _ I1 F1 HN1 Hfr1) as (I1' & Hadd1).
  destruct (fed_abs prio (g_bnd g) d N (mp X1) _ _ _ _ I F HN Hfr) as (I' & Hadd).
  split; [|done|done|].
  { intros x. by rewrite Hfr, Hfr1, fr, (mp_in f h hf). }
  intros l Hl. left. destruct (Hadd l) as (add & -> & Ha & Hs), (Hadd1 l) as (add1 & -> & Ha1 & Hs1).
  rewrite fmap_app, filter_app. f_equal.
  - rewrite <- (filter_map f (λ x, x ∉ X1) (λ x, x ∉ mp X1)) by (intros x; by rewrite (mp_in f h hf)).
    rewrite <- Hq by done. rewrite !list_filter_filter. apply list_filter_iff. intros x. tauto.
  - rewrite (filter_all im add) by (intros x Hx; apply Ha in Hx as (_ & Hx & _); by apply HNi).
    eapply sorted_unique; [apply (queued_before_asym WO prio (g_bnd g) d)|done| |].
    + eapply ss_map, Hs1. intros x y. unfold queued_before. rewrite !Hd, !Hb.
      intros [?|(E & bx & b_y & H1 & H2 & H3)]; [by left|right]. split; [done|]. exists bx, b_y. split_and!; [done|done|].
      destruct H3 as [?|[-> ?]]; [by left|right]. split; [done|]. by apply mu.
    + intros y. rewrite Ha, elem_of_list_fmap. setoid_rewrite Ha1. split.
      * intros (H1 & H2 & H3). pose proof (HNi _ H2) as Hy. exists (h y). rewrite Hy. split; [done|].
        rewrite <- HNN, <- Hb, Hy. done.
      * intros (x & -> & H1 & H2 & H3). by rewrite HNN, Hb.
Qed.

(** The coarse cells [l1] of the piece among those of the whole mesh. *)
Inductive among : list (gset nat) → list (gset nat) → Prop :=
| am_nil : among [] []
| am_in X l1 l : among l1 l → among (X :: l1) (mp X :: l)
| am_out X l1 l : (∀ x, f x ∉ X) → among l1 l → among l1 (X :: l).

Lemma sim_sequence aggl p Xs : sequence ip g prio dim aggl p Xs → ∀ aggl1 p1 X1s, sim aggl1 p1 aggl p →
  sequence ip g1 prio1 dim aggl1 p1 X1s → among X1s Xs.
Proof using HC WO HT EA Hsym mu Hb3.
  induction 1 as [aggl p He|aggl p s p' X K dn p2 aggl' Xs Ht Hg Hh Hf Hl Hfr Hs IH]; intros aggl1 p1 X1s HS H1.
  - inversion H1 as [|? ? s1 ? ? ? ? ? ? ? T1 G1]; subst; [constructor|]. exfalso. destruct G1 as [Hsf _].
    apply (He (f s1)). by apply (sm_free _ _ _ _ HS).
  - destruct (decide (im s)) as [Hi|Hi].
    + assert (is_free aggl s) as Hsf by apply Hg.
      inversion H1 as [? ? Hn|? ? s1 p1' X1 K1 dn1 p12 aggl1' X1s' T1 G1 Hh1 F1 L1 Hfr1 S1]; subst.
      { exfalso. apply (Hn (h s)). apply (sm_free _ _ _ _ HS). by rewrite Hi. }
      destruct (sim_seed _ _ _ _ _ _ _ _ HS Ht Hi T1) as (-> & I1 & I & Hq).
      assert (mu' : ∀ x y, more_urgent prio1 x y → more_urgent prio (f x) (f y)) by (intros; by apply mu).
      pose proof (ca_grown f h g1 g HC EA ip dim prio1 prio mu' _ _ _ _ (sm_free _ _ _ _ HS) G1) as G2.
      pose proof (grown_unique2 WO HT _ _ _ _ _ _ _ _ Hg G2) as ->.
      pose proof (ca_hood f h g1 g HC ip _ _ _ _ _ (sm_free _ _ _ _ HS) Hh1) as Hh2.
      pose proof (hood_unique _ _ _ _ _ _ _ _ Hh Hh2) as ->.
      constructor. eapply IH, S1. pose proof (f_inj f h hf) as finj.
      eapply (sim_fed aggl1 p1' aggl p' X1); [apply HS|done|done|done|exact F1|exact Hf| |done| |done| | |].
      * by intros x (? & ? & _).
      * by intros x (? & ? & _).
      * intros x. cbv beta. rewrite (sm_free _ _ _ _ HS), (mp_in f h hf). do 2 (apply and_iff_compat_l). split.
        -- intros (y & (y' & -> & Hy)%mp_image & Hed). exists y'. by rewrite (ca_edge f h _ _ HC) in Hed.
        -- intros (y & Hy & Hed). exists (f y). by rewrite (mp_in f h hf), (ca_edge f h _ _ HC).
      * intros x (_ & _ & y & (y' & -> & _)%mp_image & (z & -> & _)%(ca_out f h _ _ HC)). apply im_f.
      * intros x. cbv beta. by rewrite (lookup_kmap f).
    + apply am_out.
      { intros x Hx. apply Hi. rewrite <- (grown_im _ _ _ _ _ Hg Hh _ Hx). apply im_f. }
      eapply IH, H1. eapply (sim_out _ _ _ _ s p' X); [done|done|done|exact Hf| |done| |].
      * by intros x (? & ? & _).
      * intros x Hx. by rewrite (grown_im _ _ _ _ _ Hg Hh _ Hx).
      * intros x (_ & _ & y & Hy & Hed) Hx. apply Hi. rewrite <- (grown_im _ _ _ _ _ Hg Hh _ Hy). by eapply im_edge.
Qed.

Lemma among_index l1 l : among l1 l → ∃ m : nat → nat, (∀ j k, j < k → m j < m k) ∧
  (∀ k X, l1 !! k = Some X → l !! m k = Some (mp X)) ∧ (∀ k, length l1 ≤ k → length l ≤ m k).
Proof.
  induction 1 as [|X l1 l HA (m & M1 & M2 & M3)|X l1 l Hn HA (m & M1 & M2 & M3)].
  - exists id. split_and!; [done|done|]. simpl. lia.
  - exists (λ k, match k with O => O | S k => S (m k) end). split_and!.
    + intros [|j] [|k] Hjk; try lia. pose proof (M1 j k). lia.
    + intros [|k] Y Hk; simpl in *; [by injection Hk as ->|by apply M2].
    + intros [|k] Hk; simpl in *; [lia|]. pose proof (M3 k). lia.
  - exists (λ k, S (m k)). split_and!.
    + intros j k Hjk. pose proof (M1 j k). lia.
    + intros k Y Hk. by apply M2.
    + intros k Hk. simpl. pose proof (M3 k). lia.
Qed.
End sim.
