(** * FeedP: how the queues of seeds change (C45) *)

From Verif Require Import SpecSub SpecFeat SpecBest SpecGrow SpecFeed NeighP IsoP AnisoP.
From Verif Require Export PoolT.

(** Lists sorted by key. *)
Lemma sorted_cat {T} (R : T → T → Prop) (l1 l2 : list T) :
  StronglySorted R l1 → StronglySorted R l2 → (∀ x y, x ∈ l1 → y ∈ l2 → R x y) →
  StronglySorted R (l1 ++ l2).
Proof.
  induction 1 as [|x l1 H1 IH Hall]; intros H2 H12; [done|]. simpl. constructor.
  - apply IH; [done|]. intros. apply H12; [by right|done].
  - rewrite Forall_forall in *. intros y. rewrite elem_of_app. intros [?|?]; [auto|]. apply H12; [left|done].
Qed.
Lemma sorted_of_lookup {T} (R : T → T → Prop) (l : list T) :
  (∀ i j x y, i < j → l !! i = Some x → l !! j = Some y → R x y) → StronglySorted R l.
Proof.
  induction l as [|x l IH]; intros Hl; [constructor|]. constructor.
  - apply IH. intros i j a b Hij Ha Hb. apply (Hl (S i) (S j)); [lia|done..].
  - apply Forall_forall. intros y Hy. apply elem_of_list_lookup in Hy as [j Hj]. apply (Hl 0 (S j)); [lia|done..].
Qed.
Lemma sorted_mono {T} (R R' : T → T → Prop) (l : list T) :
  (∀ x y, x ∈ l → y ∈ l → R x y → R' x y) → StronglySorted R l → StronglySorted R' l.
Proof.
  intros HR. induction 1 as [|x l Hs IH Hall]; constructor.
  - apply IH. intros y z Hy Hz. apply HR; by right.
  - rewrite Forall_forall in *. intros y Hy. apply HR; [left|by right|auto].
Qed.

Section groups.
Notation asc := (StronglySorted (λ x y : Z * gset nat, (x.1 < y.1)%Z)).
Lemma byord_insert_spec k x m : asc m →
  asc (byord_insert k x m) ∧
  ∀ k' s', (k', s') ∈ byord_insert k x m ↔
    k' ≠ k ∧ (k', s') ∈ m ∨
    k' = k ∧ ((∃ s, (k, s) ∈ m ∧ s' = {[x]} ∪ s) ∨ (∀ s, (k, s) ∉ m) ∧ s' = {[x]}).
Proof.
  induction m as [|[k0 s0] m IH]; intros Hs; simpl.
  { split; [repeat constructor|]. intros k' s'. rewrite elem_of_list_singleton.
    split.
    - intros [= -> ->]. right. split; [done|]. right. split; [|done]. intros s Hin.
      by apply elem_of_nil in Hin.
    - intros [[_ Hin]|[-> [(s & Hin & _)|[_ ->]]]]; [by apply elem_of_nil in Hin..|done]. }
  apply StronglySorted_inv in Hs as [Hs Hall]. rewrite Forall_forall in Hall.
  destruct (IH Hs) as [IH1 IH2]. clear IH.
  assert (∀ s, (k0, s) ∉ m) as Hk0.
  { intros s Hin. apply Hall in Hin. simpl in Hin. lia. }
  case_bool_decide as H1; [|case_bool_decide as H2].
  - assert (∀ s, (k, s) ∉ m) as Hk.
    { intros s Hin. apply Hall in Hin. simpl in Hin. lia. }
    split.
    + constructor; [constructor; [done|]|].
      * by apply Forall_forall.
      * apply Forall_forall. intros [k1 s1] Hin. apply elem_of_cons in Hin as [[= -> ->]|Hin]; [done|].
        apply Hall in Hin. simpl in *. lia.
    + intros k' s'. rewrite !elem_of_cons. split.
      * intros [[= -> ->]|[[= -> ->]|Hin]].
        -- right. split; [done|]. right. split; [|done].
           intros s. rewrite elem_of_cons. intros [[= ? ?]|Hin]; [lia|by eapply Hk].
        -- left. split; [lia|by left].
        -- left. split; [|by right]. intros ->. by eapply Hk.
      * intros [[? [?|?]]|[-> [(s & Hin & _)|[_ ->]]]]; [by auto..| |by left].
        apply elem_of_cons in Hin as [[= ? ?]|Hin]; [lia|by destruct (Hk s)].
  - split.
    + constructor; [done|]. apply Forall_forall. intros [k1 s1] Hin. apply IH2 in Hin.
      destruct Hin as [[_ Hin]|[-> _]]; [|done]. by apply Hall in Hin.
    + intros k' s'. rewrite !elem_of_cons, IH2. split.
      * intros [[= -> ->]|[[? ?]|[-> [(s & Hin & ->)|[Hno ->]]]]].
        -- left. split; [lia|by left].
        -- left. split; [done|by right].
        -- right. split; [done|]. left. exists s. split; [by right|done].
        -- right. split; [done|]. right. split; [|done]. intros s.
           rewrite elem_of_cons. intros [[= ? ?]|Hin]; [lia|by eapply Hno].
      * intros [[? [?|?]]|[-> [(s & Hin & ->)|[Hno ->]]]]; [by auto..| |].
        -- apply elem_of_cons in Hin as [[= ? ?]|Hin]; [lia|]. right. right. split; [done|].
           left. by exists s.
        -- right. right. split; [done|]. right. split; [|done]. intros s Hin. apply (Hno s). by right.
  - assert (k0 = k) as -> by lia. split.
    + constructor; [done|]. by apply Forall_forall.
    + intros k' s'. rewrite !elem_of_cons. split.
      * intros [[= -> ->]|Hin].
        -- right. split; [done|]. left. exists s0. split; [left|done].
        -- left. split; [intros ->; by eapply Hk0|by right].
      * intros [[? [[= ? ?]|?]]|[-> [(s & Hin & ->)|[Hno ->]]]]; [done|by right| |].
        -- apply elem_of_cons in Hin as [[= ->]|Hin]; [by left|by destruct (Hk0 s)].
        -- destruct (Hno s0). left.
Qed.
Lemma asc_fun m k s s' : asc m → (k, s) ∈ m → (k, s') ∈ m → s = s'.
Proof.
  induction 1 as [|y m Hs IH Hall]; intros H1 H2; [by apply elem_of_nil in H1|]. rewrite Forall_forall in Hall.
  apply elem_of_cons in H1 as [H1|H1]; apply elem_of_cons in H2 as [H2|H2].
  - congruence.
  - subst y. apply Hall in H2. simpl in H2. lia.
  - subst y. apply Hall in H1. simpl in H1. lia.
  - auto.
Qed.

(** Cells by distance. *)
Record by_dist (dn : gmap nat Z) (l : list nat) (r : list (Z * gset nat) * gset nat) : Prop := {
  bd_asc : asc r.1;
  bd_elem : ∀ k s, (k, s) ∈ r.1 → ∀ y, y ∈ s ↔ y ∈ l ∧ dn !! y = Some k;
  bd_all : ∀ y k, y ∈ l → dn !! y = Some k → ∃ s, (k, s) ∈ r.1;
  bd_lost : ∀ y, y ∈ r.2 ↔ y ∈ l ∧ dn !! y = None;
}.
Lemma split_dist (dn : gmap nat Z) (l : list nat) :
  by_dist dn l (foldl (λ '(m, lost) n,
      match dn !! n with
      | Some o => (byord_insert o n m, lost)
      | None => (m, {[n]} ∪ lost)
      end) ([], ∅) l).
Proof.
  induction l as [|x l IH] using rev_ind.
  { split; simpl; [constructor|..].
    - intros k s Hin. by apply elem_of_nil in Hin.
    - intros y k Hin. by apply elem_of_nil in Hin.
    - set_solver. }
  rewrite foldl_app. cbn [foldl]. destruct (foldl _ _ l) as [m lost]. destruct IH as [I1 I2 I3 I4]. cbn [fst snd] in *.
  destruct (dn !! x) as [o|] eqn:Hx; cbn [fst snd].
  2:{ split; cbn [fst snd]; [done|..].
      - intros k s Hin y. rewrite (I2 _ _ Hin), elem_of_app, elem_of_list_singleton. split; [naive_solver|].
        intros [[?| ->] ?]; [done|congruence].
      - intros y k. rewrite elem_of_app, elem_of_list_singleton. intros [Hy| ->] Hk; [eauto|congruence].
      - intros y. rewrite elem_of_union, elem_of_singleton, I4, elem_of_app, elem_of_list_singleton. naive_solver. }
  destruct (byord_insert_spec o x m I1) as [J1 J2]. split; cbn [fst snd]; [done|..].
  - intros k s Hin y. rewrite elem_of_app, elem_of_list_singleton.
    apply J2 in Hin as [[Hk Hin]|[-> [(s0 & Hin & ->)|[Hno ->]]]].
    + rewrite (I2 _ _ Hin). split; [naive_solver|]. intros [[?| ->] ?]; [done|congruence].
    + rewrite elem_of_union, elem_of_singleton, (I2 _ _ Hin). split; [intros [->|[? ?]]; auto|].
      intros [[?| ->] ?]; auto.
    + rewrite elem_of_singleton. split; [intros ->; auto|]. intros [[Hy| ->] Hk]; [|done].
      destruct (I3 _ _ Hy Hk) as [s Hs]. by apply Hno in Hs.
  - intros y k. rewrite elem_of_app, elem_of_list_singleton. intros Hy Hk. destruct (decide (k = o)) as [->|Hne].
    + destruct (decide (Exists (λ e : Z * gset nat, e.1 = o) m)) as [Hex|Hno].
      * apply Exists_exists in Hex as ([k' s] & Hks & Heq). simpl in Heq. subst k'.
        exists ({[x]} ∪ s). apply J2. right. split; [done|]. left. by exists s.
      * exists {[x]}. apply J2. right. split; [done|]. right. split; [|done]. intros s Hs. apply Hno, Exists_exists.
        by exists (o, s).
    + destruct Hy as [Hy| ->]; [|congruence]. destruct (I3 _ _ Hy Hk) as [s Hs]. exists s. apply J2. by left.
  - intros y. rewrite I4, elem_of_app, elem_of_list_singleton. split; [naive_solver|]. intros [[?| ->] ?]; [done|congruence].
Qed.
End groups.

Section feed.
Context {A : Arith} {H : HashOrder}.
Context (prio : list W) (bnd : list Z) (HD : pool_data prio bnd).
Notation n := (length bnd).
Implicit Types (p : pool) (aggl : list bool) (d : nat → option Z) (N : nat → Prop).
Notation Hp := (pd_len _ _ HD).
Notation Hb3 := (pd_bnd _ _ HD).
Notation Hord := (pd_weak prio bnd HD).

Lemma good_urgent s : good_pset prio s → StronglySorted (more_urgent prio) (map fst s).
Proof using HD.
  intros Hs. apply sorted_of_lookup. intros i j x y Hij Hx Hy.
  assert (x ∈ map fst s ∧ y ∈ map fst s) as [Hx' Hy'] by (split; by eapply elem_of_list_lookup_2).
  apply (good_fst_elem prio _ _ Hs) in Hx' as (wx & Hwx & _).
  apply (good_fst_elem prio _ _ Hs) in Hy' as (wy & Hwy & _).
  exists wx, wy. split; [done|]. split; [done|].
  pose proof (good_prio_sorted prio s Hs) as Hps.
  destruct (wlt wy wx) eqn:Hw; [by left|]. right. destruct (Hps i j x y wx wy Hij Hx Hy Hwx Hwy) as [?|[? ?]]; [congruence|done].
Qed.

(** ** Feeding *)

Lemma push_all (f : Z → Z) (m : list (Z * list (nat * W))) q :
  length q = 4 → (∀ e, e ∈ m → (0 <= f e.1 <= 3)%Z) →
  wp (foldM (λ q '(k, s), push_back q (f k) (map fst s)) m q) (λ q', length q' = 4 ∧
    ∀ l old, q !! l = Some old →
      q' !! l = Some (old ++ concat ((λ e : Z * list (nat * W), map fst e.2) <$> filter (λ e, f e.1 = Z.of_nat l) m))).
Proof using.
  clear. revert q. induction m as [|[k s] m IH]; intros q Hq Hf; cbn [foldM].
  { simpl. split; [done|]. intros l old Hl. by rewrite app_nil_r. }
  assert (0 <= f k <= 3)%Z as Hk by (apply (Hf (k, s)); left).
  wstep. eapply wp_mono; [by apply push_back_ok|]. intros q1 [Hl1 Hq1].
  eapply wp_mono; [apply IH; [done|]; intros; apply Hf; by right|]. intros q2 [Hl2 Hq2]. split; [done|].
  intros l old Hold. rewrite filter_cons. cbn [fst]. case_decide as Hc.
  - rewrite (Hq2 l (old ++ map fst s)).
    + simpl. by rewrite app_assoc.
    + apply Hq1. rewrite decide_True by lia. eauto.
  - apply Hq2. apply Hq1. rewrite decide_False; [done|]. intros ->. apply Hc. lia.
Qed.

Lemma nearer_irr (o : option Z) : ¬ nearer o o.
Proof using. destruct o as [z|]; unfold nearer; [lia|]. intros Hx. exact Hx. Qed.

Lemma level_ins p b : level_of p b = ins_level p b.
Proof using. done. Qed.

Lemma order_fed d v p (new : gset nat) :
  pool_wf bnd p → sp_top p ≠ None → (∀ c, c ∈ new → c < n) → (∀ c, c ∈ new → d c = v) →
  wp (order_new_seeds_and_update prio bnd p new) (fed prio bnd d (λ c, c ∈ new) p).
Proof using HD.
  intros Hw Htop Hnew Hd. unfold order_new_seeds_and_update. wstep.
  eapply wp_mono; [by apply (by_bnd_ok prio bnd Hp Hb3 Hord)|]. intros m Hm. cbn zeta.
  set (p1 := if sp_bp p then
             match m with
             | [] => p
             | (mb, _) :: _ =>
                 match sp_top p with
                 | Some t => if bool_decide (t < mb)%Z then set_top p (Some mb) else p
                 | None => set_top p (Some mb)
                 end
             end
           else p).
  assert (∀ e, e ∈ m → (0 <= e.1 <= 3)%Z ∧ ∃ c, c ∈ new ∧ bnd !! c = Some e.1) as Hk3.
  { intros [k s] Hks. destruct (bm_good _ _ _ _ Hm _ _ Hks) as [_ Hne]. destruct s as [|[c w] s]; [done|].
    destruct (bm_elem _ _ _ _ Hm k _ c Hks) as [Hc1 Hc]; [left|]. cbn [fst]. split; [by eapply Hb3|eauto]. }
  assert (∀ c b, c ∈ new → bnd !! c = Some b → ∃ s, (b, s) ∈ m) as Hall.
  { intros c b Hc Hb. destruct (bm_all _ _ _ _ Hm _ _ Hc Hb) as (s & Hs & _). eauto. }
  assert (sp_q p1 = sp_q p ∧ sp_bp p1 = sp_bp p ∧ sp_one p1 = sp_one p ∧
    (sp_bp p = false → sp_top p1 = sp_top p) ∧
    (sp_bp p = true → ∃ t t', sp_top p = Some t ∧ sp_top p1 = Some t' ∧ (t <= t')%Z ∧
      (∀ x b, x ∈ new → bnd !! x = Some b → (b <= t')%Z) ∧ (t' = t ∨ ∃ x, x ∈ new ∧ bnd !! x = Some t')))
    as (Hq1 & Hb1 & Ho1 & Ht2 & Ht3).
  { unfold p1. destruct (sp_top p) as [t|] eqn:Ht; [|done]. destruct (sp_bp p) eqn:Hk; [|done].
    destruct m as [|[mb s] m'].
    { split_and!; try done. intros _. exists t, t. split_and!; [done|done|lia| |by left].
      intros x b Hx Hb. destruct (Hall _ _ Hx Hb) as [s Hs]. by apply elem_of_nil in Hs. }
    assert (∀ x b, x ∈ new → bnd !! x = Some b → (b <= mb)%Z) as Hmb.
    { intros x b Hx Hb. destruct (Hall _ _ Hx Hb) as [s' Hs']. apply elem_of_cons in Hs' as [[= -> ->]|Hs']; [lia|].
      pose proof (bm_sorted _ _ _ _ Hm) as Hso. apply StronglySorted_inv in Hso as [_ Hso]. rewrite Forall_forall in Hso.
      apply Hso in Hs'. simpl in Hs'. lia. }
    destruct (Hk3 (mb, s)) as (_ & c & Hc & Hcb); [left|]. cbn [fst] in Hcb.
    case_bool_decide as Htm; simpl; split_and!; try done; intros _.
    - exists t, mb. split_and!; [done|done|lia|done|right; eauto].
    - exists t, t. split_and!; [done|done|lia| |by left]. intros x b Hx Hb. specialize (Hmb _ _ Hx Hb). lia. }
  assert (∀ k, (if sp_bp p1 then k else match sp_top p1 with Some t => Z.min k t | None => k end)
    = level_of p k) as Hlv.
  { intros k. unfold level_of. rewrite Hb1. destruct (sp_bp p) eqn:Hk; [done|]. by rewrite Ht2. }
  wstep. eapply wp_mono.
  { rewrite (foldM_ext _ (λ q '(k, s), push_back q (level_of p k) (map fst s))).
    - rewrite Hq1. apply push_all; [apply Hw|]. intros e He. destruct (Hk3 _ He) as [He3 _].
      pose proof (ins_level_range _ bnd Hp p e.1 Hw He3). rewrite level_ins. lia.
    - intros [k s] q _. by rewrite Hlv. }
  intros q' [Hl' Hq']. simpl. split; cbn [sp_bp sp_one sp_q sp_top set_q].
  - split_and!; [done..|]. by rewrite Hl', (pw_len _ _ Hw).
  - intros l q Hq. eexists. split; [by apply Hq'|]. split.
    + intros x. rewrite elem_of_concat. setoid_rewrite elem_of_list_fmap. split.
      * intros (ys & Hx & [k s] & -> & Hks). apply elem_of_list_filter in Hks as [Hlk Hks]. cbn [fst snd] in *.
        destruct (bm_elem _ _ _ _ Hm _ _ _ Hks Hx) as [Hx1 Hx2]. eauto.
      * intros (Hx & b & Hb & Hbl). destruct (bm_all _ _ _ _ Hm _ _ Hx Hb) as (s & Hs & Hxs).
        exists (map fst s). split; [done|]. exists (b, s). split; [done|]. apply elem_of_list_filter. done.
    + assert (∀ m', m' ⊆ m → StronglySorted (λ x y : Z * list (nat * W), (y.1 < x.1)%Z) m' →
        StronglySorted (queued_before prio bnd d) (concat ((λ e : Z * list (nat * W), map fst e.2) <$>
          filter (λ e, level_of p e.1 = Z.of_nat l) m'))) as Hgen.
      2:{ apply Hgen; [done|]. apply (bm_sorted _ _ _ _ Hm). }
      clear Hq' Hl'. induction m' as [|[k s] m' IH]; intros Hsub Hso; [constructor|].
      assert ((k, s) ∈ m) as Hks by (apply Hsub; left).
      apply StronglySorted_inv in Hso as [Hso Hlt]. rewrite Forall_forall in Hlt.
      assert (m' ⊆ m) as Hsub' by (intros e He; apply Hsub; by right).
      specialize (IH Hsub' Hso). rewrite filter_cons. case_decide; [|done]. cbn [fmap list_fmap concat].
      apply sorted_cat; [|exact IH|].
      * eapply sorted_mono; [|apply good_urgent, (bm_good _ _ _ _ Hm _ _ Hks)].
        intros x y Hx Hy Hu. cbn [snd] in *. destruct (bm_elem _ _ _ _ Hm _ _ _ Hks Hx) as [Hx1 Hx2].
        destruct (bm_elem _ _ _ _ Hm _ _ _ Hks Hy) as [Hy1 Hy2]. right. split; [by rewrite !Hd|].
        exists k, k. split_and!; [done..|]. right. done.
      * intros x y Hx Hy. apply elem_of_concat in Hy as (ys & Hy & Hys). apply elem_of_list_fmap in Hys as ([k' s'] & -> & Hks').
        apply elem_of_list_filter in Hks' as [_ Hks']. cbn [snd] in *.
        destruct (bm_elem _ _ _ _ Hm _ _ _ Hks Hx) as [Hx1 Hx2].
        destruct (bm_elem _ _ _ _ Hm _ _ _ (Hsub' _ Hks') Hy) as [Hy1 Hy2]. right. split; [by rewrite !Hd|].
        exists k, k'. split_and!; [done..|]. left. apply Hlt in Hks'. done.
  - destruct (sp_bp p) eqn:Hk; auto.
Qed.

Lemma fed_nil d N p : pool_wf bnd p → sp_top p ≠ None → (∀ x, ¬ N x) → fed prio bnd d N p p.
Proof using.
  clear. intros Hw Ht HN. split.
  - done.
  - intros l q Hq. exists []. rewrite app_nil_r. split_and!; [done| |constructor]. intros x. rewrite elem_of_nil. split; [done|].
    intros [Hx _]. by apply HN in Hx.
  - destruct (sp_bp p); [|done]. destruct (sp_top p) as [t|]; [|done]. exists t, t. split_and!; [done|done|lia| |by left].
    intros x b Hx. by apply HN in Hx.
Qed.
Lemma fed_wf d N p p' : pool_wf bnd p → sp_top p ≠ None → fed prio bnd d N p p' → pool_wf bnd p' ∧ sp_top p' ≠ None.
Proof using HD.
  intros Hw Ht [(K1 & K2 & K3) Hq Htop]. split; [split|].
  - by rewrite K3, (pw_len _ _ Hw).
  - intros l c (q' & Hq' & Hc). destruct (lookup_lt_is_Some_2 (sp_q p) l) as [q Hql].
    { rewrite <- K3. by eapply lookup_lt_Some. }
    destruct (Hq l q Hql) as (add & Ha & Hel & _). rewrite Ha in Hq'. injection Hq' as <-.
    apply elem_of_app in Hc as [Hc|Hc]; [apply (pw_cell _ _ Hw); by exists q|].
    apply Hel in Hc as (_ & b & Hb & Hl). exists b. split; [done|]. rewrite <- Hl.
    apply (ins_level_range _ bnd Hp p b Hw). by eapply Hb3.
  - intros t Ht'. destruct (sp_bp p).
    + destruct Htop as (t0 & t1 & E0 & E1 & Hle & _ & Hor). rewrite Ht' in E1. injection E1 as <-.
      destruct Hor as [->|(x & _ & Hx)]; [by apply (pw_top _ _ Hw)|by eapply Hb3].
    + rewrite Htop in Ht'. by apply (pw_top _ _ Hw).
  - destruct (sp_bp p); [|by rewrite Htop]. destruct Htop as (t0 & t1 & E0 & E1 & _). by rewrite E1.
Qed.
Lemma fed_comp d N1 N2 p p1 p2 :
  fed prio bnd d N1 p p1 → fed prio bnd d N2 p1 p2 →
  (∀ x y, N1 x → N2 y → queued_before prio bnd d x y) →
  fed prio bnd d (λ x, N1 x ∨ N2 x) p p2.
Proof using.
  clear. intros [(K1 & K2 & K3) Q1 T1] [(L1 & L2 & L3) Q2 T2] Hb.
  assert (∀ b, level_of p1 b = level_of p b) as Hlv.
  { intros b. unfold level_of. rewrite K1. destruct (sp_bp p); [done|]. by rewrite T1. }
  split.
  - split_and!; congruence.
  - intros l q Hq. destruct (Q1 l q Hq) as (a1 & Ha1 & He1 & Hs1). destruct (Q2 l _ Ha1) as (a2 & Ha2 & He2 & Hs2).
    exists (a1 ++ a2). split_and!; [by rewrite app_assoc| |].
    + intros x. rewrite elem_of_app, He1, He2. setoid_rewrite Hlv. tauto.
    + apply sorted_cat; [done..|]. intros x y Hx Hy. apply Hb; [by apply He1|by apply He2].
  - rewrite K1 in T2. destruct (sp_bp p); [|congruence].
    destruct T1 as (t & t1 & E1 & E2 & Hle & Hall & Hor). destruct T2 as (t1' & t2 & F1 & F2 & Gle & Gall & Gor).
    rewrite E2 in F1. injection F1 as <-. exists t, t2. split_and!; [done|done|lia| |].
    + intros x b [Hx|Hx] Hxb; [|eauto]. specialize (Hall _ _ Hx Hxb). lia.
    + destruct Gor as [->|(x & Hx & Hxb)]; [|right; eauto]. destruct Hor as [->|(x & Hx & Hxb)]; [by left|right; eauto].
Qed.
Lemma before_ext d d' (x y : nat) : d x = d' x → d y = d' y → queued_before prio bnd d x y → queued_before prio bnd d' x y.
Proof using. unfold queued_before. intros -> ->. done. Qed.
Lemma fed_ext d d' N N' p p' :
  (∀ x, N x ↔ N' x) → (∀ x, N x → d x = d' x) → fed prio bnd d N p p' → fed prio bnd d' N' p p'.
Proof using.
  clear. intros HN Hd [K Q T]. split; [done|..].
  - intros l q Hq. destruct (Q l q Hq) as (a & Ha & He & Hs). exists a. split_and!; [done| |].
    + intros x. by rewrite He, HN.
    + eapply sorted_mono; [|exact Hs]. intros x y Hx Hy. apply before_ext; apply Hd; by apply He.
  - destruct (sp_bp p); [|done]. destruct T as (t & t' & E1 & E2 & Hle & Hall & Hor). exists t, t'.
    split_and!; [done..| |].
    + intros x b Hx. apply Hall. by apply HN.
    + destruct Hor as [?|(x & Hx & ?)]; [by left|right]. exists x. split; [by apply HN|done].
Qed.
End feed.

Section pool.
Context {A : Arith} {H : HashOrder}.
Context (g : graph) (prio : list W) (WF : wfg g) (HD : pool_data prio (g_bnd g)).
Notation bnd := (g_bnd g).
Context (Hlen : length bnd = g_n g).

Lemma feed_pool_fed p cc (dn : gmap nat Z) aggl :
  pool_wf bnd p → sp_top p ≠ None → length aggl = g_n g → (∀ x, x ∈ cc → x < g_n g) →
  wp (feed_pool g prio p cc dn aggl) (fed prio bnd (λ x, dn !! x)
    (λ y, is_free aggl y ∧ y ∉ cc ∧ ∃ x, x ∈ cc ∧ edge (g_row g) (g_col g) x y) p).
Proof.
  intros Hw Ht Hag Hcc. unfold feed_pool.
  wstep. eapply wp_mono; [by apply neighbourhood_of_cc_ok|]. intros ns Hns.
  assert (∀ y, y ∈ ns → y < length bnd) as Hlt.
  { intros y Hy. apply Hns in Hy as (_ & Hf & _). apply lookup_lt_Some in Hf. by rewrite Hlen, <- Hag. }
  assert (∀ y, y ∈ ns ↔ is_free aggl y ∧ y ∉ cc ∧ ∃ x, x ∈ cc ∧ edge (g_row g) (g_col g) x y) as Hns'.
  { intros y. cbn beta in Hns. rewrite Hns. unfold is_free. setoid_rewrite elem_of_adj. tauto. }
  clear Hns. pose proof (split_dist dn (hset s_keys ns)) as Hsp.
  destruct (foldl _ _ _) as [m lost]. destruct Hsp as [S1 S2 S3 S4]. cbn [fst snd] in *.
  setoid_rewrite elem_of_hset in S2. setoid_rewrite elem_of_hset in S3. setoid_rewrite elem_of_hset in S4.
  wstep. eapply wp_mono.
  { apply (wp_foldM _ (λ (pre : list (Z * gset nat)) p', fed prio bnd (λ x, dn !! x)
      (λ y, ∃ e, e ∈ pre ∧ y ∈ e.2) p p')).
    { apply fed_nil; [done..|]. intros x (e & He & _). by apply elem_of_nil in He. }
    intros pre [k s] post p1 Heq Hf. destruct (fed_wf prio bnd HD _ _ _ _ Hw Ht Hf) as [Hw1 Ht1].
    assert ((k, s) ∈ m) as Hks by (rewrite Heq; set_solver).
    assert (∀ y, (∃ e : Z * gset nat, e ∈ pre ++ [(k, s)] ∧ y ∈ e.2) ↔ (∃ e : Z * gset nat, e ∈ pre ∧ y ∈ e.2) ∨ y ∈ s) as Hex.
    { intros y. split.
      - intros (e & He & Hy). apply elem_of_app in He as [He|He]; [left; eauto|]. apply elem_of_list_singleton in He as ->. by right.
      - intros [(e & He & Hy)|Hy]; [exists e|exists (k, s)]; (split; [|done]); apply elem_of_app; [by left|right; left]. }
    case_bool_decide as Hse.
    { simpl. eapply fed_ext; [|reflexivity|exact Hf]. intros y. rewrite Hex, Hse. set_solver. }
    eapply wp_mono.
    { apply (order_fed prio bnd HD (λ x, dn !! x) (Some k)); [done|done| |].
      - intros c Hc. by apply Hlt, (S2 _ _ Hks).
      - intros c Hc. by apply (S2 _ _ Hks). }
    intros p2 Hf2. eapply fed_ext; [|reflexivity|eapply fed_comp; [exact Hf|exact Hf2|]].
    - intros y. cbn beta. by rewrite Hex.
    - intros x y ([k' s'] & He & Hx) Hy. left. cbn [snd] in Hx.
      assert ((k', s') ∈ m) as Hks' by (rewrite Heq; set_solver).
      apply (S2 _ _ Hks') in Hx as [_ ->]. apply (S2 _ _ Hks) in Hy as [_ ->]. simpl.
      rewrite Heq in S1. clear -S1 He. induction pre as [|e pre IH]; [by apply elem_of_nil in He|].
      simpl in S1. apply StronglySorted_inv in S1 as [S1 S2]. apply elem_of_cons in He as [<-|He]; [|by apply IH].
      rewrite Forall_forall in S2. apply (S2 (k, s)). apply elem_of_app. right. left. }
  intros p1 Hf. destruct (fed_wf prio bnd HD _ _ _ _ Hw Ht Hf) as [Hw1 Ht1].
  assert (∀ y, ((∃ e : Z * gset nat, e ∈ m ∧ y ∈ e.2) ∨ y ∈ lost) ↔ y ∈ ns) as Hall.
  { intros y. split.
    - intros [([k s] & He & Hy)|Hy]; [by apply (S2 _ _ He) in Hy as [? _]|by apply S4 in Hy as [? _]].
    - intros Hy. destruct (dn !! y) as [k|] eqn:Hk; [left|right; by apply S4].
      destruct (S3 _ _ Hy Hk) as [s Hs]. exists (k, s). split; [done|]. by apply (S2 _ _ Hs). }
  case_bool_decide as Hlo.
  { simpl. eapply fed_ext; [|reflexivity|exact Hf]. intros y. cbn beta. rewrite <- Hns', <- Hall, Hlo. set_solver. }
  eapply wp_mono.
  { apply (order_fed prio bnd HD (λ x, dn !! x) None); [done|done| |].
    - intros c Hc. apply Hlt. by apply S4 in Hc as [? _].
    - intros c Hc. by apply S4 in Hc as [_ ?]. }
  intros p2 Hf2. eapply fed_ext; [|reflexivity|eapply fed_comp; [exact Hf|exact Hf2|]].
  - intros y. cbn beta. by rewrite <- Hns', <- Hall.
  - intros x y ([k s] & He & Hx) Hy. left. apply (S2 _ _ He) in Hx as [_ ->]. apply S4 in Hy as [_ ->]. done.
Qed.
End pool.
