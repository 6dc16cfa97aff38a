(** * StartP: the queues when isotropic agglomeration starts (C45) *)

From Verif Require Import SpecSub SpecFeat SpecBest SpecGrow SpecFeed IsoP AnisoP.
From Verif Require Export TakeP.

Section start.
Context {A : Arith} {H : HashOrder}.
Context (prio : list W) (bnd : list Z) (HD : pool_data prio bnd).
Notation n := (length bnd).
Implicit Types (p : pool) (aggl : list bool).
Notation Hp := (pd_len _ _ HD).
Notation Hb3 := (pd_bnd _ _ HD).
Notation Hord := (pd_weak prio bnd HD).

(** ** Initialisation *)

Lemma full_listing mb :
  wp (full_init prio bnd mb) (listing prio (λ x, ∃ b, bnd !! x = Some b ∧ (mb <= b)%Z)).
Proof using HD.
  pose proof Hp as Hpl. unfold full_init. wstep. eapply wp_mono.
  { apply (wp_foldM _ (λ (pre : list nat) s, good_pset prio s ∧
      ∀ c, c ∈ map fst s ↔ c ∈ pre ∧ ∃ b, bnd !! c = Some b ∧ (mb <= b)%Z)).
    { split; [apply good_nil|]. intros c. simpl. rewrite elem_of_nil. naive_solver. }
    intros pre i post s Hseq [Hs Hel].
    assert (i < n) as Hi.
    { assert (i ∈ seq 0 n) as Hi' by (rewrite Hseq; set_solver).
      apply elem_of_seq in Hi'. lia. }
    wstep. apply wp_vget; [lia|]. intros x Hx. case_bool_decide as Hxz.
    - wstep. apply wp_vget; [lia|]. intros w Hwt. simpl. split; [by apply good_insert; [apply Hord|..]|].
      intros c. rewrite pset_insert_fst, Hel, elem_of_app, elem_of_list_singleton. simpl.
      split; [|tauto]. intros [->|?]; [|tauto]. eauto.
    - simpl. split; [done|]. intros c. rewrite Hel, elem_of_app, elem_of_list_singleton.
      split; [tauto|]. intros [[?| ->] (b & Hf & ?)]; [by eauto|]. rewrite Hx in Hf. by simplify_eq. }
  simpl. intros s [Hs Hel]. split; [|by apply (good_urgent prio bnd HD)].
  intros c. rewrite Hel. split; [tauto|]. intros Hc. split; [|done].
  destruct Hc as (b & Hc & _). apply elem_of_seq. apply lookup_lt_Some in Hc. lia.
Qed.

Lemma one_listing mb :
  (∀ w, w ∈ prio → wlt w wminv = false) → (∃ c b, bnd !! c = Some b ∧ (mb <= b)%Z) →
  wp (one_point_init prio bnd mb) (λ l, ∃ l',
    listing prio (λ x, ∃ b, bnd !! x = Some b ∧ (mb <= b)%Z) l' ∧ l = take 1 l').
Proof using HD.
  intros Hpos Hex. eapply wp_mono; [apply (one_point_init_ok prio bnd Hp Hb3 Hord mb Hpos Hex)|].
  intros l (c & b & w & -> & Hc & Hle & Hw & Hmin).
  pose proof (full_listing mb) as Hf. apply wp_eq in Hf as (l' & _ & Hl' & Hs). exists l'. split; [done|].
  destruct l' as [|h l']. { exfalso. assert (c ∈ []) as Hc' by (apply Hl'; eauto). by apply elem_of_nil in Hc'. }
  cbn [take]. do 2 f_equal. destruct (decide (c = h)) as [->|Hne]; [done|]. exfalso.
  assert (c ∈ h :: l') as Hin by (apply Hl'; eauto). apply elem_of_cons in Hin as [?|Hin]; [done|].
  apply StronglySorted_inv in Hs as [_ Hs]. rewrite Forall_forall in Hs.
  destruct (Hs c Hin) as (wh & wc & Hwh & Hwc & Hu). rewrite Hw in Hwc. injection Hwc as <-.
  assert (h ∈ h :: l') as Hh by left. apply Hl' in Hh as (bh & Hbh & Hleh).
  specialize (Hmin h bh wh Hbh Hleh Hwh). unfold pair_gt in Hmin. cbn [fst snd] in Hmin.
  destruct Hu as [Hu|(Hu1 & Hu2 & Hlt)].
  - by rewrite Hu in Hmin.
  - rewrite Hu1, Hu2 in Hmin. apply bool_decide_eq_false in Hmin. lia.
Qed.

Lemma initialize_eq p :
  pool_wf bnd p → (sp_one p = true → ∀ w, w ∈ prio → wlt w wminv = false) →
  (∀ t, sp_top p = Some t → ∃ c b, bnd !! c = Some b ∧ (t <= b)%Z) →
  wp (pool_initialize prio bnd p) (λ p', ∃ t,
    (sp_top p = Some t ∨ sp_top p = None ∧ highest_bnd bnd t) ∧ initialised prio bnd p t p').
Proof using HD.
  intros Hw Hpos Hex. unfold pool_initialize. wstep.
  assert (wp (match sp_top p with Some t => Ok t | None => max_bnd bnd end) (λ t,
    (0 <= t <= 3)%Z ∧ (∃ c b, bnd !! c = Some b ∧ (t <= b)%Z) ∧
    (sp_top p = Some t ∨ sp_top p = None ∧ highest_bnd bnd t))) as Htop.
  { destruct (sp_top p) as [t|] eqn:Ht.
    - simpl. split_and!; [by apply (pw_top _ _ Hw)..|by apply Hex|by left].
    - eapply wp_mono; [apply (max_bnd_ok bnd), HD|]. simpl. intros m [[c Hc] Hm]. split_and!.
      + by apply Hb3 in Hc as [? ?].
      + by apply Hb3 in Hc as [? ?].
      + exists c, m. split; [done|lia].
      + right. split; [done|]. split; [by eapply elem_of_list_lookup_2|]. intros b' Hb'.
        apply elem_of_list_lookup in Hb' as [c' Hc']. eauto. }
  eapply wp_mono; [apply Htop|]. clear Htop. intros t (Ht3 & Hext & Ht).
  wstep. apply wp_vgetZ; [rewrite (pw_len _ _ Hw); lia|]. intros old Hold. wstep.
  assert (wp (if sp_one p then one_point_init prio bnd t else full_init prio bnd t) (λ l, ∃ l',
    listing prio (λ x, ∃ b, bnd !! x = Some b ∧ (t <= b)%Z) l' ∧ l = if sp_one p then take 1 l' else l')) as Hinit.
  { destruct (sp_one p).
    - apply one_listing; [by apply Hpos|done].
    - eapply wp_mono; [apply full_listing|]. intros l Hl. by exists l. }
  eapply wp_mono; [apply Hinit|]. clear Hinit. intros l (l' & Hl' & ->). wstep.
  unfold push_back. wstep. apply wp_vgetZ; [rewrite (pw_len _ _ Hw); lia|]. intros old' Hold'.
  rewrite Hold in Hold'. injection Hold' as <-. rewrite vsetZ_ok by (rewrite (pw_len _ _ Hw); lia). cbn [wp].
  exists t. split; [done|]. exists l', old. split_and!; [done..|]. unfold left_with, set_top, set_q. simpl.
  by rewrite Z2Nat.id by lia.
Qed.

(** ** After the anisotropic cells *)

Section update.
Context (bp one : bool) (b0 : Z) (Hb0 : (0 <= b0 <= 3)%Z).
Notation lv := (level_of (Pool (replicate 4 []) (Some b0) one bp)).
Definition queues (l : list nat) : list (list nat) :=
  (λ k, filter (λ y, lv <$> bnd !! y = Some (Z.of_nat k)) l) <$> seq 0 4.

Lemma level_range b : (0 <= b <= 3)%Z → (0 <= lv b <= 3)%Z.
Proof using Hb0. intros Hb. unfold level_of. cbn [sp_bp sp_top]. destruct bp; lia. Qed.
Lemma queues_snoc pre s b : bnd !! s = Some b →
  wp (push_back (queues pre) (lv b) [s]) (λ q, q = queues (pre ++ [s])).
Proof using HD Hb0.
  intros Hs. pose proof (level_range b (Hb3 _ _ Hs)) as Hr. unfold push_back. wstep.
  assert (length (queues pre) = 4) as Hl by (unfold queues; by rewrite fmap_length, seq_length).
  apply wp_vgetZ; [rewrite Hl; lia|]. intros old Hold. rewrite vsetZ_ok by (rewrite Hl; lia). cbn [wp].
  apply list_eq. intros k. destruct (decide (k < 4)) as [Hk|Hk].
  2:{ rewrite !lookup_ge_None_2; [done|..]; rewrite ?insert_length; unfold queues; rewrite fmap_length, seq_length; lia. }
  assert (∀ l, queues l !! k = Some (filter (λ y, lv <$> bnd !! y = Some (Z.of_nat k)) l)) as Hq.
  { intros l. unfold queues. rewrite list_lookup_fmap, lookup_seq_lt by done. done. }
  rewrite Hq, filter_app. destruct (decide (k = Z.to_nat (lv b))) as [->|Hne].
  - rewrite list_lookup_insert by (rewrite Hl; lia). rewrite Hq in Hold. injection Hold as <-. do 2 f_equal.
    rewrite filter_cons_True; [done|]. rewrite Hs. change (Some (lv b) = Some (Z.of_nat (Z.to_nat (lv b)))). by rewrite Z2Nat.id by lia.
  - rewrite list_lookup_insert_ne by done. rewrite Hq. rewrite filter_cons_False; [by rewrite filter_nil, app_nil_r|].
    rewrite Hs. change (Some (lv b) ≠ Some (Z.of_nat k)). intros Hx. assert (lv b = Z.of_nat k) by congruence. lia.
Qed.

Lemma queues_elem l k y : k < 4 → (∃ q, queues l !! k = Some q ∧ y ∈ q) ↔ y ∈ l ∧ ∃ b, bnd !! y = Some b ∧ lv b = Z.of_nat k.
Proof using.
  clear. intros Hk. unfold queues. rewrite list_lookup_fmap, lookup_seq_lt by done. cbn. split.
  - intros (q & [= <-] & Hy). apply elem_of_list_filter in Hy as [Hy ?]. split; [done|].
    destruct (bnd !! y) as [b|]; [|done]. exists b. cbn in Hy. by injection Hy as ->.
  - intros (Hy & b & Hb & Hl). eexists. split; [done|]. apply elem_of_list_filter. split; [|done]. rewrite Hb. cbn. by rewrite Hl.
Qed.

Lemma pool_update_eq x nb : bnd !! x = Some b0 → (∀ y, y ∈ nb → y < n) →
  wp (pool_update bnd (set_top (pool_new bp one) (Some b0)) (x :: nb)) (λ p, ∃ t,
    (if bp then (∃ y, y ∈ x :: nb ∧ bnd !! y = Some t) ∧ (∀ y b', y ∈ x :: nb → bnd !! y = Some b' → (b' <= t)%Z)
     else t = b0) ∧ p = Pool (queues (x :: nb)) (Some t) one bp).
Proof using HD Hb0.
  intros Hx Hnb. assert (∀ y, y ∈ x :: nb → y < n) as Hlt.
  { intros y Hy. apply elem_of_cons in Hy as [->|Hy]; [by eapply lookup_lt_Some|auto]. }
  assert (replicate 4 [] = queues []) as Hq0 by done.
  unfold pool_update. cbn [set_top pool_new sp_bp sp_q sp_top]. change N_CELL_TYPES with 4. destruct bp eqn:Ebp.
  - wstep. eapply wp_mono.
    { apply (wp_foldM _ (λ (pre : list nat) '((mb, q) : Z * list (list nat)),
        (0 <= mb)%Z ∧ (mb = 0%Z ∨ ∃ y, y ∈ pre ∧ bnd !! y = Some mb) ∧
        (∀ y b', y ∈ pre → bnd !! y = Some b' → (b' <= mb)%Z) ∧ q = queues pre)).
      { split_and!; [lia|by left| |by rewrite Hq0]. intros y b' Hy. by apply elem_of_nil in Hy. }
      intros pre y post [mb q] Heq (I1 & I2 & I3 & ->).
      assert (y < n) as Hy by (apply Hlt; rewrite Heq; set_solver).
      wstep. apply wp_vget; [done|]. intros b Hb. wstep.
      eapply wp_mono; [pose proof (queues_snoc pre y b Hb) as Hs; rewrite Ebp in Hs; exact Hs|].
      intros q ->. cbn [wp]. pose proof (Hb3 _ _ Hb).
      split_and!; [case_bool_decide; lia| | |done].
      - case_bool_decide; [right; exists y; set_solver|]. destruct I2 as [?|(y' & ? & ?)]; [by left|right; exists y'; set_solver].
      - intros y' b' Hy' Hb'. apply elem_of_app in Hy' as [Hy'|Hy'].
        + specialize (I3 _ _ Hy' Hb'). case_bool_decide; lia.
        + apply elem_of_list_singleton in Hy' as ->. rewrite Hb in Hb'. injection Hb' as <-. case_bool_decide; lia. }
    intros [mb q] (I1 & I2 & I3 & ->). cbn [wp set_q set_top sp_top sp_q sp_one sp_bp]. exists mb.
    assert (b0 <= mb)%Z as Hle by (apply (I3 x); [left|done]). split_and!.
    + destruct I2 as [->|?]; [|done]. exists x. split; [left|]. rewrite Hx. f_equal. lia.
    + done.
    + case_bool_decide; [done|]. assert (b0 = mb) as -> by lia. done.
  - wstep. eapply wp_mono.
    { apply (wp_foldM _ (λ (pre : list nat) (q : list (list nat)), q = queues pre)); [by rewrite Hq0|].
      intros pre y post q Heq ->. assert (y < n) as Hy by (apply Hlt; rewrite Heq; set_solver).
      wstep. apply wp_vget; [done|]. intros b Hb. pose proof (queues_snoc pre y b Hb) as Hs. rewrite Ebp in Hs. exact Hs. }
    intros q ->. cbn [wp]. exists b0. done.
Qed.
End update.

Lemma update_started g ct nb bp one :
  g_bnd g = bnd → length (ct_aggl ct) = n → (∀ x, x ∈ nb → x < n) →
  (one = true → ∀ w, w ∈ prio → wlt w wminv = false) →
  wp (update_seeds_pool g prio ct nb (pool_new bp one))
    (started prio bnd bp one (ct_aggl ct) (filter (λ x, ct_aggl ct !! x = Some false) nb)).
Proof using HD.
  intros Hg Hal Hnb Hpos. unfold update_seeds_pool. rewrite Hg. wstep.
  eapply wp_mono.
  { apply (wp_foldM _ (λ (pre acc : list nat), acc = filter (λ x, ct_aggl ct !! x = Some false) pre)); [done|].
    intros pre x post acc Heq ->. assert (x < n) as Hx by (apply Hnb; rewrite Heq; set_solver).
    wstep. apply wp_vget; [by rewrite Hal|]. intros [] Hb; cbn [wp]; rewrite filter_app.
    - rewrite (filter_cons_False (λ x, ct_aggl ct !! x = Some false)) by congruence. by rewrite filter_nil, app_nil_r.
    - by rewrite (filter_cons_True (λ x, ct_aggl ct !! x = Some false)). }
  intros nb' ->. set (fr := filter (λ x, ct_aggl ct !! x = Some false) nb).
  assert (∀ x, x ∈ fr → ct_aggl ct !! x = Some false ∧ x < n) as Hfr.
  { intros x Hx. apply elem_of_list_filter in Hx as [? ?]. auto. }
  clearbody fr. clear Hnb nb. destruct fr as [|x fr].
  - rewrite bind_ok. unfold need_initialization. cbn -[pool_initialize].
    eapply wp_mono; [apply initialize_eq|].
    + apply pool_new_wf.
    + done.
    + done.
    + intros p (t & [?|[_ Ht]] & Hi); [done|]. exists t. done.
  - destruct (Hfr x) as [Hxf Hx]; [left|]. wstep. unfold n_bnd. rewrite Hg. wstep. apply wp_vget; [done|]. intros b Hb.
    eapply wp_mono; [apply pool_update_eq; [by eapply Hb3|done|]|].
    { intros y Hy. apply Hfr. by right. }
    intros p (t & Ht & ->). set (p1 := Pool (queues bp one b (x :: fr)) (Some t) one bp).
    assert (0 <= b <= 3)%Z as Hb03 by (by eapply Hb3).
    assert (0 <= t <= 3)%Z as Ht3.
    { destruct bp; [|by subst]. destruct Ht as [(y & _ & Hy) _]. by eapply Hb3. }
    assert (pool_wf bnd p1) as Hw1.
    { split; simpl.
      - done.
      - intros l c (q & Hq & Hc). simpl in Hq. assert (l < 4) as Hl.
        { apply lookup_lt_Some in Hq. unfold queues in Hq. by rewrite fmap_length, seq_length in Hq. }
        destruct (proj1 (queues_elem bp one b (x :: fr) l c Hl)) as (_ & bc & Hbc & Hlv); [by exists q|].
        exists bc. split; [done|]. unfold level_of in Hlv. simpl in Hlv. destruct bp; lia.
      - intros ? [= <-]. done. }
    assert (pool_is_empty p1 = false) as Hne.
    { apply (inq_not_empty p1 (Z.to_nat b) x). apply (queues_elem bp one b (x :: fr) (Z.to_nat b) x); [lia|].
      split; [left|]. exists b. split; [done|]. unfold level_of. simpl. destruct bp; lia. }
    wstep. unfold need_initialization. rewrite Hne. cbn [sp_top p1 orb]. rewrite bool_decide_false by done.
    cbn [sp_bp]. unfold started. destruct bp eqn:Ebp.
    2:{ cbn. exists b, t. done. }
    wstep. eapply wp_mono; [by apply (get_highest_exact prio bnd HD)|]. intros [mb|] Hmb.
    2:{ by apply Hmb in Hxf. }
    assert (highest_free bnd (ct_aggl ct) mb) as Hhf.
    { destruct Hmb as [(Hle & c & Hcf & Hcb & _)|[? _]]; [|done]. pose proof (Hb3 _ _ Hcb) as Hcb3. change CORNER with 3%Z in Hle.
      split; [eauto|]. intros c' b' _ Hb'. pose proof (Hb3 _ _ Hb'). lia. }
    case_bool_decide as Hlt; cbn [wp fst snd].
    + eapply wp_mono; [apply initialize_eq|].
      * split; [apply Hw1|apply Hw1|]. simpl. intros ? [= <-]. destruct Hhf as [(c & _ & Hc) _]. by eapply Hb3.
      * done.
      * simpl. intros ? [= <-]. destruct Hhf as [(c & _ & Hc) _]. exists c, mb. split; [done|lia].
      * simpl. intros p (t' & [[= <-]|[? _]] & Hi); [|done]. exists b, t. split; [done|]. split; [done|].
        left. exists mb. split_and!; [done|done|]. exact Hi.
    + exists b, t. split; [done|]. split; [done|]. right. split; [|done]. intros y b' Hy Hb'.
      destruct Hhf as [_ Hm]. specialize (Hm _ _ Hy Hb'). lia.
Qed.
End start.
