(** * NeighP: candidates of the growing coarse cell *)

From Verif Require Export PairsP.

Lemma elem_of_remove_first x l y : NoDup l → y ∈ remove_first x l ↔ y ≠ x ∧ y ∈ l.
Proof.
  induction l as [|z l IH]; intros Hnd; simpl; [set_solver|].
  apply NoDup_cons in Hnd as [Hz Hnd]. case_bool_decide; subst; [set_solver|].
  rewrite elem_of_cons, IH by done. set_solver.
Qed.
Lemma NoDup_remove_first x l : NoDup l → NoDup (remove_first x l).
Proof.
  induction l as [|z l IH]; intros Hnd; simpl; [done|].
  pose proof Hnd as Hnd'. apply NoDup_cons in Hnd as [Hz Hnd]. case_bool_decide; [done|].
  constructor; [|auto]. rewrite elem_of_remove_first by done. naive_solver.
Qed.

Section neigh.
Context {A : Arith} (g : graph) (prio : list W) (WF : wfg g).
Context (Hlen : length prio = g_n g) (Hord : weak_order wlt (λ w, w ∈ prio)).
Implicit Types h : nbh.
Notation good := (good_pset prio).

Lemma premove_first_ok x l : good l →
  good (premove_first x l) ∧
  ∀ y, y ∈ map fst (premove_first x l) ↔ y ≠ x ∧ y ∈ map fst l.
Proof.
  induction l as [|p l IH]; intros Hg; simpl; [split; [done|set_solver]|].
  pose proof (good_NoDup prio Hord _ Hg) as Hnd. simpl in Hnd.
  apply NoDup_cons in Hnd as [Hp Hnd].
  destruct IH as [IH1 IH2]; [by eapply good_cons_inv|].
  case_bool_decide as Hx.
  - split; [by eapply good_cons_inv|]. intros y. subst x. set_solver.
  - split; [|intros y; simpl; rewrite elem_of_cons, IH2; set_solver].
    assert (∀ q, q ∈ premove_first x l → q ∈ l) as Hsub.
    { clear. induction l as [|q l IH]; simpl; [done|]. case_bool_decide; set_solver. }
    destruct Hg as [Hk Hs]. apply StronglySorted_inv in Hs as [Hs Hall].
    split; [set_solver|]. constructor; [apply IH1|].
    rewrite Forall_forall in *. auto.
Qed.

(** The cells that may be added: allowed cells, not yet inside, with a
    neighbour inside. *)
Definition border (allowed fc : gset nat) (x : nat) : Prop :=
  x ∈ allowed ∧ x ∉ fc ∧ ∃ y, y ∈ fc ∧ x ∈ adj g y.

Lemma border_union allowed c fc x :
  border allowed ({[c]} ∪ fc) x ↔
  x ∈ allowed ∧ x ≠ c ∧ x ∉ fc ∧ (x ∈ adj g c ∨ ∃ y, y ∈ fc ∧ x ∈ adj g y).
Proof.
  unfold border. rewrite not_elem_of_union, not_elem_of_singleton.
  setoid_rewrite elem_of_union. setoid_rewrite elem_of_singleton. naive_solver.
Qed.

Record nb_inv (dim : Z) h : Prop := {
  ni_cand : ∀ x, x ∈ nb_cand h → border (nb_allowed h) (nb_fc h) x;
  ni_nodup : NoDup (nb_cand h);
  ni_nonempty : ∀ x, border (nb_allowed h) (nb_fc h) x → nb_cand h ≠ [];
  ni_ext : nb_front h = None → ∀ x, border (nb_allowed h) (nb_fc h) x → x ∈ nb_cand h;
  ni_dim : ∀ d, nb_front h = Some d → (2 <= d)%Z;
  ni_q : nb_front h ≠ None → ∀ q, q ∈ nb_q h → good q;
  ni_qs : nb_front h ≠ None → ∀ x,
    border (nb_allowed h) (nb_fc h) x ↔ ∃ q, q ∈ nb_q h ∧ x ∈ map fst q;
  ni_sort : nb_front h ≠ None → ∃ s, good s ∧ nb_cand h = map fst s;
}.

Lemma nb_inv_create allowed front dim :
  (∀ d, front = Some d → (2 <= d)%Z) → nb_inv dim (nbh_create allowed front).
Proof.
  intros Hd. split; unfold border; simpl; try done.
  - intros x Hx. by apply elem_of_nil in Hx.
  - constructor.
  - intros x (_ & _ & y & Hy & _). by apply elem_of_empty in Hy.
  - intros _ x (_ & _ & y & Hy & _). by apply elem_of_empty in Hy.
  - intros _ q Hq. by apply elem_of_nil in Hq.
  - intros _ x. split.
    + intros (_ & _ & y & Hy & _). by apply elem_of_empty in Hy.
    + intros (q & Hq & _). by apply elem_of_nil in Hq.
  - intros _. exists []. split; [apply good_nil|done].
Qed.

Lemma scan_queues_ok fuel q front back :
  (Z.of_nat back - Z.of_nat front + 4 <= 2 * Z.of_nat fuel)%Z → back < length q →
  front ≤ S back → 0 < front + back →
  (∀ i x, i < front ∨ back < i → q !! i = Some x → x = []) →
  (back < front → front + back + 1 = length q) →
  front + back + 1 = length q →
  wp (scan_queues fuel q front back) (λ r,
    (r ∈ q ∨ r = []) ∧ (r = [] → ∀ x, x ∈ q → x = [])).
Proof.
  revert front back. induction fuel as [|fuel IH]; intros front back Hf Hb Hfb Hpos He _ Hs.
  { lia. }
  simpl. case_bool_decide as Hle.
  - wstep. apply wp_vget; [lia|]. intros a Ha. destruct a as [|p a].
    + wstep. apply wp_vget; [lia|]. intros b Hb'. destruct b as [|p b].
      * destruct back as [|back']; [lia|].
        assert (∀ i x, i < S front ∨ back' < i → q !! i = Some x → x = []) as He'.
        { intros i x Hi Hx. destruct (decide (i = front)) as [->|]; [congruence|].
          destruct (decide (i = S back')) as [->|]; [congruence|]. apply (He i); [lia|done]. }
        destruct (decide (front = S back')) as [->|].
        { (* the middle queue: next iteration stops *)
          destruct fuel as [|fuel]; [lia|]. simpl. rewrite bool_decide_false by lia.
          split; [by right|]. intros _ x Hx. apply elem_of_list_lookup in Hx as [i Hi].
          apply (He' i x); [lia|done]. }
        apply IH; try lia. done.
      * simpl. split; [left; by eapply elem_of_list_lookup_2|done].
    + simpl. split; [left; by eapply elem_of_list_lookup_2|done].
  - simpl. split; [by right|]. intros _ x Hx. apply elem_of_list_lookup in Hx as [i Hi].
    apply (He i x); [lia|done].
Qed.

Lemma foldl_insert_all_ok (q : list (list (nat * W))) cur :
  (∀ x, x ∈ q → good x) → good cur →
  good (foldl (λ s p, pset_insert_all p s) cur q) ∧
  ∀ x, x ∈ foldl (λ s p, pset_insert_all p s) cur q ↔ x ∈ cur ∨ ∃ r, r ∈ q ∧ x ∈ r.
Proof.
  revert cur. induction q as [|r q IH]; intros cur Hq Hc; simpl.
  { split; [done|set_solver]. }
  destruct (good_insert_all prio Hord r cur) as [H1 H2].
  { apply gp_keyed. apply Hq. set_solver. } { done. }
  destruct (IH (pset_insert_all r cur)) as [H3 H4]; [set_solver|done|].
  split; [done|]. intros x. rewrite H4, H2. set_solver.
Qed.

Lemma nbh_update_ok dim h c :
  nb_inv dim h → c < g_n g →
  wp (nbh_update prio h c (adj g c)) (λ h',
    nb_inv dim h' ∧ nb_allowed h' = nb_allowed h ∧ nb_fc h' = {[c]} ∪ nb_fc h ∧
    nb_front h' = nb_front h ∧
    (nb_front h = None → ∃ s, good s ∧ nb_cand h' = remove_first c (nb_cand h) ++ map fst s)).
Proof.
  intros HI Hc. unfold nbh_update.
  assert (∀ n, n ∈ adj g c → n < length prio) as Hadj.
  { intros n Hn. rewrite Hlen. by eapply adj_lt. }
  destruct (nb_front h) as [d|] eqn:Hfr.
  - (* pure front *)
    wstep. eapply wp_mono; [by apply collect_ok|]. intros cur [Hcur Hcel].
    pose proof (ni_dim _ _ HI _ Hfr) as Hd.
    assert (nb_front h ≠ None) as Hne by by rewrite Hfr.
    set (q := map (premove_first c) (nb_q h)).
    assert (∀ x, x ∈ q → good x) as Hq.
    { intros x Hx. apply elem_of_list_fmap in Hx as (y & -> & Hy).
      apply premove_first_ok. by eapply ni_q. }
    assert (∀ x, border (nb_allowed h) ({[c]} ∪ nb_fc h) x ↔
              ∃ r, r ∈ cur :: q ∧ x ∈ map fst r) as Hqs.
    { intros x. assert ((∃ r, r ∈ cur :: q ∧ x ∈ map fst r) ↔
        x ∈ map fst cur ∨ ∃ r, r ∈ q ∧ x ∈ map fst r) as ->.
      { setoid_rewrite elem_of_cons. naive_solver. }
      rewrite Hcel, andb_true_iff, !bool_decide_eq_true.
      assert ((∃ r, r ∈ q ∧ x ∈ map fst r) ↔ x ≠ c ∧ border (nb_allowed h) (nb_fc h) x) as ->.
      { rewrite (ni_qs _ _ HI Hne). unfold q. split.
        - intros (r & Hr & Hx). apply elem_of_list_fmap in Hr as (y & -> & Hy).
          apply premove_first_ok in Hx as [? ?]; [naive_solver|by eapply ni_q].
        - intros (Hxc & r & Hr & Hx). exists (premove_first c r). split.
          + by apply elem_of_list_fmap_1.
          + apply premove_first_ok; [by eapply ni_q|done]. }
      rewrite border_union. unfold border. rewrite not_elem_of_union, not_elem_of_singleton.
      naive_solver. }
    assert (∀ cand, good cand →
      (∀ x, x ∈ map fst cand → ∃ r, r ∈ cur :: q ∧ x ∈ map fst r) →
      (cand = [] → ∀ r, r ∈ cur :: q → r = []) →
      nb_inv dim (Nbh _ (nb_allowed h) ({[c]} ∪ nb_fc h) (map fst cand) (cur :: q) (Some d))) as Hgen.
    { intros cand Hcand Hsub Hemp. split; simpl; try done.
      - intros x Hx. apply Hqs. auto.
      - by eapply good_NoDup.
      - intros x Hx. apply Hqs in Hx as (r & Hr & Hx). intros Hm.
        assert (cand = []) as -> by (by destruct cand).
        rewrite (Hemp eq_refl r Hr) in Hx. set_solver.
      - naive_solver.
      - intros _ x Hx. apply elem_of_cons in Hx as [->|]; auto.
      - intros _. by exists cand. }
    wstep. case_bool_decide as Hdim.
    + destruct (foldl_insert_all_ok q cur) as [H1 H2]; [done..|].
      simpl. split_and!; [|done..]. apply Hgen.
      * done.
      * intros x Hx. apply elem_of_list_fmap in Hx as (y & -> & Hy). apply H2 in Hy.
        destruct Hy as [Hy|(r & Hr & Hy)].
        -- exists cur. split; [left|]. by apply elem_of_list_fmap_1.
        -- exists r. split; [by right|]. by apply elem_of_list_fmap_1.
      * intros Hnil r Hr. destruct r as [|p r]; [done|]. exfalso.
        assert (p ∈ foldl (λ s p, pset_insert_all p s) cur q) as Hin.
        { apply H2. apply elem_of_cons in Hr as [Hr|Hr]; [rewrite <- Hr|]; [left; left|].
          right. eexists. split; [done|]. left. }
        rewrite Hnil in Hin. set_solver.
    + simpl length in *. eapply wp_mono.
      { apply scan_queues_ok; simpl in *; try lia.
        intros i x [?|?]; [lia|]. intros Hx. apply lookup_lt_Some in Hx. simpl in *. lia. }
      simpl. intros r [Hr Hemp]. split_and!; [|done..]. apply Hgen.
      * destruct Hr as [Hr| ->]; [|apply good_nil].
        apply elem_of_cons in Hr as [->|Hr]; [done|by apply Hq].
      * intros x Hx. destruct Hr as [Hr| ->]; [|set_solver]. eauto.
      * auto.
  - (* extended *)
    wstep. eapply wp_mono; [by apply collect_ok|]. intros s [Hs Hel]. simpl.
    split_and!; [|done..|by exists s].
    pose proof (ni_nodup _ _ HI) as Hnd.
    assert (∀ x, x ∈ remove_first c (nb_cand h) ++ map fst s ↔
              border (nb_allowed h) ({[c]} ∪ nb_fc h) x) as Hset.
    { intros x. rewrite elem_of_app, Hel, !andb_true_iff, !bool_decide_eq_true.
      rewrite !elem_of_remove_first by done.
      assert (x ∈ nb_cand h ↔ border (nb_allowed h) (nb_fc h) x) as Hb.
      { split; [by apply (ni_cand _ _ HI)|by apply (ni_ext _ _ HI)]. }
      revert Hb.
      rewrite border_union. unfold border. rewrite not_elem_of_union, not_elem_of_singleton.
      intros Hb. split; [naive_solver|]. intros (Ha & Hxc & Hxf & [Hx|Hx]); [|naive_solver].
      destruct (decide (x ∈ nb_cand h)) as [Hin|Hin]; [|naive_solver].
      apply (ni_cand _ _ HI) in Hin. unfold border in Hin. naive_solver. }
    split; simpl; try done.
    + intros x Hx. by apply Hset.
    + apply NoDup_app. split_and!.
      * by apply NoDup_remove_first.
      * intros x Hx Hx'. apply Hel in Hx' as [_ Hx'].
        rewrite !andb_true_iff, !bool_decide_eq_true in Hx'. naive_solver.
      * by eapply good_NoDup.
    + intros x Hx. apply Hset in Hx. intros Hnil. rewrite Hnil in Hx. set_solver.
    + intros _ x Hx. by apply Hset.
Qed.

Lemma good_prio_sorted s : good s → prio_sorted prio (map fst s).
Proof.
  intros [Hk Hs] i j a b wa wb Hij Ha Hb Hwa Hwb.
  apply list_lookup_fmap_inv in Ha as ([a' wa'] & -> & Ha).
  apply list_lookup_fmap_inv in Hb as ([b' wb'] & -> & Hb). simpl in *.
  pose proof (Hk _ (elem_of_list_lookup_2 _ _ _ Ha)) as Hka.
  pose proof (Hk _ (elem_of_list_lookup_2 _ _ _ Hb)) as Hkb.
  unfold keyed in *. simpl in *. rewrite Hwa in Hka. rewrite Hwb in Hkb. simplify_eq.
  assert (pair_gt (a', wa') (b', wb') = true) as Hgt.
  { clear -Hs Hij Ha Hb. revert i j Hij Ha Hb. induction Hs as [|p l Hs IH Hall]; intros i j Hij Ha Hb; [done|].
    rewrite Forall_forall in Hall. destruct j as [|j]; [lia|]. simpl in Hb.
    destruct i as [|i]; simpl in Ha.
    - simplify_eq. apply (Hall (b', wb')). by eapply elem_of_list_lookup_2.
    - apply (IH i j); [lia|done..]. }
  unfold pair_gt in Hgt. simpl in Hgt. destruct (wlt wb' wa'); [by left|right].
  destruct (wlt wa' wb'); [done|]. by apply bool_decide_eq_true in Hgt.
Qed.

(** The whole history of a growing coarse cell. *)
Lemma nbh_history_ok allowed front cs :
  (∀ d, front = Some d → (2 <= d)%Z) → (∀ c, c ∈ cs → c < g_n g) →
  wp (foldM (λ h c, l ← nbrs g c; nbh_update prio h c l) cs (nbh_create allowed front))
    (λ h, nb_inv 0 h ∧ nb_allowed h = allowed ∧ nb_fc h = list_to_set cs ∧ nb_front h = front).
Proof.
  intros Hd Hcs. apply (wp_foldM _ (λ (pre : list nat) h, nb_inv 0 h ∧ nb_allowed h = allowed ∧
    nb_fc h = list_to_set pre ∧ nb_front h = front)).
  { split_and!; [by apply nb_inv_create|done..]. }
  intros pre c post h Heq (HI & Hal & Hfc & Hfr).
  assert (c < g_n g) as Hc by (apply Hcs; rewrite Heq; set_solver).
  rewrite nbrs_ok by done. rewrite bind_ok. eapply wp_mono; [by apply nbh_update_ok|].
  intros h' (HI' & Hal' & Hfc' & Hfr' & _). split_and!; [done|by rewrite Hal'| |by rewrite Hfr'].
  rewrite Hfc', Hfc, list_to_set_app_L. simpl. set_solver.
Qed.

End neigh.
