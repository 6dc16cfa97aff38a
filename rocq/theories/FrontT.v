(** * FrontT: candidates of the pure-front neighbourhood *)

From Verif Require Import NeighP Inst SearchT SpecFront.

Lemma scan_turn {A : Arith} fuel (q : list (list (nat * W))) front back :
  (Z.of_nat back - Z.of_nat front + 4 <= 2 * Z.of_nat fuel)%Z →
  0 < front + back → front ≤ S back → front + back + 1 = length q →
  (∀ i x, i < front ∨ back < i → q !! i = Some x → x = []) →
  wp (scan_queues fuel q front back) (λ r,
    (r = [] ∧ ∀ i x, q !! i = Some x → x = []) ∨
    ∃ i, q !! i = Some r ∧ r ≠ [] ∧
      ∀ j x, turn (length q) j < turn (length q) i → q !! j = Some x → x = []).
Proof.
  revert front back. induction fuel as [|fuel IH]; intros front back Hf Hpos Hfb Hs He.
  { lia. }
  simpl. case_bool_decide as Hle.
  - wstep. apply wp_vget; [lia|]. intros a Ha. destruct a as [|p a].
    + wstep. apply wp_vget; [lia|]. intros b Hb'. destruct b as [|p b].
      * destruct back as [|back']; [lia|].
        assert (∀ i x, i < S front ∨ back' < i → q !! i = Some x → x = []) as He'.
        { intros i x Hi Hx. destruct (decide (i = front)) as [->|]; [congruence|].
          destruct (decide (i = S back')) as [->|]; [congruence|]. apply (He i); [lia|done]. }
        destruct (decide (front = S back')) as [->|].
        { destruct fuel as [|fuel]; [lia|]. simpl. rewrite bool_decide_false by lia.
          simpl. left. split; [done|]. intros i x Hx. apply (He' i x); [lia|done]. }
        apply IH; try lia. done.
      * simpl. right. exists back. split_and!; [done|done|].
        intros j x Hj Hx. assert (front ≠ back) by (intros ->; congruence).
        destruct (decide (j = front)) as [->|]; [congruence|].
        apply (He j x); [|done]. apply lookup_lt_Some in Hx.
        unfold turn in Hj. do 2 case_bool_decide; lia.
    + simpl. right. exists front. split_and!; [done|done|].
      intros j x Hj Hx. apply (He j x); [|done]. apply lookup_lt_Some in Hx.
      unfold turn in Hj. do 2 case_bool_decide; lia.
  - simpl. left. split; [done|]. intros i x Hx. apply (He i x); [lia|done].
Qed.

Section front.
Context {A : Arith} (g : graph) (prio : list W) (WF : wfg g).
Context (Hlen : length prio = g_n g) (Hord : weak_order wlt (λ w, w ∈ prio)).
Notation good := (good_pset prio).
Notation around := (around (g_row g) (g_col g)).

Record fr_inv (allowed : gset nat) (d : Z) (cs : list nat) (h : nbh) : Prop := {
  fi_allowed : nb_allowed h = allowed;
  fi_fc : nb_fc h = list_to_set cs;
  fi_front : nb_front h = Some d;
  fi_len : length (nb_q h) = length cs;
  fi_q : ∀ i q, nb_q h !! i = Some q → good q ∧ ∀ x, x ∈ map fst q ↔ around allowed cs i x;
  fi_cand : front_candidates (g_row g) (g_col g) allowed d cs (nb_cand h);
}.

Lemma fr_update allowed d cs h c :
  fr_inv allowed d cs h → (2 <= d)%Z → c < g_n g →
  wp (nbh_update prio h c (adj g c)) (fr_inv allowed d (cs ++ [c])).
Proof using A g prio WF Hlen Hord.
  intros [Hal Hfc Hfr Hql Hq _] Hd Hc. unfold nbh_update. rewrite Hfr.
  assert (∀ n, n ∈ adj g c → n < length prio) as Hadj.
  { intros n Hn. rewrite Hlen. by eapply adj_lt. }
  wstep. eapply wp_mono; [by apply collect_ok|]. intros cur [Hcur Hcel].
  set (q := map (premove_first c) (nb_q h)).
  assert (HQ : ∀ i r, (cur :: q) !! i = Some r → good r ∧ ∀ x, x ∈ map fst r ↔ around allowed (cs ++ [c]) i x).
  { intros i r Hr. destruct i as [|i]; simpl in Hr.
    - injection Hr as <-. split; [done|]. intros x.
      rewrite Hcel, andb_true_iff, !bool_decide_eq_true, Hal, Hfc.
      unfold SpecFront.around. rewrite rev_app_distr. simpl. rewrite elem_of_adj.
      split.
      + intros (H1 & H2 & H3). exists c. split_and!; [done|done|done|]. set_solver.
      + intros (c' & [= <-] & H1 & H2 & H3). split_and!; [done|set_solver|done].
    - unfold q in Hr. rewrite list_lookup_fmap in Hr.
      destruct (nb_q h !! i) as [r0|] eqn:Hr0; [|done]. injection Hr as <-.
      destruct (Hq _ _ Hr0) as [Hg0 Hm0]. split; [by apply (premove_first_ok g prio WF Hlen Hord)|].
      intros x. rewrite (proj2 (premove_first_ok g prio WF Hlen Hord c r0 Hg0)), Hm0.
      unfold SpecFront.around. rewrite rev_app_distr. simpl. split.
      + intros (Hxc & c' & H1 & H2 & H3 & H4). exists c'. split_and!; [done..|]. set_solver.
      + intros (c' & H1 & H2 & H3 & H4). split; [set_solver|]. exists c'. split_and!; [done..|]. set_solver. }
  assert (Hlq : length (cur :: q) = length (cs ++ [c])).
  { simpl. unfold q. rewrite map_length, Hql, app_length. simpl. lia. }
  wstep.
  assert (Hgen : ∀ cand : list (nat * W), front_candidates (g_row g) (g_col g) allowed d (cs ++ [c]) (map fst cand) →
    fr_inv allowed d (cs ++ [c]) (Nbh _ (nb_allowed h) ({[c]} ∪ nb_fc h) (map fst cand) (cur :: q) (Some d))).
  { intros cand Hcand. split; simpl; try done.
    rewrite Hfc, list_to_set_app_L. simpl. set_solver. }
  assert (Hex : ∀ i x, around allowed (cs ++ [c]) i x → ∃ r, (cur :: q) !! i = Some r).
  { intros i x (c' & Hc' & _). apply lookup_lt_is_Some_2. rewrite Hlq.
    apply lookup_lt_Some in Hc'. by rewrite rev_length in Hc'. }
  case_bool_decide as Hdim.
  - destruct (foldl_insert_all_ok g prio WF Hlen Hord q cur) as [H1 H2].
    { intros r Hr. apply elem_of_list_lookup in Hr as [i Hi]. by apply (HQ (S i)). }
    { done. }
    simpl. apply Hgen. unfold front_candidates. rewrite bool_decide_eq_true_2 by (rewrite <- Hlq; done).
    intros x. rewrite elem_of_list_fmap. split.
    + intros (p & -> & Hp). apply H2 in Hp as [Hp|(r & Hr & Hp)].
      * exists 0. apply (HQ 0 cur eq_refl). by apply elem_of_list_fmap_1.
      * apply elem_of_list_lookup in Hr as [i Hi]. exists (S i).
        apply (HQ (S i) r Hi). by apply elem_of_list_fmap_1.
    + intros (i & Hi). destruct (Hex _ _ Hi) as [r Hr].
      apply (HQ i r Hr) in Hi. apply elem_of_list_fmap in Hi as (p & -> & Hp).
      exists p. split; [done|]. apply H2. destruct i as [|i]; simpl in Hr.
      * injection Hr as <-. by left.
      * right. exists r. split; [by eapply elem_of_list_lookup_2|done].
  - eapply wp_mono.
    { apply (scan_turn (length (cur :: q))); [simpl in *; lia..|].
      intros i x [?|?] Hx; [lia|]. apply lookup_lt_Some in Hx. simpl in *. lia. }
    intros r Hr. simpl. apply Hgen. unfold front_candidates.
    rewrite bool_decide_eq_false_2 by (rewrite <- Hlq; done).
    destruct Hr as [[-> Hall]|(i & Hi & Hne & Hbef)].
    + left. split; [done|]. intros i x Hx. destruct (Hex _ _ Hx) as [r Hr].
      apply (HQ i r Hr) in Hx. rewrite (Hall i r Hr) in Hx. by apply elem_of_nil in Hx.
    + right. exists i. rewrite <- Hlq. split_and!.
      * by eapply lookup_lt_Some.
      * by destruct r.
      * by apply HQ.
      * intros j x Hj Hjl Hx. destruct (Hex _ _ Hx) as [r' Hr'].
        apply (HQ j r' Hr') in Hx. rewrite (Hbef j r' Hj Hr') in Hx. by apply elem_of_nil in Hx.
Qed.
End front.

Lemma C29_front_lem `{A : Arith} (g : graph) (prio : list W)
    (allowed : gset nat) (d : Z) (cs : list nat) :
  csr (g_n g) (g_row g) (g_col g) → csr_sym (g_row g) (g_col g) →
  length (g_val g) = length (g_col g) →
  length prio = g_n g → weak_order wlt (λ w, w ∈ prio) →
  (2 <= d)%Z → (∀ c, c ∈ cs → c < g_n g) →
  ∃ h, foldM (λ h c, l ← nbrs g c; nbh_update prio h c l) cs (nbh_create allowed (Some d)) = Ok h ∧
    front_candidates (g_row g) (g_col g) allowed d cs (nb_cand h) ∧
    prio_sorted prio (nb_cand h) ∧ NoDup (nb_cand h).
Proof.
  intros Hcsr Hsym Hval Hlen Hord Hd Hcs. set (WF := Build_wfg g Hcsr Hsym Hval).
  assert (HI : wp (foldM (λ h c, l ← nbrs g c; nbh_update prio h c l) cs (nbh_create allowed (Some d)))
    (fr_inv g prio allowed d cs)).
  { apply (wp_foldM _ (λ pre h, fr_inv g prio allowed d pre h)).
    - split; simpl; try done. unfold front_candidates. simpl.
      rewrite bool_decide_eq_true_2 by lia. intros x. split; [by intros ?%elem_of_nil|].
      by intros (i & c & Hc & _).
    - intros pre c post h Heq HI.
      assert (c < g_n g) as Hc by (apply Hcs; rewrite Heq; set_solver).
      rewrite nbrs_ok by done. rewrite bind_ok. by apply fr_update. }
  apply wp_eq in HI as (h & Heq & HI). exists h. split; [done|].
  split; [apply HI|].
  pose proof (nbh_history_ok g prio WF Hlen Hord allowed (Some d) cs) as Hw.
  rewrite Heq in Hw. destruct Hw as (HN & _ & _ & Hfr); [by intros ? [= <-]|done|].
  split; [|apply (ni_nodup _ _ _ _ HN)].
  destruct (ni_sort _ _ _ _ HN) as (s & Hs & ->); [by rewrite Hfr|]. by apply good_prio_sorted.
Qed.

(** On the 3x3 grid: with two cells all the neighbours are candidates, with
    three those of the last one; in a corner those of the first one. *)
Lemma C29_front_ex :
  let run cs := foldM (λ h c, l ← @nbrs qarith grid9_g c; @nbh_update qarith (@in_prio qarith grid9_in) h c l) cs
         (@nbh_create qarith (list_to_set (seq 0 9)) (Some 2%Z)) in
  let cand cs := match run cs with Ok h => @nb_cand qarith h | Err _ => [] end in
  Permutation (cand [4; 1]) [0; 2; 3; 5; 7] ∧ Permutation (cand [4; 1; 0]) [3] ∧
  Permutation (cand [1; 4; 3; 0]) [2] ∧ Permutation (cand [4; 1; 3; 0]) [5; 7].
Proof.
  split_and!; apply (bool_decide_unpack _); vm_compute; exact I.
Qed.
