(** * TakeP: what is left of the queues when a seed is taken (C45) *)

From Verif Require Import SpecSub SpecFeat SpecBest SpecGrow SpecFeed.
From Verif Require Export FeedP.

Section take.
Context {A : Arith} {H : HashOrder}.
Context (prio : list W) (bnd : list Z) (HD : pool_data prio bnd).
Notation n := (length bnd).
Implicit Types (p : pool) (aggl : list bool).
Notation Hp := (pd_len _ _ HD).
Notation Hb3 := (pd_bnd _ _ HD).
Notation Hord := (pd_weak prio bnd HD).

Lemma spoil_level_eq aggl p z :
  pool_wf bnd p → length aggl = n → (0 <= z <= 3)%Z →
  wp (spoil_level aggl p z) (λ r,
    ∃ q, sp_q p !! Z.to_nat z = Some q ∧
    match r.1 with
    | Some s => is_free aggl s ∧ ∃ pre post, q = pre ++ s :: post ∧ (∀ c, c ∈ pre → ¬ is_free aggl c) ∧
        r.2 = set_q p (<[Z.to_nat z := post]> (sp_q p))
    | None => (∀ c, c ∈ q → ¬ is_free aggl c) ∧ r.2 = set_q p (<[Z.to_nat z := []]> (sp_q p))
    end).
Proof using HD.
  intros Hw Hag Hz. unfold spoil_level. wstep.
  apply wp_vgetZ; [rewrite (pw_len _ _ Hw); lia|]. intros q Hq. wstep.
  eapply wp_mono.
  { apply spoil_queue_ok. intros c Hc. rewrite Hag. eapply (inq_lt prio bnd Hp p (Z.to_nat z)); [done|]. exists q. done. }
  intros [o r] [_ H2]. simpl in *. rewrite vsetZ_ok by (rewrite (pw_len _ _ Hw); lia). simpl.
  exists q. split; [done|]. destruct o as [s|].
  - destruct H2 as (Hs & pre & Hpre & Hall). split; [done|]. exists pre, r. done.
  - destruct H2 as [-> H2]. done.
Qed.
Lemma spoil_wf aggl p z q' : pool_wf bnd p → (∀ q, sp_q p !! Z.to_nat z = Some q → ∀ c, c ∈ q' → c ∈ q) → (0 <= z <= 3)%Z →
  pool_wf bnd (set_q p (<[Z.to_nat z := q']> (sp_q p))).
Proof using.
  clear. intros Hw Hq Hz. split; simpl; [by rewrite insert_length, (pw_len _ _ Hw)| |apply (pw_top _ _ Hw)].
  intros l c (q & Hl & Hc). simpl in Hl. destruct (decide (l = Z.to_nat z)) as [->|Hne].
  - rewrite list_lookup_insert in Hl by (rewrite (pw_len _ _ Hw); lia). injection Hl as <-.
    destruct (lookup_lt_is_Some_2 (sp_q p) (Z.to_nat z)) as [q Hq0]; [rewrite (pw_len _ _ Hw); lia|].
    apply (pw_cell _ _ Hw). exists q. split; [done|]. by eapply Hq.
  - rewrite list_lookup_insert_ne in Hl by done. apply (pw_cell _ _ Hw). by exists q.
Qed.

Lemma emptied_one p z p' : length (sp_q p) = 4 → (0 <= z <= 3)%Z → p' = set_q p (<[Z.to_nat z := []]> (sp_q p)) →
  emptied (λ l, l = Z.to_nat z) p p'.
Proof using.
  clear. intros Hl Hz ->. split_and!; [done|done|by simpl; rewrite insert_length|]. intros l q Hq. simpl. split.
  - intros ->. apply list_lookup_insert. lia.
  - intros Hne. by rewrite list_lookup_insert_ne.
Qed.
Lemma emptied_none p P : (∀ l, ¬ P l) → emptied P p p.
Proof using. clear. intros HP. split_and!; try done. intros l q Hq. split; [intros Hl; by apply HP in Hl|done]. Qed.
Lemma emptied_ext P P' p p' : (∀ l, l < length (sp_q p) → P l ↔ P' l) → emptied P p p' → emptied P' p p'.
Proof using.
  clear. intros HP (H1 & H2 & H3 & H4). split_and!; [done..|]. intros l q Hq. pose proof (lookup_lt_Some _ _ _ Hq) as Hl.
  destruct (H4 l q Hq). rewrite <- (HP l Hl). done.
Qed.
Lemma emptied_comp P P' p p1 p2 : (∀ l, P l ∨ ¬ P l) → emptied P p p1 → emptied P' p1 p2 → emptied (λ l, P l ∨ P' l) p p2.
Proof using.
  clear. intros Hd (H1 & H2 & H3 & H4) (G1 & G2 & G3 & G4). split_and!; [congruence..|]. intros l q Hq.
  destruct (H4 l q Hq) as [E1 E2].
  destruct (Hd l) as [HP|HP].
  - destruct (G4 l [] (E1 HP)) as [F1 F2]. assert (P' l → sp_q p2 !! l = Some []) as F by done.
    split; [|tauto]. intros _. destruct (lookup_lt_is_Some_2 (sp_q p2) l) as [q2 Hq2].
    { rewrite G3, H3. by eapply lookup_lt_Some. }
    assert (¬ ¬ (sp_q p2 !! l = Some [])) as Hnn by tauto.
    rewrite Hq2 in *. destruct q2 as [|a q2]; [done|]. exfalso. apply Hnn. congruence.
  - destruct (G4 l q (E2 HP)) as [F1 F2]. tauto.
Qed.
Lemma emptied_spent P aggl p p1 l : emptied P p p1 → P l ∨ ¬ P l → spent aggl p l → spent aggl p1 l.
Proof using.
  clear. intros (H1 & H2 & H3 & H4) Hd Hs c (q1 & Hq1 & Hc). destruct (lookup_lt_is_Some_2 (sp_q p) l) as [q Hq].
  { rewrite <- H3. by eapply lookup_lt_Some. }
  destruct (H4 l q Hq) as [E1 E2]. destruct Hd as [HP|HP].
  - rewrite E1 in Hq1 by done. injection Hq1 as <-. by apply elem_of_nil in Hc.
  - rewrite E2 in Hq1 by done. injection Hq1 as <-. apply Hs. by exists q.
Qed.
Lemma emptied_same P p p1 l : l < length (sp_q p) → emptied P p p1 → ¬ P l → sp_q p1 !! l = sp_q p !! l.
Proof using.
  clear. intros Hl (H1 & H2 & H3 & H4) HP. destruct (lookup_lt_is_Some_2 (sp_q p) l Hl) as [q Hq].
  destruct (H4 l q Hq) as [_ E]. by rewrite E, Hq.
Qed.

Lemma np_scan_takes aggl p lvl :
  pool_wf bnd p → length aggl = n → lvl ≤ 3 →
  wp (np_scan aggl p lvl) (λ r,
    match r.1 with
    | Some s => ∃ l p0, l ≤ lvl ∧ (∀ l', l < l' ≤ lvl → spent aggl p l') ∧
        emptied (λ l', l < l' ≤ lvl) p p0 ∧ taken aggl p0 l s r.2
    | None => (∀ l, l ≤ lvl → spent aggl p l) ∧ emptied (λ l, l ≤ lvl) p r.2 ∧ pool_wf bnd r.2
    end).
Proof using HD.
  revert p. induction lvl as [|lvl IH]; intros p Hw Hag Hl; cbn [np_scan]; wstep;
    (eapply wp_mono; [apply spoil_level_eq; [done|done|lia]|]);
    intros [o p1]; cbn [fst snd]; intros (q & Hq & Ho);
    match type of Hq with context [Z.to_nat ?z] => remember (Z.to_nat z) as lv eqn:Hlv; assert (0 <= z <= 3)%Z as Hz by lia end.
  - destruct o as [s|]; cbn [wp].
    + destruct Ho as (Hs & pre & post & -> & Hpre & ->). exists 0, p. subst lv. split_and!; [done|lia| |].
      { apply emptied_none. lia. }
      split; [done|]. exists pre, post. split_and!; [done..|]. reflexivity.
    + destruct Ho as [Ho ->]. subst lv. split_and!.
      * intros l Hl0 c (q' & Hq' & Hc). assert (l = 0) as -> by lia. change (Z.to_nat (Z.of_nat 0)) with 0 in Hq. rewrite Hq in Hq'. injection Hq' as <-. auto.
      * eapply emptied_ext; [|eapply (emptied_one p 0%Z); [apply Hw|lia|done]]. intros l _. simpl. lia.
      * apply (spoil_wf aggl p 0%Z []); [done| |lia]. intros q' _ c Hc. by apply elem_of_nil in Hc.
  - assert (lv = S lvl) as -> by lia. clear Hlv. destruct o as [s|].
    + destruct Ho as (Hs & pre & post & -> & Hpre & ->). cbn [wp fst snd]. exists (S lvl), p. split_and!; [done|lia| |].
      { apply emptied_none. lia. }
      split; [done|]. exists pre, post. split_and!; [done..|]. reflexivity.
    + destruct Ho as [Ho ->].
      assert (spent aggl p (S lvl)) as Hsp.
      { intros c (q' & Hq' & Hc). rewrite Hq in Hq'. injection Hq' as <-. auto. }
      pose proof (spoil_wf aggl p (Z.of_nat (S lvl)) [] Hw) as Hw1. rewrite Nat2Z.id in Hw1.
      pose proof (emptied_one p (Z.of_nat (S lvl)) _ (pw_len _ _ Hw) Hz eq_refl) as He. rewrite Nat2Z.id in He.
      set (p1 := set_q p (<[S lvl:=[]]> (sp_q p))) in *.
      assert (∀ l, l ≤ lvl → spent aggl p1 l → spent aggl p l) as Hback.
      { intros l Hle Hs c (q' & Hq' & Hc). apply Hs. exists q'. split; [|done]. assert (l < length (sp_q p)) as Hll by (rewrite (pw_len _ _ Hw); lia).
        rewrite (emptied_same _ p p1 l Hll He) by lia. done. }
      eapply wp_mono; [apply IH; [|done|lia]|].
      { apply Hw1; [|done]. intros q' _ c Hc. by apply elem_of_nil in Hc. }
      intros [o p2]. cbn [fst snd]. destruct o as [s|].
      * intros (l & p0 & Hle & Hsl & Hem & Htk). exists l, p0. split_and!; [lia| | |done].
        -- intros l' Hl'. destruct (decide (l' = S lvl)) as [->|]; [done|]. apply Hback; [lia|]. apply Hsl. lia.
        -- eapply emptied_ext; [|eapply emptied_comp; [|exact He|exact Hem]].
           ++ intros l' _. simpl. lia.
           ++ intros l'. simpl. lia.
      * intros (Hsl & Hem & Hw2). split_and!; [| |done].
        -- intros l' Hl'. destruct (decide (l' = S lvl)) as [->|]; [done|]. apply Hback; [lia|]. apply Hsl. lia.
        -- eapply emptied_ext; [|eapply emptied_comp; [|exact He|exact Hem]].
           ++ intros l' _. simpl. lia.
           ++ intros l'. simpl. lia.
Qed.

Lemma build_queue_eq aggl p z :
  pool_wf bnd p → length aggl = n → (0 <= z <= 3)%Z →
  wp (build_queue prio bnd aggl p z) (λ p',
    ∃ old l, sp_q p !! Z.to_nat z = Some old ∧ p' = set_q p (<[Z.to_nat z := old ++ l]> (sp_q p)) ∧
      listing prio (λ x, is_free aggl x ∧ bnd !! x = Some z) l).
Proof using HD.
  intros Hw Hag Hz. unfold build_queue. wstep. pose proof Hp as Hpl. eapply wp_mono.
  { apply (wp_foldM _ (λ (pre : list nat) s, good_pset prio s ∧
      ∀ c, c ∈ map fst s ↔ c ∈ pre ∧ is_free aggl c ∧ bnd !! c = Some z)).
    { split; [apply good_nil|]. intros c. simpl. rewrite elem_of_nil. tauto. }
    intros pre i post s Hseq [Hs Hel].
    assert (i < n) as Hi.
    { assert (i ∈ seq 0 (length bnd)) as Hi' by (rewrite Hseq; set_solver).
      apply elem_of_seq in Hi'. lia. }
    wstep. apply wp_vget; [lia|]. intros b Hbi. destruct b.
    { simpl. split; [done|]. intros c. rewrite Hel, elem_of_app, elem_of_list_singleton.
      split; [tauto|]. intros [[?| ->] [Hf ?]]; [tauto|]. unfold is_free in Hf. congruence. }
    wstep. apply wp_vget; [lia|]. intros x Hx. case_bool_decide as Hxz.
    - wstep. apply wp_vget; [lia|]. intros w Hwt. simpl. split; [by apply good_insert; [apply Hord|..]|].
      intros c. rewrite pset_insert_fst, Hel, elem_of_app, elem_of_list_singleton. simpl.
      split; [|tauto]. intros [->|?]; [|tauto]. subst x. unfold is_free. auto.
    - simpl. split; [done|]. intros c. rewrite Hel, elem_of_app, elem_of_list_singleton.
      split; [tauto|]. intros [[?| ->] [Hf ?]]; [tauto|]. congruence. }
  simpl. intros s [Hs Hel].
  assert (∀ c, c ∈ map fst s ↔ is_free aggl c ∧ bnd !! c = Some z) as Hel'.
  { intros c. rewrite Hel. split; [tauto|]. intros Hc. split; [|done].
    apply elem_of_seq. pose proof (lookup_lt_Some _ _ _ (proj1 Hc)). lia. }
  destruct (lookup_lt_is_Some_2 (sp_q p) (Z.to_nat z)) as [old Hold]; [rewrite (pw_len _ _ Hw); lia|].
  assert (listing prio (λ x, is_free aggl x ∧ bnd !! x = Some z) (map fst s)) as Hlst.
  { split; [done|]. by apply (good_urgent prio bnd HD). }
  destruct s as [|pr s].
  { simpl. exists old, []. split_and!; [done| |done]. rewrite app_nil_r, list_insert_id by done. by destruct p. }
  unfold push_back. wstep. wstep. apply wp_vgetZ; [rewrite (pw_len _ _ Hw); lia|]. intros old' Ho.
  rewrite vsetZ_ok by (rewrite (pw_len _ _ Hw); lia). simpl.
  exists old', (map fst (pr :: s)). done.
Qed.

Lemma choose_rebuild_takes aggl p t :
  pool_wf bnd p → length aggl = n → (0 <= t <= 3)%Z →
  wp (choose_rebuild prio bnd aggl p t) (λ r,
    match r.1 with
    | None => ∀ c, ¬ is_free aggl c
    | Some s => ∃ b, (first_above bnd aggl t b ∨ highest_free bnd aggl b ∧ (b < t)%Z) ∧
        (taken aggl p (Z.to_nat b) s r.2 ∨
         spent aggl p (Z.to_nat b) ∧ ∃ rest,
           listing prio (λ x, is_free aggl x ∧ bnd !! x = Some b) (s :: rest) ∧
           left_with p (Z.to_nat b) rest r.2)
    end).
Proof using HD.
  intros Hw Hag Ht. unfold choose_rebuild. wstep.
  eapply wp_mono; [by apply (get_highest_exact prio bnd HD)|]. intros [cq|] Hcq; [|done].
  assert (∃ c, is_free aggl c ∧ bnd !! c = Some cq) as (c0 & Hc0 & Hc0b).
  { destruct Hcq as [(_ & c & ? & ? & _)|[[? _] _]]; eauto. }
  assert (0 <= cq <= 3)%Z as Hcq3 by (by eapply Hb3).
  set (p' := set_top p (Some cq)).
  assert (pool_wf bnd p') as Hw'.
  { split; simpl; [apply Hw|apply Hw|]. intros ? [= <-]. done. }
  wstep. eapply wp_mono; [by apply spoil_level_eq|].
  intros [o p1]. cbn [fst snd]. intros (q & Hq & Ho). simpl in Hq.
  destruct o as [s|].
  - destruct Ho as (Hs & pre & post & -> & Hpre & ->). cbn [wp fst snd]. exists cq. split; [done|].
    left. split; [done|]. exists pre, post. split_and!; [done..|]. unfold left_with, set_q. simpl. by rewrite Z2Nat.id by lia.
  - destruct Ho as [Hno ->]. wstep. set (p1 := set_q p' (<[Z.to_nat cq:=[]]> (sp_q p'))).
    assert (pool_wf bnd p1) as Hw1.
    { apply (spoil_wf aggl); [done| |done]. intros q' _ c Hc. by apply elem_of_nil in Hc. }
    assert (sp_q p1 !! Z.to_nat cq = Some []) as Hq1.
    { apply list_lookup_insert. simpl. rewrite (pw_len _ _ Hw). lia. }
    eapply wp_mono; [by apply build_queue_eq|]. intros p2 (old & l & Hold & -> & Hl).
    rewrite Hq1 in Hold. injection Hold as <-. cbn [app].
    wstep. apply wp_vgetZ; [simpl; rewrite !insert_length, (pw_len _ _ Hw); lia|]. simpl. intros q2 Hq2.
    rewrite list_lookup_insert in Hq2 by (rewrite ?insert_length, (pw_len _ _ Hw); lia). injection Hq2 as <-.
    destruct l as [|s l].
    { exfalso. assert (c0 ∈ []) as Hc0' by (by apply Hl). by apply elem_of_nil in Hc0'. }
    rewrite vsetZ_ok by (rewrite !insert_length, (pw_len _ _ Hw); lia). simpl. exists cq. split; [done|].
    right. split.
    { intros c (q' & Hq' & Hc). rewrite Hq in Hq'. injection Hq' as <-. auto. }
    exists l. split; [done|]. unfold left_with, set_q, p1, p'. simpl. rewrite !list_insert_insert.
    by rewrite Z2Nat.id by lia.
Qed.

(** What is left of the queues. *)
Lemma choose_takes aggl p :
  pool_wf bnd p → length aggl = n → sp_top p ≠ None →
  wp (choose_new_seed prio bnd aggl p) (λ r,
    match r.1 with
    | None => ∀ c, ¬ is_free aggl c
    | Some s => takes prio bnd aggl p s r.2
    end).
Proof using HD.
  intros Hw Hag Htop. unfold choose_new_seed.
  destruct (sp_top p) as [t|] eqn:Ht; [|done].
  assert (0 <= t <= 3)%Z as Ht3 by (by apply (pw_top _ _ Hw)).
  assert (∀ p0, pool_wf bnd p0 → (∀ l, inspected p t l → spent aggl p l) → emptied (inspected p t) p p0 →
    wp (choose_rebuild prio bnd aggl p0 t) (λ r,
      match r.1 with
      | None => ∀ c, ¬ is_free aggl c
      | Some s => takes prio bnd aggl p s r.2
      end)) as Hreb.
  { intros p0 Hw0 Hsp Hem. eapply wp_mono; [by apply choose_rebuild_takes|].
    intros [[s|] p2]; cbn [fst snd]; [|done]. intros (b & Hb & Hs). exists t. split; [done|]. right.
    split; [done|]. exists b, p0. done. }
  unfold inspected in Hreb. destruct (sp_bp p) eqn:Hkind.
  - wstep. eapply wp_mono; [by apply spoil_level_eq|]. intros [o p1]. cbn [fst snd].
    intros (q & Hq & Ho). destruct o as [s|].
    + destruct Ho as (Hs & pre & post & -> & Hpre & ->). cbn [wp fst snd]. exists t. split; [done|]. left.
      exists (Z.to_nat t), p. unfold inspected. rewrite Hkind. split_and!; [done| | |].
      * intros l' -> ?. lia.
      * apply emptied_none. intros l' [-> ?]. lia.
      * split; [done|]. exists pre, post. split_and!; [done..|]. unfold left_with, set_q.
        by rewrite Z2Nat.id, Ht, Hkind by lia.
    + destruct Ho as [Hno ->]. apply Hreb.
      * apply (spoil_wf aggl); [done| |done]. intros q' _ c Hc. by apply elem_of_nil in Hc.
      * intros l -> c (q' & Hq' & Hc). rewrite Hq in Hq'. injection Hq' as <-. auto.
      * eapply emptied_ext; [|by apply (emptied_one p t); [apply Hw|..]]. done.
  - rewrite bool_decide_true by lia. wstep.
    eapply wp_mono; [apply np_scan_takes; [done|done|lia]|].
    intros [o p1]. cbn [fst snd]. destruct o as [s|].
    + intros (l & p0 & Hl & Hsp & Hem & Htk). cbn [wp fst snd]. exists t. split; [done|]. left.
      exists l, p0. unfold inspected. rewrite Hkind. split_and!; [done| | |done].
      * intros l' ? ?. apply Hsp. lia.
      * eapply emptied_ext; [|exact Hem]. intros l' _. simpl. lia.
    + intros (Hsp & Hem & Hw1). by apply Hreb.
Qed.
End take.
