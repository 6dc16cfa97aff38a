(** * PoolT: which cell is taken from a pool of seeds *)

From Verif Require Export Spec SpecPool SeedsP.
From Verif Require Import NeighP.

Lemma seq_pre_elem n (pre post : list nat) i :
  seq 0 n = pre ++ i :: post → ∀ c, c ∈ pre ↔ c < i.
Proof.
  intros Hs c.
  assert (∀ k x, (pre ++ i :: post) !! k = Some x → x = k) as Hk.
  { intros k x. rewrite <- Hs. intros Hx. apply lookup_seq in Hx. lia. }
  assert (i = length pre) as Hi.
  { apply Hk. rewrite lookup_app_r by lia. by rewrite Nat.sub_diag. }
  split.
  - intros (k & Hc)%elem_of_list_lookup. pose proof (lookup_lt_Some _ _ _ Hc).
    assert (c = k) by (apply Hk; by apply lookup_app_l_Some). lia.
  - intros Hc. destruct (lookup_lt_is_Some_2 pre c) as [x Hx]; [lia|].
    assert (x = c) as -> by (apply Hk; by apply lookup_app_l_Some). by eapply elem_of_list_lookup_2.
Qed.

Section seeds.
Context {A : Arith} {H : HashOrder}.
Context (prio : list W) (bnd : list Z) (HD : pool_data prio bnd).
Notation n := (length bnd).
Implicit Types (p : pool) (aggl : list bool).

Lemma pd_weak : weak_order wlt (λ w, w ∈ prio).
Proof using HD.
  split.
  - intros x Hx. by apply (pd_ord _ _ HD x x x).
  - intros x y z Hx Hy Hz. by apply (pd_ord _ _ HD x y z).
  - intros x y z Hx Hy Hz. by apply (pd_ord _ _ HD x y z).
Qed.
Notation Hp := (pd_len _ _ HD).
Notation Hb3 := (pd_bnd _ _ HD).
Notation Hord := pd_weak.

(** ** Exact behaviour of the parts *)

Lemma get_highest_exact aggl e :
  length aggl = n →
  wp (get_highest bnd aggl e) (λ r, match r with
    | None => ∀ c, ¬ is_free aggl c
    | Some v => first_above bnd aggl e v ∨
        highest_free bnd aggl v ∧ (v < e)%Z
    end).
Proof using HD.
  intros Hag. unfold get_highest.
  assert (∀ cells pre best, seq 0 (length bnd) = pre ++ cells →
    match best with
    | None => ∀ c, c ∈ pre → ¬ is_free aggl c
    | Some v => (∃ c, is_free aggl c ∧ bnd !! c = Some v) ∧ (v < e)%Z ∧
        ∀ c b, c ∈ pre → is_free aggl c → bnd !! c = Some b → (b <= v)%Z
    end →
    wp (highest_loop bnd aggl e cells best) (λ r, match r with
    | None => ∀ c, ¬ is_free aggl c
    | Some v => first_above bnd aggl e v ∨ highest_free bnd aggl v ∧ (v < e)%Z
    end)) as Hgen; [|apply (Hgen _ []); [done|intros c Hc; by apply elem_of_nil in Hc]].
  induction cells as [|i cells IH]; intros pre best Hseq Hbest; simpl.
  - rewrite app_nil_r in Hseq.
    assert (∀ c, is_free aggl c → c ∈ pre) as Hin.
    { intros c Hc. rewrite <- Hseq. apply elem_of_seq. apply lookup_lt_Some in Hc. lia. }
    destruct best as [v|]; [|intros c Hc; by apply (Hbest c); [apply Hin|]].
    destruct Hbest as (Hex & Hlt & Hbest). right. split; [split; [done|]|done]. eauto.
  - assert (i < n) as Hi.
    { assert (i ∈ seq 0 (length bnd)) as Hi' by (rewrite Hseq; set_solver).
      apply elem_of_seq in Hi'. lia. }
    assert (∀ c, c ∈ pre ↔ c < i) as Hpre.
    { by eapply seq_pre_elem. }
    assert (seq 0 (length bnd) = (pre ++ [i]) ++ cells) as Hseq' by (by rewrite <- app_assoc).
    wstep. apply wp_vget; [lia|]. intros b Hbi. destruct b.
    + apply (IH (pre ++ [i])); [done|].
      assert (¬ is_free aggl i) as Hni by (unfold is_free; congruence).
      destruct best as [v|].
      * destruct Hbest as (? & ? & Hbest). split_and!; [done..|]. intros c b Hc.
        apply elem_of_app in Hc as [?|Hc]; [eauto|].
        apply elem_of_list_singleton in Hc as ->. done.
      * intros c Hc. apply elem_of_app in Hc as [?|Hc]; [eauto|].
        apply elem_of_list_singleton in Hc as ->. done.
    + wstep. apply wp_vget; [lia|]. intros x Hx.
      case_bool_decide as Hex.
      { simpl. left. split; [done|]. exists i. split_and!; [done..|]. intros c' b' Hf Hb' Hle.
        destruct (decide (c' < i)) as [Hc|Hc]; [|lia]. exfalso. apply Hpre in Hc.
        destruct best as [v|]; [|by apply (Hbest c')].
        destruct Hbest as (_ & Hv & Hbest). specialize (Hbest _ _ Hc Hf Hb'). lia. }
      apply (IH (pre ++ [i])); [done|]. split_and!.
      * destruct best as [v|].
        -- case_bool_decide; [exists i; done|]. by destruct Hbest.
        -- case_bool_decide; [lia|]. exists i. done.
      * destruct best as [v|]; case_bool_decide; try lia.
      * intros c b Hc Hfc Hcb. apply elem_of_app in Hc as [Hc|Hc].
        -- destruct best as [v|]; [|by destruct (Hbest c)].
           destruct Hbest as (_ & _ & Hbest). specialize (Hbest _ _ Hc Hfc Hcb).
           case_bool_decide; lia.
        -- apply elem_of_list_singleton in Hc as ->. rewrite Hx in Hcb. simplify_eq.
           case_bool_decide; lia.
Qed.

Lemma build_queue_exact aggl p z :
  pool_wf bnd p → length aggl = n → (0 <= z <= 3)%Z →
  wp (build_queue prio bnd aggl p z) (λ p',
    ∃ old l, sp_q p !! Z.to_nat z = Some old ∧ sp_q p' !! Z.to_nat z = Some (old ++ l) ∧
      (∀ c, c ∈ l ↔ is_free aggl c ∧ bnd !! c = Some z) ∧ prio_sorted prio l ∧ NoDup l).
Proof using HD.
  intros Hw Hag Hz. unfold build_queue. wstep. pose proof Hp as Hpl. eapply wp_mono.
  { apply (wp_foldM _ (λ (pre : list nat) s, good_pset prio s ∧
      ∀ c, c ∈ map fst s ↔ c ∈ pre ∧ is_free aggl c ∧ bnd !! c = Some z)).
    { split; [apply good_nil|]. intros c. simpl. rewrite elem_of_nil. tauto. }
    intros pre i post s Hseq [Hs Hel].
    assert (i < n) as Hi.
    { assert (i ∈ seq 0 (length bnd)) as Hi' by (rewrite Hseq; set_solver).
      apply elem_of_seq in Hi'. lia. }
    wstep. apply wp_vget; [lia|]. intros b Hbi. destruct b.
    { simpl. split; [done|]. intros c. rewrite Hel, elem_of_app, elem_of_list_singleton.
      split; [tauto|]. intros [[?| ->] [Hf ?]]; [tauto|]. unfold is_free in Hf. congruence. }
    wstep. apply wp_vget; [lia|]. intros x Hx. case_bool_decide as Hxz.
    - wstep. apply wp_vget; [lia|]. intros w Hwt. simpl. split; [by apply good_insert; [apply Hord|..]|].
      intros c. rewrite pset_insert_fst, Hel, elem_of_app, elem_of_list_singleton. simpl.
      split; [|tauto]. intros [->|?]; [|tauto]. subst x. unfold is_free. auto.
    - simpl. split; [done|]. intros c. rewrite Hel, elem_of_app, elem_of_list_singleton.
      split; [tauto|]. intros [[?| ->] [Hf ?]]; [tauto|]. congruence. }
  simpl. intros s [Hs Hel].
  assert (∀ c, c ∈ map fst s ↔ is_free aggl c ∧ bnd !! c = Some z) as Hel'.
  { intros c. rewrite Hel. split; [tauto|]. intros Hc. split; [|done].
    apply elem_of_seq. pose proof (lookup_lt_Some _ _ _ (proj1 Hc)). lia. }
  destruct (lookup_lt_is_Some_2 (sp_q p) (Z.to_nat z)) as [old Hold]; [rewrite (pw_len _ _ Hw); lia|].
  destruct s as [|pr s].
  { simpl. exists old, []. split_and!; [done|by rewrite app_nil_r|done| |constructor].
    intros i j a b wa wb Hij Ha. done. }
  wstep. eapply wp_mono; [apply push_back_ok; [apply Hw|done]|]. simpl.
  intros q' [Hl Hlk].
  assert (q' !! Z.to_nat z = Some (old ++ pr.1 :: map fst s)) as Hlkz.
  { apply Hlk. rewrite decide_True by done. eauto. }
  exists old, (pr.1 :: map fst s). split_and!; [done..| |].
  - by apply (good_prio_sorted prio (pr :: s)).
  - by apply (good_NoDup prio Hord (pr :: s)).
Qed.

Lemma sorted_head_best aggl b s l :
  prio_sorted prio (s :: l) → NoDup (s :: l) → (∀ c, c ∈ s :: l ↔ is_free aggl c ∧ bnd !! c = Some b) →
  best_of prio bnd aggl b s.
Proof using.
  intros Hs Hnd Hl. destruct (proj1 (Hl s)) as [Hf Hb]; [left|]. split_and!; [done..|].
  intros c ws wc Hc Hcb Hne Hws Hwc. assert (c ∈ s :: l) as Hin by (by apply Hl).
  apply elem_of_cons in Hin as [->|Hin]; [done|]. apply elem_of_list_lookup in Hin as [k Hk].
  apply (Hs 0 (S k) s c ws wc); [lia|done..].
Qed.

(** What is done when the queues are exhausted. *)
Lemma choose_rebuild_exact aggl p t :
  pool_wf bnd p → length aggl = n → (0 <= t <= 3)%Z →
  wp (choose_rebuild prio bnd aggl p t) (λ r,
    match r.1 with
    | None => ∀ c, ¬ is_free aggl c
    | Some s => ∃ b, (first_above bnd aggl t b ∨ highest_free bnd aggl b ∧ (b < t)%Z) ∧
        (first_of aggl p (Z.to_nat b) s ∨
         (∀ c, queued p (Z.to_nat b) c → ¬ is_free aggl c) ∧ best_of prio bnd aggl b s)
    end).
Proof using HD.
  intros Hw Hag Ht. unfold choose_rebuild. wstep.
  eapply wp_mono; [by apply get_highest_exact|]. intros [cq|] Hcq; [|done].
  assert (∃ c, is_free aggl c ∧ bnd !! c = Some cq) as (c0 & Hc0 & Hc0b).
  { destruct Hcq as [(_ & c & ? & ? & _)|[[? _] _]]; eauto. }
  assert (0 <= cq <= 3)%Z as Hcq3 by (by eapply Hb3).
  wstep. eapply wp_mono.
  { apply (spoil_level_ok prio bnd Hp); [|done|done].
    split; simpl; [apply Hw|apply Hw|]. intros ? [= <-]. done. }
  intros [o p1]. simpl. intros (Hw1 & Ht1 & Hbp1 & Hone1 & Hin1 & Hoth1 & Ho).
  destruct o as [s|].
  - destruct Ho as (Hs & Hsq & pre & q & Hq & Hq1 & Hpre). simpl. exists cq. split; [done|].
    left. split; [done|]. exists pre, q. done.
  - destruct Ho as [Hq1 Hno]. wstep. eapply wp_mono.
    { apply wp_and; [apply build_queue_exact; [done|done|done]|].
      apply (build_queue_ok prio bnd Hp Hb3 Hord aggl p1 cq); done. }
    intros p2 [(old & l & Hold & Hq2 & Hl & Hls & Hlnd) (Hw2 & _)].
    rewrite Hq1 in Hold. simplify_eq. simpl in Hq2.
    wstep. apply wp_vgetZ; [rewrite (pw_len _ _ Hw2); lia|]. intros q Hq. rewrite Hq2 in Hq. simplify_eq.
    destruct q as [|s q].
    { exfalso. assert (c0 ∈ []) as Hc0' by (by apply Hl). by apply elem_of_nil in Hc0'. }
    rewrite vsetZ_ok by (rewrite (pw_len _ _ Hw2); lia). simpl. exists cq. split; [done|].
    right. split; [done|]. by eapply sorted_head_best.
Qed.

Lemma np_scan_exact aggl p lvl :
  pool_wf bnd p → length aggl = n → lvl ≤ 3 →
  wp (np_scan aggl p lvl) (λ r,
    match r.1 with
    | Some s => ∃ l, l ≤ lvl ∧ first_of aggl p l s ∧
        ∀ l' c, l < l' ≤ lvl → queued p l' c → ¬ is_free aggl c
    | None => ∀ l c, l ≤ lvl → queued p l c → ¬ is_free aggl c
    end).
Proof using HD.
  revert p. induction lvl as [|lvl IH]; intros p Hw Hag Hl; simpl; wstep;
    (eapply wp_mono; [apply (spoil_level_ok prio bnd Hp); [done|done|lia]|]);
    intros [o p1]; simpl; intros (Hw1 & Ht1 & Hbp1 & Hone1 & Hin1 & Hoth1 & Ho).
  - destruct o as [s|]; simpl.
    + destruct Ho as (Hs & _ & pre & q & Hq & _ & Hpre). exists 0. split_and!; [done| |lia].
      split; [done|]. exists pre, q. done.
    + destruct Ho as [_ Ho]. intros l c Hl0. assert (l = 0) as -> by lia. apply Ho.
  - destruct o as [s|].
    + destruct Ho as (Hs & _ & pre & q & Hq & _ & Hpre). simpl.
      replace (Z.to_nat (Z.of_nat (S lvl))) with (S lvl) in * by lia.
      exists (S lvl). split_and!; [done| |lia].
      split; [done|]. exists pre, q. done.
    + destruct Ho as [_ Ho]. replace (Z.to_nat (Z.of_nat (S lvl))) with (S lvl) in * by lia.
      assert (∀ l c, l ≤ lvl → queued p l c → queued p1 l c) as Hqq.
      { intros l c Hle (q & Hq & Hc). exists q. rewrite Hoth1 by lia. done. }
      eapply wp_mono; [apply IH; [done|done|lia]|]. intros [o p2]. simpl.
      destruct o as [s|].
      * intros (l & Hle & (Hf & pre & post & Hq & Hpre) & Hno). exists l. split_and!; [lia| |].
        -- split; [done|]. exists pre, post. rewrite <- Hoth1 by lia. done.
        -- intros l' c Hl' Hc. destruct (decide (l' = S lvl)) as [->|]; [by apply Ho|].
           apply (Hno l' c); [lia|]. apply Hqq; [lia|done].
      * intros Ho2 l c Hlt Hc. destruct (decide (l = S lvl)) as [->|]; [by apply Ho|].
        apply (Ho2 l c); [lia|]. apply Hqq; [lia|done].
Qed.

Lemma choose_exact aggl p :
  pool_inv bnd aggl p → length aggl = n → sp_top p ≠ None →
  wp (choose_new_seed prio bnd aggl p) (λ r,
    match r.1 with
    | None => ∀ c, ¬ is_free aggl c
    | Some s => is_free aggl s ∧
      if sp_bp p then
        ∃ b, bnd !! s = Some b ∧ highest_free bnd aggl b ∧
          (first_of aggl p (Z.to_nat b) s ∨
           (∀ c, queued p (Z.to_nat b) c → ¬ is_free aggl c) ∧ best_of prio bnd aggl b s)
      else
        (∃ l, first_of aggl p l s ∧ ∀ l' c, l < l' → queued p l' c → ¬ is_free aggl c) ∨
        (∀ l c, queued p l c → ¬ is_free aggl c) ∧
          ∃ t b, sp_top p = Some t ∧ best_of prio bnd aggl b s ∧
            (first_above bnd aggl t b ∨ highest_free bnd aggl b ∧ (b < t)%Z)
    end).
Proof using HD.
  intros [Hw Hbp Hnp] Hag Htop. unfold choose_new_seed.
  destruct (sp_top p) as [t|] eqn:Ht; [|done].
  assert (0 <= t <= 3)%Z as Ht3 by (by apply (pw_top _ _ Hw)).
  destruct (sp_bp p) eqn:Hkind.
  - specialize (Hbp eq_refl). clear Hnp. wstep.
    eapply wp_mono; [by apply (spoil_level_ok prio bnd Hp)|]. intros [o p1]. simpl.
    intros (Hw1 & Ht1 & Hbp1 & Hone1 & Hin1 & Hoth1 & Ho). destruct o as [s|].
    + destruct Ho as (Hs & Hsq & pre & q & Hq & _ & Hpre). simpl. split; [done|].
      pose proof (bi_lvl _ _ _ Hbp _ _ Hsq Hs) as Hsb. rewrite Z2Nat.id in Hsb by lia.
      exists t. split_and!; [done| |].
      * split; [by exists s|]. intros c b' Hf Hb'. by apply (bi_top _ _ _ Hbp t c b').
      * left. split; [done|]. exists pre, q. done.
    + destruct Ho as [Hq1 Hno]. eapply wp_mono; [by apply choose_rebuild_exact|].
      intros [[s|] p2]; simpl; [|done]. intros (b & Hb & Hs).
      assert (highest_free bnd aggl b) as Hhf.
      { destruct Hb as [(Hle & c & Hf & Hcb & _)|[Hb _]]; [|done]. split; [by exists c|].
        intros c' b' Hf' Hb'. pose proof (bi_top _ _ _ Hbp t c' b' Ht Hf' Hb'). lia. }
      assert (∀ c, queued p1 (Z.to_nat b) c ↔ queued p (Z.to_nat b) c ∧ Z.to_nat b ≠ Z.to_nat t) as Hqq.
      { intros c. destruct (decide (Z.to_nat b = Z.to_nat t)) as [E|Hne].
        - rewrite E. split; [|by intros [_ ?]]. intros (q & Hq & Hc). rewrite Hq1 in Hq. simplify_eq.
          by apply elem_of_nil in Hc.
        - unfold queued. rewrite Hoth1 by done. naive_solver. }
      destruct Hhf as [(cb & Hcbf & Hcbb) Hmax].
      assert (0 <= b <= 3)%Z as Hb30 by (by eapply Hb3).
      destruct Hs as [(Hf & pre & post & Hq & Hpre)|[Hnq Hbest]].
      * assert (queued p1 (Z.to_nat b) s) as Hs1.
        { exists (pre ++ s :: post). split; [done|]. set_solver. }
        pose proof (proj1 (Hqq s) Hs1) as [Hs0 Hne].
        pose proof (bi_lvl _ _ _ Hbp _ _ Hs0 Hf) as Hsb. rewrite Z2Nat.id in Hsb by lia.
        split; [done|]. exists b. split_and!; [done|by split; [exists cb|]|].
        left. split; [done|]. exists pre, post. by rewrite <- Hoth1.
      * destruct Hbest as (Hf & Hsb & Hbest). split; [done|].
        exists b. split_and!; [done|by split; [exists cb|]|]. right. split; [|done].
        intros c Hc. destruct (decide (Z.to_nat b = Z.to_nat t)) as [E|Hne].
        -- rewrite E in Hc. by apply Hno.
        -- apply Hnq, Hqq. done.
  - specialize (Hnp eq_refl). clear Hbp. rewrite bool_decide_true by lia. wstep.
    eapply wp_mono.
    { apply wp_and; [apply np_scan_exact; [done|done|lia]|]. apply (np_scan_ok prio bnd Hp); [done|done|lia]. }
    intros [o p1]. simpl. intros [Ho (Hw1 & Hbp1 & Hone1 & Hin1 & _)]. destruct o as [s|].
    + destruct Ho as (l & Hle & Hf & Hno). simpl. split; [by destruct Hf|]. left. exists l.
      split; [done|]. intros l' c Hl' Hc. destruct (decide (l' ≤ Z.to_nat t)) as [Hle'|Hgt].
      * apply (Hno l' c); [lia|done].
      * apply (Hnp t l' c); [done|lia|done].
    + assert (∀ l c, queued p l c → ¬ is_free aggl c) as Hnone.
      { intros l c Hc. destruct (decide (l ≤ Z.to_nat t)) as [Hle|Hgt]; [by eapply Ho|].
        apply (Hnp t l c); [done|lia|done]. }
      eapply wp_mono; [by apply choose_rebuild_exact|].
      intros [[s|] p2]; simpl; [|done]. intros (b & Hb & Hs).
      assert (best_of prio bnd aggl b s) as Hbs.
      { destruct Hs as [(Hf & pre & post & Hq & Hpre)|[_ Hs]]; [|done]. exfalso.
        apply (Hnone (Z.to_nat b) s); [|done]. apply Hin1. exists (pre ++ s :: post).
        split; [done|]. set_solver. }
      split; [by destruct Hbs|]. right. split; [done|]. exists t, b. done.
Qed.

(** ** Histories *)

Lemma lines_pool_ok g ct nb bp one :
  g_bnd g = bnd → length (ct_aggl ct) = n → (∀ x, x ∈ nb → x < n) →
  (one = true → ∀ w, w ∈ prio → wlt w wminv = false) →
  wp (update_seeds_pool g prio ct nb (pool_new bp one)) (λ p,
    pool_inv bnd (ct_aggl ct) p ∧ sp_top p ≠ None ∧ sp_bp p = bp ∧ sp_one p = one).
Proof using HD.
  intros Hg Hal Hnb Hpos. unfold update_seeds_pool. rewrite Hg. wstep.
  eapply wp_mono.
  { apply (wp_foldM_inv _ (λ acc : list nat, ∀ x, x ∈ acc → x < n)); [set_solver|].
    intros x acc Hx Hacc. wstep. apply wp_vget; [rewrite Hal; auto|]. intros [] _; [done|].
    simpl. intros y. rewrite elem_of_app, elem_of_list_singleton. intros [?| ->]; auto. }
  clear nb Hnb. intros nb Hnb. wstep.
  apply (wp_mono _ (λ p, pool_pre bnd (ct_aggl ct) p ∧ sp_bp p = bp ∧ sp_one p = one ∧
    (sp_top p ≠ None → pool_is_empty p = false))).
  - destruct nb as [|i nb'] eqn:Hnbe.
    { simpl. split_and!; try done. apply pool_inv_pre, pool_new_inv. }
    assert (i < n) as Hi by (apply Hnb; set_solver).
    unfold n_bnd. rewrite Hg. wstep. apply wp_vget; [done|]. intros b Hb.
    set (p1 := set_top (pool_new bp one) (Some b)).
    assert (∀ l c, ¬ inq p1 l c) as Hno by apply (pool_new_inq bp one).
    assert (pool_wf bnd p1) as Hw1.
    { split; [done| |].
      - intros l c Hc. by apply Hno in Hc.
      - intros t [= <-]. by apply Hb3 in Hb. }
    eapply wp_mono.
    { apply (pool_update_ok prio bnd Hp Hb3 Hord); [done|]. auto. }
    intros p' (Hl & Hbp & Hone & Hpush & Ht3 & Htn & Htm). split_and!; [|done..|].
    + eapply (pushed_pre prio bnd Hp Hb3 (ct_aggl ct) p1); try done. split; [done|..].
      * intros _ l c Hc. by apply Hno in Hc.
      * intros _ t l c _ _ Hc. by apply Hno in Hc.
    + intros _.
      assert (inq p' (Z.to_nat (ins_level p1 b)) i) as (q & Hq & Hi').
      { apply Hpush. right. split; [set_solver|]. exists b. split; [done|reflexivity]. }
      unfold pool_is_empty. apply not_true_iff_false. rewrite forallb_forall. intros Hall.
      apply elem_of_list_lookup_2, elem_of_list_In in Hq. specialize (Hall _ Hq).
      destruct q; [by apply elem_of_nil in Hi'|done].
  - intros p (Hpre & <- & <- & Hemp).
    apply (need_init_ok prio bnd Hp Hb3 Hord); try done. apply HD.
Qed.

Lemma hist_inv bp one aggl p :
  (one = true → ∀ w, w ∈ prio → wlt w wminv = false) → pool_hist prio bnd bp one aggl p →
  pool_inv bnd aggl p ∧ length aggl = n ∧ sp_top p ≠ None ∧ sp_bp p = bp.
Proof using HD.
  intros Hpos. induction 1 as [aggl p Hl He|g ct nb p Hg Hl Hnb He|aggl p s p' _ IH He|
    aggl aggl' p _ IH Hl Hsub|aggl p new p' _ IH Hnew He].
  - assert (wp (pool_initialize prio bnd (pool_new bp one)) (λ p', pool_inv bnd aggl p' ∧ sp_top p' ≠ None ∧
      sp_bp p' = sp_bp (pool_new bp one) ∧ sp_one p' = sp_one (pool_new bp one))) as Hw.
    { pose proof (pool_new_inv bnd aggl bp one) as [Hw Hbp Hnp].
      apply (pool_initialize_ok prio bnd Hp Hb3 Hord); try done. apply HD. }
    rewrite He in Hw. by destruct Hw as (? & ? & ? & ?).
  - pose proof (lines_pool_ok g ct nb bp one Hg Hl Hnb Hpos) as Hw. rewrite He in Hw.
    by destruct Hw as (? & ? & ? & ?).
  - destruct IH as (Hi & Hl & Ht & Hb).
    pose proof (choose_new_seed_ok prio bnd Hp Hb3 Hord aggl p Hi Hl Ht) as Hw.
    rewrite He in Hw. destruct Hw as (Hb' & _ & ? & ? & ?). simpl in *. split_and!; [done..|congruence].
  - destruct IH as (Hi & Hl' & Ht & Hb). split_and!; [|congruence|done..].
    eapply pool_inv_mono; [|done]. intros c Hc. eapply freec_mono; [done| |done]. done.
  - destruct IH as (Hi & Hl & Ht & Hb).
    pose proof (order_new_seeds_inv prio bnd Hp Hb3 Hord aggl p new Hi Ht Hnew) as Hw.
    rewrite He in Hw. destruct Hw as (? & ? & ? & ? & _). split_and!; [done..|congruence].
Qed.

Lemma C16_lem one aggl p :
  (one = true → ∀ w, w ∈ prio → wlt w wminv = false) → pool_hist prio bnd true one aggl p →
  ∃ r p', choose_new_seed prio bnd aggl p = Ok (r, p') ∧
    match r with
    | None => ∀ c, ¬ is_free aggl c
    | Some s => ∃ b, is_free aggl s ∧ bnd !! s = Some b ∧ highest_free bnd aggl b ∧
        (first_of aggl p (Z.to_nat b) s ∨
         (∀ c, queued p (Z.to_nat b) c → ¬ is_free aggl c) ∧ best_of prio bnd aggl b s)
    end.
Proof using HD.
  intros Hpos Hh. destruct (hist_inv _ _ _ _ Hpos Hh) as (Hi & Hl & Ht & Hb).
  pose proof (choose_exact aggl p Hi Hl Ht) as Hw. apply wp_eq in Hw as ([r p'] & He & Hr).
  exists r, p'. split; [done|]. simpl in Hr. destruct r as [s|]; [|done]. rewrite Hb in Hr.
  destruct Hr as (? & b & ? & ? & ?). by exists b.
Qed.

Lemma C17_lem one aggl p :
  (one = true → ∀ w, w ∈ prio → wlt w wminv = false) → pool_hist prio bnd false one aggl p →
  ∃ r p', choose_new_seed prio bnd aggl p = Ok (r, p') ∧
    match r with
    | None => ∀ c, ¬ is_free aggl c
    | Some s => is_free aggl s ∧
        ((∃ l, first_of aggl p l s ∧ ∀ l' c, l < l' → queued p l' c → ¬ is_free aggl c) ∨
         (∀ l c, queued p l c → ¬ is_free aggl c) ∧
           ∃ t b, sp_top p = Some t ∧ best_of prio bnd aggl b s ∧
             (first_above bnd aggl t b ∨ highest_free bnd aggl b ∧ (b < t)%Z))
    end.
Proof using HD.
  intros Hpos Hh. destruct (hist_inv _ _ _ _ Hpos Hh) as (Hi & Hl & Ht & Hb).
  pose proof (choose_exact aggl p Hi Hl Ht) as Hw. apply wp_eq in Hw as ([r p'] & He & Hr).
  exists r, p'. split; [done|]. simpl in Hr. destruct r as [s|]; [|done]. by rewrite Hb in Hr.
Qed.

(** ** One-point initialisation *)

Context (Hwm : weak_order wlt (λ w, w ∈ wminv :: prio)).

Lemma one_point_exact mb :
  wp (one_point_init prio bnd mb) (λ l,
    l = [n] ∧ (∀ c b w, bnd !! c = Some b → (mb <= b)%Z → prio !! c = Some w → wlt w wminv = true) ∨
    ∃ c b w, l = [c] ∧ bnd !! c = Some b ∧ (mb <= b)%Z ∧ prio !! c = Some w ∧ wlt w wminv = false ∧
      ∀ c' b' w', bnd !! c' = Some b' → (mb <= b')%Z → prio !! c' = Some w' → c' ≠ c →
        wlt w' w = true ∨ wlt w w' = false ∧ c < c').
Proof using HD Hwm.
  unfold one_point_init. pose proof Hp as Hpl. wstep. eapply wp_mono.
  { apply (wp_foldM _ (λ (pre : list nat) (cur : nat * W),
      cur = (n, wminv) ∧ (∀ c b w, c ∈ pre → bnd !! c = Some b → (mb <= b)%Z → prio !! c = Some w → wlt w wminv = true) ∨
      (∃ b, bnd !! cur.1 = Some b ∧ (mb <= b)%Z) ∧ keyed prio cur ∧ wlt cur.2 wminv = false ∧
      ∀ c' b' w', c' ∈ pre → bnd !! c' = Some b' → (mb <= b')%Z → prio !! c' = Some w' →
        pair_gt (c', w') cur = false)).
    { left. split; [done|]. intros c b w Hc. by apply elem_of_nil in Hc. }
    intros pre i post cur Hseq Hcur.
    assert (i < n) as Hi.
    { assert (i ∈ seq 0 n) as Hi' by (rewrite Hseq; set_solver).
      apply elem_of_seq in Hi'. lia. }
    wstep. apply wp_vget; [lia|]. intros w Hw.
    wstep. apply wp_vget; [lia|]. intros x Hx. simpl.
    assert (w ∈ prio) as Hwin by (by eapply elem_of_list_lookup_2).
    case_bool_decide as Hxz; simpl.
    - destruct Hcur as [[-> Hcur]|(Hcb & Hck & Hcp & Hcm)].
      + destruct (wlt w wminv) eqn:Ewm.
        * assert (wlt wminv w = false) as Ewm'.
          { destruct (wlt wminv w) eqn:E; [|done]. exfalso.
            assert (wlt w w = true) as Hx' by (apply (wo_tr _ _ Hwm w wminv w); set_solver).
            rewrite (wo_irr _ _ Hwm) in Hx'; set_solver. }
          assert (pair_gt (i, w) (n, wminv) = false) as ->.
          { unfold pair_gt. simpl. by rewrite Ewm', Ewm. }
          left. split; [done|]. intros c b w' Hc Hb Hle Hw'. apply elem_of_app in Hc as [Hc|Hc]; [eauto|].
          apply elem_of_list_singleton in Hc as ->. congruence.
        * assert (pair_gt (i, w) (n, wminv) = true) as ->.
          { unfold pair_gt. simpl. destruct (wlt wminv w); [done|]. rewrite Ewm.
            by apply bool_decide_eq_true. }
          right. split; [by exists x|]. split; [done|]. split; [done|].
          intros c' b' w' Hc' Hb' Hle Hw'. apply elem_of_app in Hc' as [Hc'|Hc'].
          { specialize (Hcur _ _ _ Hc' Hb' Hle Hw').
            assert (w' ∈ prio) as Hw'in by (by eapply elem_of_list_lookup_2).
            assert (wlt w' w = true) as E1.
            { destruct (wo_neg _ _ Hwm w' w wminv) as [?|?]; [set_solver..|congruence]. }
            assert (wlt w w' = false) as E2.
            { destruct (wlt w w') eqn:E; [|done]. exfalso.
              assert (wlt w w = true) as Hx' by (apply (wo_tr _ _ Hwm w w' w); set_solver).
              rewrite (wo_irr _ _ Hwm) in Hx'; set_solver. }
            unfold pair_gt. simpl. by rewrite E2, E1. }
          apply elem_of_list_singleton in Hc' as ->. rewrite Hw in Hw'. simplify_eq.
          by apply (pair_gt_irr _ Hord).
      + right. destruct (pair_gt (i, w) cur) eqn:Hgt.
        * split; [by exists x|]. split; [done|]. split.
          { simpl. destruct (wlt w wminv) eqn:E; [|done]. exfalso.
            assert (cur.2 ∈ prio) as Hcin by (by eapply keyed_in).
            unfold pair_gt in Hgt. simpl in Hgt. destruct (wlt cur.2 w) eqn:E1.
            - rewrite (wo_tr _ _ Hwm cur.2 w wminv) in Hcp; [done|set_solver..|done|done].
            - destruct (wo_neg _ _ Hwm w cur.2 wminv) as [E2|?]; [set_solver..| |congruence].
              rewrite E2 in Hgt. done. }
          intros c' b' w' Hc' Hb' Hle Hw'. apply elem_of_app in Hc' as [Hc'|Hc'].
          -- destruct (pair_gt (c', w') (i, w)) eqn:Hgt'; [|done].
             rewrite <- (Hcm c' b' w') by done. symmetry.
             eapply (pair_gt_trans _ Hord _ (i, w)); try done; simpl.
             ++ by eapply elem_of_list_lookup_2.
             ++ by eapply keyed_in.
          -- apply elem_of_list_singleton in Hc' as ->. rewrite Hw in Hw'. simplify_eq.
             by apply (pair_gt_irr _ Hord).
        * split_and!; [done..|].
          intros c' b' w' Hc' Hb' Hle Hw'. apply elem_of_app in Hc' as [Hc'|Hc']; [by eauto|].
          apply elem_of_list_singleton in Hc' as ->. rewrite Hw in Hw'. by simplify_eq.
    - destruct Hcur as [[-> Hcur]|(Hcb & Hck & Hcp & Hcm)]; [left|right].
      + split; [done|]. intros c b w' Hc Hcb. apply elem_of_app in Hc as [Hc|Hc]; [eauto|].
        apply elem_of_list_singleton in Hc as ->. rewrite Hx in Hcb. simplify_eq. lia.
      + split_and!; [done..|]. intros c' b' w' Hc' Hb' Hle Hw'.
        apply elem_of_app in Hc' as [Hc'|Hc']; [by eauto|].
        apply elem_of_list_singleton in Hc' as ->. rewrite Hx in Hb'. by simplify_eq. }
  assert (∀ c b, bnd !! c = Some b → c ∈ seq 0 n) as Hseq.
  { intros c b Hc. apply lookup_lt_Some in Hc. apply elem_of_seq. lia. }
  simpl. intros [c w] [[[= -> ->] Hno]|((b & Hcb & Hle) & Hck & Hcp & Hcm)].
  { left. split; [done|]. intros c b w Hc. eauto. }
  right. simpl in *. unfold keyed in Hck. simpl in Hck. exists c, b, w. split_and!; [done..|].
  intros c' b' w' Hc' Hle' Hw' Hne. specialize (Hcm c' b' w' (Hseq _ _ Hc') Hc' Hle' Hw').
  unfold pair_gt in Hcm. simpl in Hcm. destruct (wlt w w') eqn:E1; [done|].
  destruct (wlt w' w) eqn:E2; [by left|]. right. split; [done|].
  apply bool_decide_eq_false in Hcm. lia.
Qed.

(** The first seed of a one-point pool. *)
Lemma one_point_first bp :
  ∃ p, pool_initialize prio bnd (pool_new bp true) = Ok p ∧
    ((∃ b s p', highest_free bnd (replicate n false) b ∧ best_of prio bnd (replicate n false) b s ∧
        (∃ w, prio !! s = Some w ∧ wlt w wminv = false) ∧
        choose_new_seed prio bnd (replicate n false) p = Ok (Some s, p')) ∨
     (∃ b, highest_free bnd (replicate n false) b ∧
        (∀ c w, bnd !! c = Some b → prio !! c = Some w → wlt w wminv = true) ∧
        choose_new_seed prio bnd (replicate n false) p = Err EUB)).
Proof using HD Hwm.
  assert (∀ c, is_free (replicate n false) c ↔ c < n) as Hfree.
  { intros c. unfold is_free. rewrite lookup_replicate. tauto. }
  pose proof (max_bnd_ok bnd (pd_pos _ _ HD)) as Hm. apply wp_eq in Hm as (mb & Hm & (cm & Hcm) & Hmax).
  assert (0 <= mb <= 3)%Z as Hmb by (by eapply Hb3).
  assert (highest_free bnd (replicate n false) mb) as Hhf.
  { split; [|intros c b _; apply Hmax]. exists cm. split; [|done]. apply Hfree. by eapply lookup_lt_Some. }
  assert (∀ (l : list nat), ∃ q, push_back (sp_q (pool_new bp true)) mb l = Ok q ∧ q !! Z.to_nat mb = Some l) as Hpush.
  { intros l. pose proof (push_back_ok (sp_q (pool_new bp true)) mb l eq_refl Hmb) as Hq.
    apply wp_eq in Hq as (q & Hq & Hlen & Hl). exists q. split; [done|].
    apply Hl. rewrite decide_True by done. exists []. split; [|done].
    assert (Z.to_nat mb < 4) as Hlt by lia. revert Hlt. generalize (Z.to_nat mb). intros k Hk.
    simpl. do 4 (destruct k as [|k]; [done|]). lia. }
  pose proof (one_point_exact mb) as Ho. apply wp_eq in Ho as (l & Ho & Hl).
  destruct (Hpush l) as (q & Hq & Hql).
  set (p := set_top (set_q (pool_new bp true) q) (Some mb)).
  assert (pool_initialize prio bnd (pool_new bp true) = Ok p) as Hinit.
  { unfold pool_initialize. cbn [sp_top pool_new]. rewrite Hm. cbn [mbind res_bind].
    assert (∃ x, vgetZ (sp_q (pool_new bp true)) mb = Ok x) as [x Hx].
    { assert (mb = 0 ∨ mb = 1 ∨ mb = 2 ∨ mb = 3)%Z as [-> | [-> | [-> | ->]]] by lia; by eexists. }
    rewrite Hx. cbn [mbind res_bind sp_one pool_new]. rewrite Ho. cbn [mbind res_bind]. by rewrite Hq. }
  exists p. split; [done|].
  assert (∀ (aggl : list bool) c, l = [c] → aggl !! c = Some false →
    ∃ p', choose_new_seed prio bnd aggl p = Ok (Some c, p')) as Hok.
  { intros aggl c -> Hc. unfold choose_new_seed. cbn [sp_top p set_top].
    assert (∃ p', spoil_level aggl p mb = Ok (Some c, p')) as [p' Hsp].
    { unfold spoil_level, vgetZ, vsetZ, vset. rewrite bool_decide_true by lia. unfold vget. cbn [sp_q p set_top set_q].
      rewrite Hql. cbn. unfold vget. rewrite Hc. cbn.
      destruct (decide _) as [_|Hn]; [by eexists|]. destruct Hn. apply lookup_lt_Some in Hql. done. }
    destruct bp; cbn [sp_bp p set_top set_q pool_new].
    - rewrite Hsp. cbn. by eexists.
    - rewrite bool_decide_true by lia.
      assert (np_scan aggl p (Z.to_nat mb) = Ok (Some c, set_top p' (Some (Z.of_nat (Z.to_nat mb))))) as Hns.
      { destruct (Z.to_nat mb) as [|k] eqn:Ek; cbn [np_scan].
        - replace (Z.of_nat 0) with mb by lia. rewrite Hsp. done.
        - replace (Z.of_nat (S k)) with mb by lia. rewrite Hsp. done. }
      rewrite Hns. cbn. by eexists. }
  destruct Hl as [[-> Hno]|(c & b & w & -> & Hcb & Hle & Hw & Hwp & Hbest)].
  - right. exists mb. split_and!; [done| |].
    + intros c w Hc Hw. apply (Hno c mb w); [done|lia|done].
    + unfold choose_new_seed. cbn [sp_top p set_top].
      assert (spoil_level (replicate n false) p mb = Err EUB) as Hsp.
      { unfold spoil_level, vgetZ. rewrite bool_decide_true by lia. unfold vget. cbn [sp_q p set_top set_q].
        rewrite Hql. cbn. unfold vget. rewrite (lookup_ge_None_2 (replicate n false)) by (rewrite replicate_length; lia). done. }
      destruct bp; cbn [sp_bp p set_top set_q pool_new].
      * by rewrite Hsp.
      * rewrite bool_decide_true by lia. destruct (Z.to_nat mb) as [|k] eqn:Ek; cbn [np_scan].
        -- replace (Z.of_nat 0) with mb by lia. by rewrite Hsp.
        -- replace (Z.of_nat (S k)) with mb by lia. by rewrite Hsp.
  - left. pose proof (Hmax _ _ Hcb). assert (b = mb) as -> by lia.
    destruct (Hok (replicate n false) c eq_refl) as [p' Hch].
    { apply Hfree. by eapply lookup_lt_Some. }
    exists mb, c, p'. split_and!; [done| |by exists w|done].
    split_and!; [apply Hfree; by eapply lookup_lt_Some|done|].
    intros c' ws wc _ Hc' Hne Hws Hwc. rewrite Hw in Hws. simplify_eq.
    apply (Hbest c' mb wc); [done|lia|done..].
Qed.

Lemma C18_lem bp b c w :
  highest_free bnd (replicate (length bnd) false) b → bnd !! c = Some b → prio !! c = Some w → wlt w wminv = false →
  ∃ p s p', pool_initialize prio bnd (pool_new bp true) = Ok p ∧
    choose_new_seed prio bnd (replicate (length bnd) false) p = Ok (Some s, p') ∧
    best_of prio bnd (replicate (length bnd) false) b s.
Proof using HD Hwm.
  intros Hhf Hc Hw Hpos. destruct (one_point_first bp) as (p & Hp & Hcase).
  assert (∀ b', highest_free bnd (replicate (length bnd) false) b' → b' = b) as Huniq.
  { intros b' [(c1 & Hf1 & Hc1) Hm1]. destruct Hhf as [(c2 & Hf2 & Hc2) Hm2].
    specialize (Hm1 _ _ Hf2 Hc2). specialize (Hm2 _ _ Hf1 Hc1). lia. }
  destruct Hcase as [(b' & s & p' & Hb' & Hs & _ & Hch)|(b' & Hb' & Hno & _)].
  - rewrite (Huniq _ Hb') in Hs. exists p, s, p'. done.
  - rewrite (Huniq _ Hb') in Hno. specialize (Hno c w Hc Hw). congruence.
Qed.
Lemma C18_ub_lem bp b :
  highest_free bnd (replicate (length bnd) false) b →
  (∀ c w, bnd !! c = Some b → prio !! c = Some w → wlt w wminv = true) →
  ∃ p, pool_initialize prio bnd (pool_new bp true) = Ok p ∧
    choose_new_seed prio bnd (replicate (length bnd) false) p = Err EUB.
Proof using HD Hwm.
  intros Hhf Hno. destruct (one_point_first bp) as (p & Hp & Hcase). exists p. split; [done|].
  assert (∀ b', highest_free bnd (replicate n false) b' → b' = b) as Huniq.
  { intros b' [(c1 & Hf1 & Hc1) Hm1]. destruct Hhf as [(c2 & Hf2 & Hc2) Hm2].
    specialize (Hm1 _ _ Hf2 Hc2). specialize (Hm2 _ _ Hf1 Hc1). lia. }
  destruct Hcase as [(b' & s & p' & Hb' & (_ & Hsb & _) & (w & Hw & Hwp) & _)|(b' & Hb' & _ & Hub)]; [|done].
  rewrite (Huniq _ Hb') in Hsb. specialize (Hno s w Hsb Hw). congruence.
Qed.
End seeds.
