(** * SearchT: the search and ordering properties in the form stated in
    PropsSearch *)

From Verif Require Import NbhP NeighP Inst.

Lemma C15_lem `{A : Arith, H : HashOrder} (g : graph) (aggl : list bool)
    (seeds : gset nat) (nb_order max_card : Z) :
  let E := edge (g_row g) (g_col g) in
  let free x := aggl !! x = Some false in
  let dist := at_dist E free (λ x, x ∈ seeds) in
  csr (g_n g) (g_row g) (g_col g) → csr_sym (g_row g) (g_col g) →
  length (g_val g) = length (g_col g) →
  length aggl = g_n g → (∀ x, x ∈ seeds → x < g_n g) → (1 < max_card)%Z →
  ∃ dn K, compute_neighbourhood_of_cc g seeds nb_order max_card aggl
            = Ok (dn, Z.of_nat (S K)) ∧
    (∀ x v, dn !! x = Some v ↔ x ∉ seeds ∧ ∃ j, j ≤ K ∧ v = Z.of_nat j ∧ dist j x) ∧
    ((∀ j x, dist j x → x ∈ seeds ∨ is_Some (dn !! x)) ∨
     (nb_order <= Z.of_nat K)%Z ∧ (max_card <= Z.of_nat (size seeds + size dn))%Z) ∧
    (K = 0 ∨ (Z.of_nat K <= nb_order)%Z ∨
     ∃ X : gset nat, (∀ x, x ∈ X ↔ ∃ j, j < K ∧ dist j x) ∧
       (Z.of_nat (size X) < max_card)%Z).
Proof.
  intros E free dist Hcsr Hsym Hval Hag Hseeds Hmax.
  pose proof (compute_neighbourhood_ok g aggl (Build_wfg g Hcsr Hsym Hval) Hag seeds Hseeds
    nb_order max_card Hmax) as Hw.
  apply wp_eq in Hw as ([dn z] & Heq & K & Hz & [H1 H2 H3 H4]). simpl in *. subst z.
  exists dn, K. split; [done|]. split; [done|]. split; [|done].
  destruct H3 as [H3|H3]; [left|by right]. intros j x [Hx _]. by eapply H3.
Qed.

Lemma C29_lem `{A : Arith, H : HashOrder} (g : graph) (prio : list W)
    (allowed : gset nat) (front : option Z) (cs : list nat) :
  csr (g_n g) (g_row g) (g_col g) → csr_sym (g_row g) (g_col g) →
  length (g_val g) = length (g_col g) →
  length prio = g_n g → weak_order wlt (λ w, w ∈ prio) →
  (∀ d, front = Some d → (2 <= d)%Z) → (∀ c, c ∈ cs → c < g_n g) →
  ∃ h, foldM (λ h c, l ← nbrs g c; nbh_update prio h c l) cs (nbh_create allowed front) = Ok h ∧
    let border x := x ∈ allowed ∧ x ∉ cs ∧ ∃ y, y ∈ cs ∧ edge (g_row g) (g_col g) y x in
    NoDup (nb_cand h) ∧
    (∀ x, x ∈ nb_cand h → border x) ∧
    (front = None → ∀ x, border x → x ∈ nb_cand h) ∧
    ((∃ x, border x) → nb_cand h ≠ []) ∧
    (front ≠ None → prio_sorted prio (nb_cand h)) ∧
    (front = None → ∀ c h', c < g_n g → (l ← nbrs g c; nbh_update prio h c l) = Ok h' →
       ∃ new, nb_cand h' = remove_first c (nb_cand h) ++ new ∧ prio_sorted prio new).
Proof.
  intros Hcsr Hsym Hval Hlen Hord Hd Hcs. set (WF := Build_wfg g Hcsr Hsym Hval).
  pose proof (nbh_history_ok g prio WF Hlen Hord allowed front cs Hd Hcs) as Hw.
  apply wp_eq in Hw as (h & Heq & HI & Hal & Hfc & Hfr). exists h. split; [done|].
  assert (∀ x, border g (nb_allowed h) (nb_fc h) x ↔
    x ∈ allowed ∧ x ∉ cs ∧ ∃ y, y ∈ cs ∧ edge (g_row g) (g_col g) y x) as Hb.
  { intros x. unfold border. rewrite Hal, Hfc. setoid_rewrite elem_of_list_to_set.
    setoid_rewrite elem_of_adj. done. }
  cbn zeta. split_and!.
  - apply (ni_nodup _ _ _ _ HI).
  - intros x Hx. by apply Hb, (ni_cand _ _ _ _ HI).
  - intros -> x Hx. by apply (ni_ext _ _ _ _ HI Hfr), Hb.
  - intros [x Hx]. by apply (ni_nonempty _ _ _ _ HI x), Hb.
  - intros Hf. destruct (ni_sort _ _ _ _ HI) as (s & Hs & ->); [by rewrite Hfr|].
    by apply good_prio_sorted.
  - intros -> c h' Hc Hu. rewrite nbrs_ok in Hu by done. rewrite bind_ok in Hu.
    pose proof (nbh_update_ok g prio WF Hlen Hord 0 h c HI Hc) as Hw. rewrite Hu in Hw.
    destruct Hw as (_ & _ & _ & _ & Hn). destruct (Hn Hfr) as (s & Hs & ->).
    exists (map fst s). split; [done|]. by apply good_prio_sorted.
Qed.

Lemma C37_lem `{A : Arith} (P : W → Prop) :
  weak_order wlt P →
  weak_order pair_gt (λ p, P p.2) ∧ weak_order pair_lt (λ p, P p.2) ∧
  (∀ p q, pair_lt p q = pair_gt q p) ∧
  (∀ p q, P p.2 → P q.2 → pair_gt p q = false ∧ pair_gt q p = false ↔
    p.1 = q.1 ∧ wlt p.2 q.2 = false ∧ wlt q.2 p.2 = false).
Proof.
  intros Ho.
  assert (weak_order pair_gt (λ p : nat * W, P p.2)) as Hgt.
  { split.
    - intros p Hp. by apply (pair_gt_irr _ Ho).
    - intros p q r. by apply (pair_gt_trans _ Ho).
    - intros p q r Hp Hq Hr Hpr.
      destruct (pair_gt p q) eqn:H1; [by left|right].
      destruct (pair_gt q p) eqn:H2.
      + by apply (pair_gt_trans _ Ho q p r).
      + pose proof (pair_gt_idx _ _ H1 H2) as Hi. unfold pair_gt in *.
        destruct (wlt q.2 p.2) eqn:Hqp; [done|]. destruct (wlt p.2 q.2) eqn:Hpq; [done|].
        destruct (wlt r.2 p.2) eqn:Hrp.
        * destruct (wo_neg _ _ Ho r.2 q.2 p.2) as [->|?]; [done..|congruence].
        * destruct (wlt p.2 r.2) eqn:Hpr'; [done|].
          destruct (wlt r.2 q.2) eqn:?; [done|]. destruct (wlt q.2 r.2) eqn:?.
          -- destruct (wo_neg _ _ Ho q.2 p.2 r.2); congruence.
          -- by rewrite <- Hi. }
  split; [done|]. split.
  { destruct Hgt as [G1 G2 G3]. split.
    - apply G1.
    - intros p q r Hp Hq Hr H1 H2. apply (G2 r q p); done.
    - intros p q r Hp Hq Hr H1. destruct (G3 r q p); [done..|by right|by left]. }
  split; [done|]. intros p q Hp Hq. split.
  - intros [H1 H2]. split; [by apply pair_gt_idx|]. unfold pair_gt in *.
    by destruct (wlt p.2 q.2), (wlt q.2 p.2).
  - intros (Hi & H1 & H2). unfold pair_gt. rewrite H1, H2, Hi.
    split; apply bool_decide_eq_false; lia.
Qed.

Lemma C37_set_lem `{A : Arith} (prio : list W) (ps : list nat) :
  weak_order wlt (λ w, w ∈ prio) → (∀ c, c ∈ ps → c < length prio) →
  ∃ s, collect (λ _, true) prio ps = Ok s ∧ NoDup (map fst s) ∧
    (∀ c w, (c, w) ∈ s ↔ c ∈ ps ∧ prio !! c = Some w) ∧ prio_sorted prio (map fst s).
Proof.
  intros Ho Hps. pose proof (collect_ok prio Ho (λ _, true) ps Hps) as Hw.
  apply wp_eq in Hw as (s & Heq & Hs & Hel). exists s. split; [done|].
  split; [by eapply good_NoDup|]. split.
  - intros c w. split.
    + intros Hin. split.
      * apply Hel. apply elem_of_list_fmap. by exists (c, w).
      * by apply (gp_keyed _ _ Hs) in Hin.
    + intros [Hc Hw]. assert (c ∈ map fst s) as Hin by (by apply Hel).
      apply (good_fst_elem prio) in Hin as (w' & Hw' & Hin); [|done].
      rewrite Hw in Hw'. by simplify_eq.
  - by eapply good_prio_sorted.
Qed.

(** ** The hypotheses can be met *)

Definition grid9_g : @graph qarith := @graph_of qarith grid9_in.

Lemma C15_ex :
  let g := grid9_g in
  csr (@g_n qarith g) (@g_row qarith g) (@g_col qarith g) ∧ csr_sym (@g_row qarith g) (@g_col qarith g) ∧
  match @compute_neighbourhood_of_cc qarith ord_id g {[0]} 2 4 (replicate 9 false) with
  | Ok (dn, k) => k = 3%Z ∧ size dn = 5 ∧
      map (λ c, dn !! c) [1; 3; 2; 4; 6] = map Some [1; 1; 2; 2; 2]%Z
  | Err _ => False
  end.
Proof.
  split; [apply csr_check_ok; vm_compute; reflexivity|].
  split; [apply sym_check_ok; vm_compute; reflexivity|].
  vm_compute. split_and!; reflexivity.
Qed.
Lemma C29_ex :
  ∃ h, foldM (λ h c, l ← @nbrs qarith grid9_g c; @nbh_update qarith (@in_prio qarith grid9_in) h c l) [4; 1]
         (@nbh_create qarith (list_to_set (seq 0 9)) None) = Ok h ∧
       @nb_cand qarith h = [3; 5; 7; 0; 2].
Proof. eexists. split; vm_compute; reflexivity. Qed.
Lemma C37_ex : weak_order (@wlt qarith) (λ w, w ∈ [qc 1 2; qc 1 3; qc 1 2]) ∧
  @collect qarith (λ _, true) [qc 1 2; qc 1 3; qc 1 2] [1; 2; 0; 2]
    = Ok [(0, qc 1 2); (2, qc 1 2); (1, qc 1 3)].
Proof. split; [apply q_weak_order|vm_compute; reflexivity]. Qed.
