(** * NbhP: the neighbourhood search is a breadth-first search *)

From Verif Require Export GraphP.

Lemma at_dist_inj E P S j k x : at_dist E P S j x → at_dist E P S k x → j = k.
Proof. intros [Hj Hj'] [Hk Hk']. specialize (Hj' _ Hk). specialize (Hk' _ Hj). lia. Qed.

Lemma size_union_le (X Y : gset nat) : size (X ∪ Y) ≤ size X + size Y.
Proof.
  rewrite size_union_alt. assert (size (Y ∖ X) ≤ size Y); [|lia].
  apply subseteq_size. set_solver.
Qed.

Section nbh.
Context {A : Arith} {H : HashOrder}.
Context (g : graph) (aggl : list bool) (WF : wfg g) (Hag : length aggl = g_n g).
Implicit Types dn dm d : gmap nat Z.

Notation free := (λ x : nat, aggl !! x = Some false).

Lemma next_layer_ok dn dm k :
  (∀ i, is_Some (dm !! i) → i < g_n g) → dm ⊆ dn →
  wp (next_layer g aggl dn dm k) (λ d, ∀ x v, d !! x = Some v ↔
    v = k ∧ free x ∧ dn !! x = None ∧ ∃ s, is_Some (dm !! s) ∧ x ∈ adj g s).
Proof.
  intros Hdm Hsub. unfold next_layer.
  set (Q := λ x, free x ∧ dn !! x = None). eapply wp_mono.
  { apply (wp_foldM _ (λ (pre : list nat) (d : gmap nat Z), ∀ x v,
      d !! x = Some v ↔ v = k ∧ Q x ∧ ∃ s, s ∈ pre ∧ x ∈ adj g s)).
    { intros x v. rewrite lookup_empty. set_solver. }
    intros pre i post d Heq Hd.
    assert (i < g_n g) as Hi.
    { apply Hdm. apply (elem_of_hkeys s_order). rewrite Heq. set_solver. }
    rewrite nbrs_ok, bind_ok by done. eapply wp_mono.
    { apply (wp_foldM _ (λ (pre' : list nat) (d' : gmap nat Z), ∀ x v,
        d' !! x = Some v ↔ v = k ∧ Q x ∧ (is_Some (d !! x) ∨ x ∈ pre'))).
      { intros x v. rewrite Hd. split.
        - intros (-> & HQ & Hs). split_and!; [done..|]. left. exists k. by apply Hd.
        - intros (-> & HQ & [[v' Hv]|Hx]); [|set_solver]. apply Hd in Hv. naive_solver. }
      intros pre' j post' d' Heq' Hd'.
      assert (j < g_n g) as Hj by (eapply (adj_lt g WF i); rewrite Heq'; set_solver).
      assert (∀ d'', d'' = d' ∧ (¬ Q j ∨ is_Some (d' !! j)) ∨ d'' = <[j := k]> d' ∧ Q j →
        ∀ x v, d'' !! x = Some v ↔ v = k ∧ Q x ∧ (is_Some (d !! x) ∨ x ∈ pre' ++ [j])) as Hgen.
      { intros d'' Hcase x v. rewrite elem_of_app, elem_of_list_singleton.
        destruct Hcase as [[-> Hc]|[-> Hc]].
        - rewrite Hd'. split; [naive_solver|]. intros (-> & HQ & [?|[?| ->]]); [naive_solver..|].
          destruct Hc as [?|[v' Hv]]; [done|]. apply Hd' in Hv. naive_solver.
        - destruct (decide (x = j)) as [->|Hne].
          + rewrite lookup_insert. naive_solver.
          + rewrite lookup_insert_ne, Hd' by done. naive_solver. }
      case_bool_decide as Hn; [|refine (Hgen _ _); left; split; [done|left; unfold Q; naive_solver]].
      wstep. apply wp_vget; [by rewrite Hag|]. intros b Hb.
      destruct b; simpl.
      { refine (Hgen _ _). left. split; [done|]. left. unfold Q. naive_solver. }
      case_bool_decide as Hn'.
      - assert (dm !! j = None) as ->.
        { destruct (dm !! j) eqn:Hj'; [|done].
          rewrite (lookup_weaken _ _ _ _ Hj' Hsub) in Hn. done. }
        refine (Hgen _ _). right. split; [done|]. done.
      - refine (Hgen _ _). left. split; [done|]. right.
        destruct (d' !! j) eqn:?; [eauto|done]. }
    simpl. intros d' Hd' x v. rewrite Hd'.
    setoid_rewrite elem_of_app. setoid_rewrite elem_of_list_singleton. split.
    - intros (-> & HQ & [[v' Hv]|Hx]).
      + apply Hd in Hv. naive_solver.
      + naive_solver.
    - intros (-> & HQ & s & [Hs| ->] & Hx); [|naive_solver].
      split_and!; [done..|]. left. exists k. apply Hd. naive_solver. }
  simpl. intros d Hd x v. rewrite Hd. setoid_rewrite elem_of_hkeys. unfold Q. naive_solver.
Qed.

Context (seeds : gset nat) (Hseeds : ∀ i, i ∈ seeds → i < g_n g).
Notation E := (gedge g).
Notation wk := (walk E free (λ x, x ∈ seeds)).
Notation dist := (at_dist E free (λ x, x ∈ seeds)).

Lemma walk_lt k x : wk k x → x < g_n g.
Proof.
  inversion 1 as [? Hx|k' y ? Hw He Hf]; subst; [by apply Hseeds|].
  by eapply edge_lt.
Qed.

Record nbh_inv (k : nat) dn dm : Prop := {
  ni_dm : ∀ x v, dm !! x = Some v → v = Z.of_nat k ∧ dist k x;
  ni_dn : ∀ x v, dn !! x = Some v → ∃ j, j < k ∧ v = Z.of_nat j ∧ dist j x;
  ni_all : ∀ j x, j ≤ k → wk j x → is_Some ((dm ∪ dn) !! x);
}.

Lemma nbh_inv_disj k dn dm : nbh_inv k dn dm → dm ##ₘ dn.
Proof.
  intros HI. apply map_disjoint_spec. intros x v w Hv Hw.
  apply (ni_dm _ _ _ HI) in Hv as [_ Hv]. apply (ni_dn _ _ _ HI) in Hw as (j & Hj & _ & Hw).
  pose proof (at_dist_inj _ _ _ _ _ _ Hv Hw). lia.
Qed.
Lemma nbh_inv_lookup k dn dm x v : nbh_inv k dn dm →
  (dm ∪ dn) !! x = Some v ↔ ∃ j, j ≤ k ∧ v = Z.of_nat j ∧ dist j x.
Proof.
  intros HI. split.
  - intros Hx. apply lookup_union_Some in Hx; [|by eapply nbh_inv_disj].
    destruct Hx as [Hx|Hx].
    + apply (ni_dm _ _ _ HI) in Hx as [-> Hx]. eauto.
    + apply (ni_dn _ _ _ HI) in Hx as (j & Hj & -> & Hx). exists j. split; [lia|done].
  - intros (j & Hj & -> & Hx).
    destruct (ni_all _ _ _ HI j x Hj (proj1 Hx)) as [v Hv]. rewrite Hv. f_equal.
    apply lookup_union_Some in Hv; [|by eapply nbh_inv_disj].
    destruct Hv as [Hv|Hv].
    + apply (ni_dm _ _ _ HI) in Hv as [-> Hv]. f_equal. by eapply at_dist_inj.
    + apply (ni_dn _ _ _ HI) in Hv as (j' & Hj' & -> & Hv). f_equal. by eapply at_dist_inj.
Qed.

Lemma size_le_n {V} (m : gmap nat V) : (∀ x, is_Some (m !! x) → x < g_n g) → size m ≤ g_n g.
Proof.
  intros Hm. rewrite <- (size_dom (D:=gset nat)).
  transitivity (size (list_to_set (seq 0 (g_n g)) : gset nat)).
  - apply subseteq_size. intros x Hx. apply elem_of_dom in Hx.
    apply elem_of_list_to_set, elem_of_seq. specialize (Hm _ Hx). lia.
  - rewrite size_list_to_set by apply NoDup_seq. by rewrite seq_length.
Qed.

(** Fewer than [max_card] cells at distance less than [k]. *)
Definition few (max_card : Z) (k : nat) : Prop :=
  ∃ X : gset nat, (∀ x, x ∈ X ↔ ∃ j, j < k ∧ dist j x) ∧
    (Z.of_nat (size X) < max_card)%Z.
Lemma few_dn max_card k dn dm : nbh_inv k dn dm →
  (Z.of_nat (size dn) < max_card)%Z → few max_card k.
Proof.
  intros HI Hs. exists (dom dn). split; [|by rewrite size_dom].
  intros x. rewrite elem_of_dom. split.
  - intros [v Hv]. apply (ni_dn _ _ _ HI) in Hv as (j & Hj & _ & Hv). eauto.
  - intros (j & Hj & Hx). destruct (ni_all _ _ _ HI j x) as [v Hv]; [lia|apply Hx|].
    apply lookup_union_Some in Hv; [|by eapply nbh_inv_disj]. destruct Hv as [Hv|Hv]; [|by eauto].
    apply (ni_dm _ _ _ HI) in Hv as [_ Hv]. pose proof (at_dist_inj _ _ _ _ _ _ Hv Hx). lia.
Qed.

Record nbh_post (nb_order max_card : Z) (K : nat) dn dm : Prop := {
  np_lookup : ∀ x v, (dm ∪ dn) !! x = Some v ↔ ∃ j, j ≤ K ∧ v = Z.of_nat j ∧ dist j x;
  np_all : ∀ j x, j ≤ K → wk j x → is_Some ((dm ∪ dn) !! x);
  np_stop : (∀ x, ¬ dist (S K) x ∧ (wk (S K) x → is_Some ((dm ∪ dn) !! x))) ∨
            (nb_order <= Z.of_nat K)%Z ∧ (max_card <= Z.of_nat (size (dm ∪ dn)))%Z;
  np_min : K = 0 ∨ (Z.of_nat K <= nb_order)%Z ∨ few max_card K;
}.

Lemma nbh_loop_ok fuel nb_order max_card dn dm k :
  nbh_inv k dn dm → g_n g < fuel + size dn →
  k = 0 ∨ (Z.of_nat k <= nb_order)%Z ∨ (Z.of_nat (size dn) < max_card)%Z →
  wp (nbh_loop fuel g aggl nb_order max_card dn dm (Z.of_nat (S k))) (λ r,
    ∃ K, r.2 = Z.of_nat (S K) ∧ nbh_post nb_order max_card K r.1.1 r.1.2).
Proof.
  revert dn dm k. induction fuel as [|fuel IH]; intros dn dm k HI Hfuel Hmin.
  { exfalso. assert (size dn ≤ g_n g); [|lia]. apply size_le_n.
    intros x [v Hv]. apply (ni_dn _ _ _ HI) in Hv as (j & _ & _ & Hw & _).
    by eapply walk_lt. }
  pose proof (nbh_inv_disj _ _ _ HI) as Hdisj.
  assert (k = 0 ∨ (Z.of_nat k <= nb_order)%Z ∨ few max_card k) as Hmin'.
  { destruct Hmin as [?|[?|?]]; [auto..|]. right; right. by eapply few_dn. }
  cbn [nbh_loop].
  destruct (bool_decide (Z.of_nat (S k) < nb_order + 1)%Z
       || bool_decide (Z.of_nat (size dn + size dm) < max_card)%Z) eqn:Hcond.
  2:{ apply orb_false_iff in Hcond as [H1 H2].
      apply bool_decide_eq_false in H1, H2. simpl. exists k. split; [done|].
      split; simpl; [by intros; eapply nbh_inv_lookup|by eapply ni_all| |done].
      right. split; [lia|]. rewrite map_size_disj_union by done. lia. }
  cbn zeta. wstep. eapply wp_mono.
  { apply next_layer_ok; [|by apply map_union_subseteq_l].
    intros i [v Hv]. apply (ni_dm _ _ _ HI) in Hv as [_ [Hv _]]. by eapply walk_lt. }
  simpl. intros d Hd.
  assert (∀ x v, d !! x = Some v → v = Z.of_nat (S k) ∧ dist (S k) x) as Hsound.
  { intros x v Hv. apply Hd in Hv as (-> & Hf & Hn & s & [v Hs] & Hx). split; [done|].
    apply (ni_dm _ _ _ HI) in Hs as [_ Hs]. split.
    - econstructor; [apply Hs| |done]. by apply elem_of_adj.
    - intros k' Hw. destruct (decide (k' ≤ k)); [|lia].
      destruct (ni_all _ _ _ HI k' x) as [? Hk']; [done..|]. congruence. }
  assert (∀ x, wk (S k) x → is_Some ((dm ∪ dn) !! x) ∨ is_Some (d !! x)) as Hcompl.
  { intros x Hw. destruct ((dm ∪ dn) !! x) as [v|] eqn:Hx; [left; eauto|right].
    inversion Hw as [|k' y ? Hw' He Hf]; subst.
    destruct (ni_all _ _ _ HI k y) as [v Hy]; [done..|].
    apply lookup_union_Some in Hy; [|done]. destruct Hy as [Hy|Hy].
    - exists (Z.of_nat (S k)). apply Hd. split_and!; [done..|]. exists y.
      split; [eauto|]. by apply elem_of_adj.
    - apply (ni_dn _ _ _ HI) in Hy as (j & Hj & _ & Hy & _).
      destruct (ni_all _ _ _ HI (S j) x) as [? Hx']; [lia|by econstructor|congruence]. }
  assert ((Z.of_nat (S k) <= nb_order)%Z ∨ (Z.of_nat (size (dm ∪ dn)) < max_card)%Z) as Hc.
  { rewrite map_size_disj_union by done. apply orb_true_iff in Hcond as [Hc|Hc];
      apply bool_decide_eq_true in Hc; lia. }
  clear Hcond. case_bool_decide as Hempty.
  - simpl. exists k. split; [done|]. subst d. simpl.
    assert (dm ∪ (dm ∪ dn) = dm ∪ dn) as Hidem.
    { by rewrite map_union_assoc, (map_union_idemp dm). }
    split; simpl; rewrite ?Hidem; [by intros; eapply nbh_inv_lookup|by eapply ni_all| |done].
    left. intros x. split.
    + intros Hx. destruct (Hcompl x (proj1 Hx)) as [[v Hv]|[v Hv]]; [|done].
      apply (nbh_inv_lookup k) in Hv as (j & Hj & _ & Hv); [|done].
      pose proof (at_dist_inj _ _ _ _ _ _ Hv Hx). lia.
    + intros Hx. destruct (Hcompl x Hx) as [?|[v Hv]]; [done|by rewrite lookup_empty in Hv].
  - replace (Z.of_nat (S k) + 1)%Z with (Z.of_nat (S (S k))) by lia.
    apply IH; [| |by right].
    + split; [done| |].
      * intros x v Hv. apply (nbh_inv_lookup k) in Hv as (j & Hj & -> & Hv); [|done].
        exists j. split; [lia|done].
      * intros j x Hj Hw. destruct (decide (j = S k)) as [->|Hne].
        -- destruct (Hcompl x Hw) as [?|[v Hv]].
           ++ destruct (d !! x) eqn:?; [erewrite lookup_union_Some_l by done; eauto|].
              by rewrite lookup_union_r.
           ++ erewrite lookup_union_Some_l by done. eauto.
        -- destruct (ni_all _ _ _ HI j x) as [v Hv]; [lia|done|].
           destruct (d !! x) eqn:?; [erewrite lookup_union_Some_l by done; eauto|].
           rewrite lookup_union_r by done. eauto.
    + rewrite map_size_disj_union by done.
      assert (size dm ≠ 0); [|lia]. intros Hsz. apply map_size_empty_inv in Hsz. subst dm.
      apply map_choose in Hempty as (x & v & Hv).
      apply Hd in Hv as (_ & _ & _ & s & [? Hs] & _). by rewrite lookup_empty in Hs.
Qed.

Lemma lookup_foldr_delete {V} (l : list nat) (m : gmap nat V) x :
  foldr delete m l !! x = if decide (x ∈ l) then None else m !! x.
Proof.
  induction l as [|y l IH]; simpl; [done|].
  destruct (decide (x = y)) as [->|Hne].
  - rewrite lookup_delete, decide_True; [done|set_solver].
  - rewrite lookup_delete_ne, IH by done. repeat case_decide; try done; set_solver.
Qed.

(** The result of the neighbourhood search: every cell which is not a seed at
    distance at most [K], with its distance; the search stops because there is
    nothing further or because enough has been found. *)
Record nbh_res (nb_order max_card : Z) (dn : gmap nat Z) (K : nat) : Prop := {
  nr_lookup : ∀ x v, dn !! x = Some v ↔
    x ∉ seeds ∧ ∃ j, j ≤ K ∧ v = Z.of_nat j ∧ dist j x;
  nr_all : ∀ j x, j ≤ K → wk j x → x ∈ seeds ∨ is_Some (dn !! x);
  nr_stop : (∀ j x, wk j x → x ∈ seeds ∨ is_Some (dn !! x)) ∨
            (nb_order <= Z.of_nat K)%Z ∧
            (max_card <= Z.of_nat (size seeds + size dn))%Z;
  nr_min : K = 0 ∨ (Z.of_nat K <= nb_order)%Z ∨ few max_card K;
}.

Lemma compute_neighbourhood_ok nb_order max_card :
  (1 < max_card)%Z →
  wp (compute_neighbourhood_of_cc g seeds nb_order max_card aggl) (λ r,
    ∃ K, r.2 = Z.of_nat (S K) ∧ nbh_res nb_order max_card r.1 K).
Proof.
  intros Hmax. unfold compute_neighbourhood_of_cc.
  wstep. apply wp_massert; [by apply bool_decide_eq_true|]. cbn zeta. wstep.
  eapply wp_mono.
  { apply (nbh_loop_ok _ _ _ _ _ 0); [|rewrite map_size_empty; lia|by left].
    split.
    - intros x v. rewrite lookup_gset_to_gmap_Some. intros [Hx <-].
      split; [done|]. split; [by constructor|lia].
    - intros x v. by rewrite lookup_empty.
    - intros j x Hj. assert (j = 0) as -> by lia. inversion 1; subst.
      exists 0%Z. apply lookup_union_Some_l. by apply lookup_gset_to_gmap_Some. }
  intros [[dn dm] iord] (K & Hio & HP). simpl in *. subst iord. exists K. split; [done|].
  assert (∀ x, foldr delete (dm ∪ dn) (hset s_seeds seeds) !! x =
    if decide (x ∈ seeds) then None else (dm ∪ dn) !! x) as Hl.
  { intros x. rewrite lookup_foldr_delete.
    repeat case_decide; try done; by rewrite elem_of_hset in *. }
  assert (∀ x, is_Some ((dm ∪ dn) !! x) →
    x ∈ seeds ∨ is_Some (foldr delete (dm ∪ dn) (hset s_seeds seeds) !! x)) as Hs.
  { intros x Hx. rewrite Hl. case_decide; [by left|by right]. }
  split.
  - intros x v. rewrite Hl. case_decide; [naive_solver|].
    rewrite (np_lookup _ _ _ _ _ HP). naive_solver.
  - intros j x Hj Hw. by apply Hs, (np_all _ _ _ _ _ HP j).
  - destruct (np_stop _ _ _ _ _ HP) as [Hex|[Hn Hm]].
    + left. intros j x Hw. apply Hs. destruct (decide (j ≤ K)) as [Hj|Hj].
      { by eapply np_all. }
      assert (∃ m, j = S K + m) as [m ->] by (exists (j - S K); lia).
      clear Hj. revert x Hw. induction m as [|m IH]; intros x Hw.
      { rewrite Nat.add_0_r in Hw. by apply (Hex x). }
      replace (S K + S m) with (S (S K + m)) in Hw by lia.
      inversion Hw as [|? y ? Hw' He Hf]; subst.
      destruct (IH _ Hw') as [v Hv].
      apply (np_lookup _ _ _ _ _ HP) in Hv as (j & Hj & _ & Hy & _).
      assert (wk (S j) x) as Hwx by (by econstructor).
      destruct (decide (S j ≤ K)); [by eapply np_all|].
      assert (j = K) as -> by lia. by apply (Hex x).
    + right. split; [done|].
      assert (size (dm ∪ dn) ≤ size seeds + size (foldr delete (dm ∪ dn) (hset s_seeds seeds))); [|lia].
      rewrite <- !(size_dom (D:=gset nat)). etrans; [|apply size_union_le].
      apply subseteq_size. intros x Hx. apply elem_of_dom, Hs in Hx as [?|?]; [set_solver|].
      apply elem_of_union_r. by apply elem_of_dom.
  - apply (np_min _ _ _ _ _ HP).
Qed.

End nbh.
