(** * SeedsP: the pool of seeds *)

From Verif Require Export PairsP.

Lemma wp_vgetZ {T} (v : list T) z (Q : T → Prop) :
  (0 <= z < Z.of_nat (length v))%Z → (∀ x, v !! Z.to_nat z = Some x → Q x) →
  wp (vgetZ v z) Q.
Proof.
  intros Hz HQ. unfold vgetZ. rewrite bool_decide_true by lia. apply wp_vget; [lia|done].
Qed.
Lemma vsetZ_ok {T} (v : list T) z x :
  (0 <= z < Z.of_nat (length v))%Z → vsetZ v z x = Ok (<[Z.to_nat z := x]> v).
Proof. intros Hz. unfold vsetZ. rewrite bool_decide_true by lia. apply vset_ok. lia. Qed.
Lemma push_back_ok q z l :
  length q = 4 → (0 <= z <= 3)%Z →
  wp (push_back q z l) (λ q', length q' = 4 ∧ ∀ k r, q' !! k = Some r ↔
    if decide (k = Z.to_nat z) then ∃ old, q !! k = Some old ∧ r = old ++ l
    else q !! k = Some r).
Proof.
  intros Hl Hz. unfold push_back. wstep. apply wp_vgetZ; [lia|]. intros old Hold.
  rewrite vsetZ_ok by lia. simpl. split; [by rewrite insert_length|].
  intros k r. case_decide as Hk.
  - subst k. rewrite list_lookup_insert by lia. naive_solver.
  - by rewrite list_lookup_insert_ne.
Qed.

Section seeds.
Context {A : Arith} {H : HashOrder}.
Context (prio : list W) (bnd : list Z) (Hp : length prio = length bnd).
Notation n := (length bnd).
Context (Hb3 : ∀ k b, bnd !! k = Some b → (0 <= b <= 3)%Z).
Context (Hord : weak_order wlt (λ w, w ∈ prio)).
Implicit Types (p : pool) (aggl : list bool).

Definition freec aggl (c : nat) : Prop := aggl !! c = Some false.

(** Cell [c] is in the queue of level [l]. *)
Definition inq p (l c : nat) : Prop := ∃ q, sp_q p !! l = Some q ∧ c ∈ q.

Record pool_wf p : Prop := {
  pw_len : length (sp_q p) = 4;
  pw_cell : ∀ l c, inq p l c → ∃ b, bnd !! c = Some b ∧ (Z.of_nat l <= b)%Z;
  pw_top : ∀ t, sp_top p = Some t → (0 <= t <= 3)%Z;
}.
Record bp_inv aggl p : Prop := {
  bi_lvl : ∀ l c, inq p l c → freec aggl c → bnd !! c = Some (Z.of_nat l);
  bi_top : ∀ t c b, sp_top p = Some t → freec aggl c → bnd !! c = Some b → (b <= t)%Z;
}.
Definition np_inv aggl p : Prop :=
  ∀ t l c, sp_top p = Some t → (t < Z.of_nat l)%Z → inq p l c → ¬ freec aggl c.
Record pool_inv aggl p : Prop := {
  pi_wf : pool_wf p;
  pi_bp : sp_bp p = true → bp_inv aggl p;
  pi_np : sp_bp p = false → np_inv aggl p;
}.

Lemma freec_mono aggl aggl' c :
  (∀ x, aggl !! x = Some true → aggl' !! x = Some true) → length aggl = length aggl' →
  freec aggl' c → freec aggl c.
Proof.
  unfold freec. intros Hsub Hl Hc. apply lookup_lt_Some in Hc as Hlt. rewrite <- Hl in Hlt.
  destruct (lookup_lt_is_Some_2 _ _ Hlt) as [[] Hx]; [|done].
  apply Hsub in Hx. congruence.
Qed.
Lemma pool_inv_mono aggl aggl' p :
  (∀ c, freec aggl' c → freec aggl c) → pool_inv aggl p → pool_inv aggl' p.
Proof.
  intros Hf [Hw H1 H2]. split; [done| |].
  - intros Hbp. destruct (H1 Hbp) as [Hl Ht]. split; eauto.
  - intros Hnp t l c Ht Hl Hc Hfc. eapply H2; eauto.
Qed.

Lemma bnd_some c : c < n → ∃ b, bnd !! c = Some b.
Proof. intros. by apply lookup_lt_is_Some_2. Qed.
Lemma inq_lt p l c : pool_wf p → inq p l c → c < n.
Proof.
  intros Hw Hc. destruct (pw_cell _ Hw _ _ Hc) as (b & Hc' & _).
  apply lookup_lt_Some in Hc'. lia.
Qed.

(** ** Queues *)

Lemma spoil_queue_ok aggl q :
  (∀ c, c ∈ q → c < length aggl) →
  wp (spoil_queue aggl q) (λ r,
    (∀ c, c ∈ r.2 → c ∈ q) ∧
    match r.1 with
    | Some s => freec aggl s ∧ ∃ pre, q = pre ++ s :: r.2 ∧ ∀ c, c ∈ pre → ¬ freec aggl c
    | None => r.2 = [] ∧ ∀ c, c ∈ q → ¬ freec aggl c
    end).
Proof.
  induction q as [|s q IH]; intros Hq; simpl.
  { split; [done|]. split; [done|]. intros c Hc. by apply elem_of_nil in Hc. }
  wstep. apply wp_vget; [apply Hq; left|]. intros b Hs. destruct b.
  - eapply wp_mono; [apply IH; intros; apply Hq; by right|]. simpl. intros [o r] [H1 H2]. simpl in *.
    split; [intros; right; by apply H1|]. destruct o as [s'|].
    + destruct H2 as (? & pre & -> & Hpre). split; [done|]. exists (s :: pre). split; [done|].
      intros c Hc. apply elem_of_cons in Hc as [->|]; [unfold freec; congruence|by apply Hpre].
    + destruct H2 as [-> H2]. split; [done|].
      intros c Hc. apply elem_of_cons in Hc as [->|]; [unfold freec; congruence|by apply H2].
  - simpl. split; [intros; by right|]. split; [done|]. exists []. split; [done|].
    intros c Hc. by apply elem_of_nil in Hc.
Qed.

(** Spoiling a level: the seed comes from that level; the other levels are
    untouched. *)
Lemma spoil_level_ok aggl p z :
  pool_wf p → length aggl = n → (0 <= z <= 3)%Z →
  wp (spoil_level aggl p z) (λ r,
    pool_wf r.2 ∧ sp_top r.2 = sp_top p ∧ sp_bp r.2 = sp_bp p ∧ sp_one r.2 = sp_one p ∧
    (∀ l c, inq r.2 l c → inq p l c) ∧
    (∀ l, l ≠ Z.to_nat z → sp_q r.2 !! l = sp_q p !! l) ∧
    match r.1 with
    | Some s => freec aggl s ∧ inq p (Z.to_nat z) s ∧
        ∃ pre q, sp_q p !! Z.to_nat z = Some (pre ++ s :: q) ∧
                 sp_q r.2 !! Z.to_nat z = Some q ∧ ∀ c, c ∈ pre → ¬ freec aggl c
    | None => sp_q r.2 !! Z.to_nat z = Some [] ∧ ∀ c, inq p (Z.to_nat z) c → ¬ freec aggl c
    end).
Proof.
  intros Hw Hag Hz. unfold spoil_level. wstep.
  apply wp_vgetZ; [rewrite (pw_len _ Hw); lia|]. intros q Hq. wstep.
  eapply wp_mono.
  { apply spoil_queue_ok. intros c Hc. rewrite Hag. eapply (inq_lt p (Z.to_nat z)); [done|].
    exists q. done. }
  intros [o r] [H1 H2]. simpl in *. rewrite vsetZ_ok by (rewrite (pw_len _ Hw); lia). simpl.
  assert (∀ l c, inq (set_q p (<[Z.to_nat z:=r]> (sp_q p))) l c → inq p l c) as Hin.
  { intros l c (q' & Hq' & Hc). simpl in Hq'. destruct (decide (l = Z.to_nat z)) as [->|Hne].
    - rewrite list_lookup_insert in Hq' by (rewrite (pw_len _ Hw); lia). simplify_eq.
      exists q. auto.
    - rewrite list_lookup_insert_ne in Hq' by done. by exists q'. }
  assert (<[Z.to_nat z:=r]> (sp_q p) !! Z.to_nat z = Some r) as Hlk.
  { apply list_lookup_insert. rewrite (pw_len _ Hw). lia. }
  split_and!; try done.
  - split; simpl; [by rewrite insert_length, (pw_len _ Hw)| |apply (pw_top _ Hw)].
    intros l c Hc. by apply (pw_cell _ Hw), Hin.
  - intros l Hl. by rewrite list_lookup_insert_ne.
  - destruct o as [s|].
    + destruct H2 as (Hs & pre & -> & Hpre). split; [done|]. split.
      * exists (pre ++ s :: r). split; [done|]. apply elem_of_app. right. left.
      * exists pre, r. done.
    + destruct H2 as [-> H2]. split; [done|]. intros c (q' & Hq' & Hc).
      rewrite Hq in Hq'. simplify_eq. auto.
Qed.

(** ** The highest number of boundary faces left *)

Lemma get_highest_ok aggl e :
  length aggl = n →
  wp (get_highest bnd aggl e) (λ r, match r with
    | None => ∀ c, ¬ freec aggl c
    | Some v => (∃ c, freec aggl c ∧ bnd !! c = Some v) ∧
        ((e <= v)%Z ∨ ∀ c b, freec aggl c → bnd !! c = Some b → (b <= v)%Z)
    end).
Proof.
  intros Hag. unfold get_highest.
  assert (∀ cells pre best, seq 0 (length bnd) = pre ++ cells →
    match best with
    | None => ∀ c, c ∈ pre → ¬ freec aggl c
    | Some v => (∃ c, freec aggl c ∧ bnd !! c = Some v) ∧
        ∀ c b, c ∈ pre → freec aggl c → bnd !! c = Some b → (b <= v)%Z
    end →
    wp (highest_loop bnd aggl e cells best) (λ r, match r with
    | None => ∀ c, ¬ freec aggl c
    | Some v => (∃ c, freec aggl c ∧ bnd !! c = Some v) ∧
        ((e <= v)%Z ∨ ∀ c b, freec aggl c → bnd !! c = Some b → (b <= v)%Z)
    end)) as Hgen; [|apply (Hgen _ []); [done|intros c Hc; by apply elem_of_nil in Hc]].
  induction cells as [|i cells IH]; intros pre best Hseq Hbest; simpl.
  - rewrite app_nil_r in Hseq.
    assert (∀ c, freec aggl c → c ∈ pre) as Hin.
    { intros c Hc. rewrite <- Hseq. apply elem_of_seq. apply lookup_lt_Some in Hc. lia. }
    destruct best as [v|]; [|naive_solver]. destruct Hbest as [? Hbest]. split; [done|].
    right. eauto.
  - assert (i < n) as Hi.
    { assert (i ∈ seq 0 (length bnd)) as Hi' by (rewrite Hseq; set_solver).
      apply elem_of_seq in Hi'. lia. }
    assert (seq 0 (length bnd) = (pre ++ [i]) ++ cells) as Hseq' by (by rewrite <- app_assoc).
    wstep. apply wp_vget; [lia|]. intros b Hbi. destruct b.
    + apply (IH (pre ++ [i])); [done|].
      assert (¬ freec aggl i) as Hni by (unfold freec; congruence).
      destruct best as [v|].
      * destruct Hbest as [? Hbest]. split; [done|]. intros c b Hc.
        apply elem_of_app in Hc as [?|Hc]; [eauto|].
        apply elem_of_list_singleton in Hc as ->. done.
      * intros c Hc. apply elem_of_app in Hc as [?|Hc]; [eauto|].
        apply elem_of_list_singleton in Hc as ->. done.
    + wstep. apply wp_vget; [lia|]. intros x Hx.
      case_bool_decide as Hex.
      { simpl. split; [|by left]. exists i. done. }
      apply (IH (pre ++ [i])); [done|]. split.
      * destruct best as [v|].
        -- case_bool_decide; [exists i; done|]. by destruct Hbest.
        -- case_bool_decide; [lia|]. exists i. done.
      * intros c b Hc Hfc Hcb. apply elem_of_app in Hc as [Hc|Hc].
        -- destruct best as [v|]; [|by destruct (Hbest c)].
           destruct Hbest as [_ Hbest]. specialize (Hbest _ _ Hc Hfc Hcb).
           case_bool_decide; lia.
        -- apply elem_of_list_singleton in Hc as ->. rewrite Hx in Hcb. simplify_eq.
           case_bool_decide; lia.
Qed.

(** ** Filling a queue *)

Lemma build_queue_ok aggl p z :
  pool_wf p → length aggl = n → (0 <= z <= 3)%Z →
  wp (build_queue prio bnd aggl p z) (λ p',
    pool_wf p' ∧ sp_top p' = sp_top p ∧ sp_bp p' = sp_bp p ∧ sp_one p' = sp_one p ∧
    (∀ l, l ≠ Z.to_nat z → sp_q p' !! l = sp_q p !! l) ∧
    ∃ old l, sp_q p !! Z.to_nat z = Some old ∧ sp_q p' !! Z.to_nat z = Some (old ++ l) ∧
      ∀ c, c ∈ l ↔ freec aggl c ∧ bnd !! c = Some z).
Proof.
  intros Hw Hag Hz. unfold build_queue. wstep. eapply wp_mono.
  { apply (wp_foldM _ (λ (pre : list nat) s, good_pset prio s ∧
      ∀ c, c ∈ map fst s ↔ c ∈ pre ∧ freec aggl c ∧ bnd !! c = Some z)).
    { split; [apply good_nil|]. intros c. simpl. rewrite elem_of_nil. naive_solver. }
    intros pre i post s Hseq [Hs Hel].
    assert (i < n) as Hi.
    { assert (i ∈ seq 0 (length bnd)) as Hi' by (rewrite Hseq; set_solver).
      apply elem_of_seq in Hi'. lia. }
    wstep. apply wp_vget; [lia|]. intros b Hbi. destruct b.
    { simpl. split; [done|]. intros c. rewrite Hel, elem_of_app, elem_of_list_singleton.
      split; [tauto|]. intros [[?| ->] [Hf ?]]; [tauto|]. unfold freec in Hf. congruence. }
    wstep. apply wp_vget; [lia|]. intros x Hx. case_bool_decide as Hxz.
    - wstep. apply wp_vget; [lia|]. intros w Hwt. simpl. split; [by apply good_insert|].
      intros c. rewrite pset_insert_fst, Hel, elem_of_app, elem_of_list_singleton. simpl.
      split; [|tauto]. intros [->|?]; [|tauto]. subst x. unfold freec. auto.
    - simpl. split; [done|]. intros c. rewrite Hel, elem_of_app, elem_of_list_singleton.
      split; [tauto|]. intros [[?| ->] [Hf ?]]; [tauto|]. congruence. }
  simpl. intros s [Hs Hel].
  assert (∀ c, c ∈ map fst s ↔ freec aggl c ∧ bnd !! c = Some z) as Hel'.
  { intros c. rewrite Hel. split; [tauto|]. intros Hc. split; [|done].
    apply elem_of_seq. pose proof (lookup_lt_Some _ _ _ (proj1 Hc)). lia. }
  destruct (lookup_lt_is_Some_2 (sp_q p) (Z.to_nat z)) as [old Hold]; [rewrite (pw_len _ Hw); lia|].
  destruct s as [|pr s].
  { simpl. split_and!; try done. exists old, []. split_and!; [done|by rewrite app_nil_r|done]. }
  wstep. eapply wp_mono; [apply push_back_ok; [apply Hw|done]|]. simpl.
  intros q' [Hl Hlk].
  assert (q' !! Z.to_nat z = Some (old ++ pr.1 :: map fst s)) as Hlkz.
  { apply Hlk. rewrite decide_True by done. eauto. }
  assert (∀ l, l ≠ Z.to_nat z → q' !! l = sp_q p !! l) as Hlko.
  { intros l Hne. apply option_eq. intros r. by rewrite Hlk, decide_False. }
  split_and!; try done.
  - split; simpl; [done| |apply Hw]. intros l c (r & Hr & Hc). simpl in Hr.
    destruct (decide (l = Z.to_nat z)) as [->|Hne].
    + rewrite Hlkz in Hr. simplify_eq. apply elem_of_app in Hc as [Hc|Hc].
      * apply (pw_cell _ Hw). by exists old.
      * apply (Hel' c) in Hc as [_ Hc]. exists z. split; [done|lia].
    + rewrite Hlko in Hr by done. apply (pw_cell _ Hw). by exists r.
  - exists old, (pr.1 :: map fst s). done.
Qed.

(** ** Choosing a seed *)

(** What is known about a seed chosen from a pool satisfying the invariant. *)
Definition seed_spec aggl p (s : nat) : Prop :=
  freec aggl s ∧
  if sp_bp p then
    ∀ c b b', freec aggl c → bnd !! c = Some b → bnd !! s = Some b' → (b <= b')%Z
  else
    (∃ l c, inq p l c ∧ freec aggl c) → ∃ l, inq p l s.

Lemma choose_rebuild_ok aggl p t :
  pool_wf p → length aggl = n → (0 <= t <= 3)%Z →
  (if sp_bp p then
     (∀ l c, inq p l c → freec aggl c → bnd !! c = Some (Z.of_nat l)) ∧
     (∀ c b, freec aggl c → bnd !! c = Some b → (b <= t)%Z)
   else ∀ l c, inq p l c → ¬ freec aggl c) →
  wp (choose_rebuild prio bnd aggl p t) (λ r,
    sp_bp r.2 = sp_bp p ∧ sp_one r.2 = sp_one p ∧
    match r.1 with
    | None => ∀ c, ¬ freec aggl c
    | Some s => pool_inv aggl r.2 ∧ freec aggl s ∧ sp_top r.2 ≠ None ∧
        (∃ b, bnd !! s = Some b ∧
          ((t <= b)%Z ∨ ∀ c b', freec aggl c → bnd !! c = Some b' → (b' <= b)%Z))
    end).
Proof.
  intros Hw Hag Ht Hinv. unfold choose_rebuild. wstep.
  eapply wp_mono; [by apply get_highest_ok|]. intros [cq|] Hcq; [|done].
  destruct Hcq as [(c0 & Hc0 & Hc0b) Hmax].
  assert (0 <= cq <= 3)%Z as Hcq3 by (by eapply Hb3).
  wstep. eapply wp_mono.
  { apply spoil_level_ok; [|done|done].
    split; simpl; [apply Hw|apply Hw|]. intros ? [= <-]. done. }
  intros [o p1]. simpl. intros (Hw1 & Ht1 & Hbp1 & Hone1 & Hin1 & Hoth1 & Ho).
  destruct o as [s|].
  - destruct Ho as (Hs & Hsq & pre & q & Hq & Hq1 & Hpre). simpl.
    split; [done|]. split; [done|]. split_and!.
    + split; [done| |].
      * rewrite Hbp1. intros Hbp. rewrite Hbp in Hinv. destruct Hinv as [Hl Hle].
        split; [eauto|]. intros t' c b Hte Hfc Hcb. rewrite Ht1 in Hte. simplify_eq.
        destruct Hmax as [Hm|Hm]; [|eauto]. specialize (Hle _ _ Hfc Hcb). lia.
      * rewrite Hbp1. intros Hnp. rewrite Hnp in Hinv. intros t' l c _ _ Hc. eauto.
    + done.
    + by rewrite Ht1.
    + destruct (pw_cell _ Hw _ _ Hsq) as (b & Hsb & Hle). exists b. split; [done|].
      destruct (sp_bp p) eqn:Hbp.
      * destruct Hinv as [Hl Hle']. specialize (Hl _ _ Hsq Hs). rewrite Hsb in Hl. simplify_eq.
        destruct Hmax as [Hm|Hm]; [left; lia|]. right. intros c b' H1 H2.
        specialize (Hm _ _ H1 H2). lia.
      * by destruct (Hinv _ _ Hsq).
  - destruct Ho as [Hq1 Hno]. wstep. eapply wp_mono; [by apply build_queue_ok|].
    intros p2 (Hw2 & Ht2 & Hbp2 & Hone2 & Hoth2 & old & l & Hold & Hq2 & Hl).
    rewrite Hq1 in Hold. simplify_eq. simpl in Hq2.
    wstep. apply wp_vgetZ; [rewrite (pw_len _ Hw2); lia|]. intros q Hq. rewrite Hq2 in Hq. simplify_eq.
    destruct q as [|s q].
    { exfalso. assert (c0 ∈ []) as Hc0' by (by apply Hl). by apply elem_of_nil in Hc0'. }
    rewrite vsetZ_ok by (rewrite (pw_len _ Hw2); lia). simpl.
    assert (freec aggl s ∧ bnd !! s = Some cq) as [Hs Hsb] by (apply Hl; left).
    set (p3 := set_q p2 (<[Z.to_nat cq:=q]> (sp_q p2))).
    assert (∀ k c, inq p3 k c → k = Z.to_nat cq ∧ c ∈ q ∨ k ≠ Z.to_nat cq ∧ inq p k c) as Hin3.
    { intros k c (r & Hr & Hc). unfold p3 in Hr. simpl in Hr.
      destruct (decide (k = Z.to_nat cq)) as [->|Hne].
      - rewrite list_lookup_insert in Hr by (rewrite (pw_len _ Hw2); lia). simplify_eq. by left.
      - rewrite list_lookup_insert_ne, Hoth2 in Hr by done. right. split; [done|].
        apply Hin1. by exists r. }
    assert (∀ c, c ∈ q → freec aggl c ∧ bnd !! c = Some cq) as Hqc by (intros; apply Hl; by right).
    split; [by rewrite Hbp2|]. split; [by rewrite Hone2|]. split_and!.
    + split.
      * split; simpl; [by rewrite insert_length, (pw_len _ Hw2)| |apply Hw2].
        intros k c Hc. apply Hin3 in Hc as [[-> Hc]|[_ Hc]]; [|by apply (pw_cell _ Hw)].
        exists cq. split; [by apply Hqc|lia].
      * simpl. rewrite Hbp2, Hbp1. intros Hbp. rewrite Hbp in Hinv. destruct Hinv as [Hlv Hle].
        split.
        -- intros k c Hc Hfc. apply Hin3 in Hc as [[-> Hc]|[_ Hc]]; [|by apply Hlv].
           rewrite (proj2 (Hqc _ Hc)). f_equal. lia.
        -- intros t' c b Hte Hfc Hcb. simpl in Hte. rewrite Ht2, Ht1 in Hte. simplify_eq.
           destruct Hmax as [Hm|Hm]; [|eauto]. specialize (Hle _ _ Hfc Hcb). lia.
      * simpl. rewrite Hbp2, Hbp1. intros Hnp. rewrite Hnp in Hinv.
        intros t' k c Hte Hlt Hc. simpl in Hte. rewrite Ht2, Ht1 in Hte. simplify_eq.
        apply Hin3 in Hc as [[-> Hc]|[_ Hc]]; [lia|eauto].
    + done.
    + by rewrite Ht2, Ht1.
    + exists cq. split; [done|]. destruct Hmax as [Hm|Hm]; [by left|by right].
Qed.

Lemma np_scan_ok aggl p lvl :
  pool_wf p → length aggl = n → lvl ≤ 3 →
  wp (np_scan aggl p lvl) (λ r,
    pool_wf r.2 ∧ sp_bp r.2 = sp_bp p ∧ sp_one r.2 = sp_one p ∧
    (∀ l c, inq r.2 l c → inq p l c) ∧
    match r.1 with
    | Some s => freec aggl s ∧ ∃ k, k ≤ lvl ∧ inq p k s ∧
        sp_top r.2 = Some (Z.of_nat k) ∧
        ∀ l c, k < l ≤ lvl → inq p l c → ¬ freec aggl c
    | None => ∀ l c, l ≤ lvl → inq p l c → ¬ freec aggl c
    end).
Proof.
  revert p. induction lvl as [|lvl IH]; intros p Hw Hag Hl; simpl; wstep;
    (eapply wp_mono; [apply spoil_level_ok; [done|done|lia]|]);
    intros [o p1]; simpl; intros (Hw1 & Ht1 & Hbp1 & Hone1 & Hin1 & Hoth1 & Ho).
  - destruct o as [s|]; simpl.
    + destruct Ho as (Hs & Hsq & _). split_and!; try done.
      * split; simpl; [apply Hw1|apply Hw1|]. intros ? [= <-]. lia.
      * exists 0. split_and!; [done|done|done|]. lia.
    + destruct Ho as [_ Ho]. split_and!; try done. intros l c Hl0. assert (l = 0) as -> by lia. auto.
  - destruct o as [s|].
    + destruct Ho as (Hs & Hsq & _). simpl. split_and!; try done.
      * split; simpl; [apply Hw1|apply Hw1|]. intros ? [= <-]. lia.
      * exists (S lvl). split_and!; [done|by replace (S lvl) with (Z.to_nat (Z.of_nat (S lvl))) by lia|done|]. lia.
    + destruct Ho as [_ Ho]. replace (Z.to_nat (Z.of_nat (S lvl))) with (S lvl) in * by lia.
      eapply wp_mono; [apply IH; [done|done|lia]|]. intros [o p2]. simpl.
      intros (Hw2 & Hbp2 & Hone2 & Hin2 & Ho2). split_and!; try done; try congruence; [by eauto|].
      destruct o as [s|].
      * destruct Ho2 as (Hs & k & Hk & Hks & Htop & Hno). split; [done|]. exists k.
        split_and!; [lia|eauto|done|]. intros l c Hlt Hc.
        destruct (decide (l = S lvl)) as [->|]; [eauto|]. intros Hfc.
        apply (Hno l c); [lia| |done]. destruct Hc as (q & Hq & Hc). exists q.
        rewrite Hoth1 by done. done.
      * intros l c Hlt Hc. destruct (decide (l = S lvl)) as [->|]; [eauto|].
        apply (Ho2 l c); [lia|]. destruct Hc as (q & Hq & Hc). exists q.
        rewrite Hoth1 by done. done.
Qed.

Lemma choose_new_seed_ok aggl p :
  pool_inv aggl p → length aggl = n → sp_top p ≠ None →
  wp (choose_new_seed prio bnd aggl p) (λ r,
    sp_bp r.2 = sp_bp p ∧ sp_one r.2 = sp_one p ∧
    match r.1 with
    | None => ∀ c, ¬ freec aggl c
    | Some s => pool_inv aggl r.2 ∧ seed_spec aggl p s ∧ sp_top r.2 ≠ None
    end).
Proof.
  intros [Hw Hbp Hnp] Hag Htop. unfold choose_new_seed.
  destruct (sp_top p) as [t|] eqn:Ht; [|done].
  assert (0 <= t <= 3)%Z as Ht3 by (by apply (pw_top _ Hw)).
  unfold seed_spec. destruct (sp_bp p) eqn:Hkind.
  - specialize (Hbp eq_refl). clear Hnp. wstep.
    eapply wp_mono; [by apply spoil_level_ok|]. intros [o p1]. simpl.
    intros (Hw1 & Ht1 & Hbp1 & Hone1 & Hin1 & Hoth1 & Ho). destruct o as [s|].
    + destruct Ho as (Hs & Hsq & _). simpl. rewrite Hbp1, Hkind.
      split_and!; try done.
      * split; [done| |by rewrite Hbp1, Hkind]. intros _. destruct Hbp as [Hl Hle]. split; [eauto|].
        intros t' c b. rewrite Ht1. apply Hle.
      * intros c b b' Hfc Hcb Hsb. rewrite (bi_lvl _ _ Hbp _ _ Hsq Hs) in Hsb. simplify_eq.
        pose proof (bi_top _ _ Hbp _ _ _ Ht Hfc Hcb). lia.
      * by rewrite Ht1, Ht.
    + destruct Ho as [_ Hno]. eapply wp_mono.
      { apply choose_rebuild_ok; [done|done|done|]. rewrite Hbp1, Hkind.
        destruct Hbp as [Hl Hle]. split; [eauto|]. intros. by eapply Hle. }
      intros [o p2]. simpl. intros (Hbp2 & Hone2 & Ho). rewrite Hbp2, Hbp1, Hkind.
      split; [done|]. split; [congruence|]. destruct o as [s|]; [|done].
      destruct Ho as (Hinv & Hs & Htt & b & Hsb & Hb'). split_and!; try done.
      intros c b1 b2 Hfc Hcb Hsb2. rewrite Hsb in Hsb2. simplify_eq.
      destruct Hb' as [Hle|Hm]; [|eauto].
      pose proof (bi_top _ _ Hbp _ _ _ Ht Hfc Hcb). lia.
  - specialize (Hnp eq_refl). clear Hbp. rewrite bool_decide_true by lia. wstep.
    eapply wp_mono; [apply np_scan_ok; [done|done|lia]|]. intros [o p1]. simpl.
    intros (Hw1 & Hbp1 & Hone1 & Hin1 & Ho). destruct o as [s|].
    + destruct Ho as (Hs & k & Hk & Hks & Htk & Hno). simpl. rewrite Hbp1, Hkind.
      split_and!; try done.
      * split; [done|by rewrite Hbp1, Hkind|]. intros _ t' l c Ht' Hlt Hc. rewrite Htk in Ht'.
        simplify_eq. destruct (decide (l ≤ Z.to_nat t)) as [Hle|Hgt].
        -- apply (Hno l c); [lia|eauto].
        -- apply (Hnp t l c); [done|lia|eauto].
      * intros _. eauto.
      * by rewrite Htk.
    + assert (∀ l c, inq p l c → ¬ freec aggl c) as Hnone.
      { intros l c Hc. destruct (decide (l ≤ Z.to_nat t)) as [Hle|Hgt]; [eauto|].
        apply (Hnp t l c); [done|lia|done]. }
      eapply wp_mono.
      { apply choose_rebuild_ok; [done|done|done|]. rewrite Hbp1, Hkind. eauto. }
      intros [o p2]. simpl. clear Ho. intros (Hbp2 & Hone2 & Ho). rewrite Hbp2, Hbp1, Hkind.
      split; [done|]. split; [congruence|]. destruct o as [s|]; [|done].
      destruct Ho as (Hinv & Hs & Htt & _). split_and!; try done.
      intros (l & c & Hc & Hfc). by destruct (Hnone _ _ Hc).
Qed.

(** ** Initialisation *)

Lemma max_bnd_ok :
  0 < n → wp (max_bnd bnd) (λ m, (∃ c, bnd !! c = Some m) ∧
    ∀ c b, bnd !! c = Some b → (b <= m)%Z).
Proof.
  intros Hn. unfold max_bnd. clear Hp Hb3. destruct bnd as [|b l]; [simpl in Hn; lia|]. simpl.
  assert (∀ l b, let m := foldl (λ m x : Z, if bool_decide (m < x)%Z then x else m) b l in
    (m = b ∨ m ∈ l) ∧ (b <= m)%Z ∧ ∀ x, x ∈ l → (x <= m)%Z) as Hgen.
  { clear. induction l as [|x l IH]; intros b; simpl.
    - split_and!; [by left|done|]. intros x Hx. by apply elem_of_nil in Hx.
    - destruct (IH (if bool_decide (b < x)%Z then x else b)) as (H1 & H2 & H3).
      split_and!.
      + destruct H1 as [->|?]; [|right; by right]. case_bool_decide; [right; left|by left].
      + case_bool_decide; lia.
      + intros y Hy. apply elem_of_cons in Hy as [->|Hy]; [case_bool_decide; lia|auto]. }
  destruct (Hgen l b) as (H1 & H2 & H3). split.
  - destruct H1 as [->|Hin]; [by exists 0|]. apply elem_of_list_lookup in Hin as [k Hk].
    by exists (S k).
  - intros [|c] x Hx; simpl in Hx; [by simplify_eq|]. apply H3. by eapply elem_of_list_lookup_2.
Qed.

Lemma full_init_ok mb :
  wp (full_init prio bnd mb) (λ l, ∀ c, c ∈ l ↔ ∃ b, bnd !! c = Some b ∧ (mb <= b)%Z).
Proof.
  unfold full_init. wstep. eapply wp_mono.
  { apply (wp_foldM _ (λ (pre : list nat) s, good_pset prio s ∧
      ∀ c, c ∈ map fst s ↔ c ∈ pre ∧ ∃ b, bnd !! c = Some b ∧ (mb <= b)%Z)).
    { split; [apply good_nil|]. intros c. simpl. rewrite elem_of_nil. naive_solver. }
    intros pre i post s Hseq [Hs Hel].
    assert (i < n) as Hi.
    { assert (i ∈ seq 0 n) as Hi' by (rewrite Hseq; set_solver).
      apply elem_of_seq in Hi'. lia. }
    wstep. apply wp_vget; [lia|]. intros x Hx. case_bool_decide as Hxz.
    - wstep. apply wp_vget; [lia|]. intros w Hwt. simpl. split; [by apply good_insert|].
      intros c. rewrite pset_insert_fst, Hel, elem_of_app, elem_of_list_singleton. simpl.
      split; [|tauto]. intros [->|?]; [|tauto]. eauto.
    - simpl. split; [done|]. intros c. rewrite Hel, elem_of_app, elem_of_list_singleton.
      split; [tauto|]. intros [[?| ->] (b & Hf & ?)]; [by eauto|]. rewrite Hx in Hf. by simplify_eq. }
  simpl. intros s [Hs Hel] c. rewrite Hel. split; [tauto|]. intros Hc. split; [|done].
  destruct Hc as (b & Hc & _). apply elem_of_seq. apply lookup_lt_Some in Hc. lia.
Qed.

Lemma one_point_init_ok mb :
  (∀ w, w ∈ prio → wlt w wminv = false) →
  (∃ c b, bnd !! c = Some b ∧ (mb <= b)%Z) →
  wp (one_point_init prio bnd mb) (λ l, ∃ c b w, l = [c] ∧ bnd !! c = Some b ∧ (mb <= b)%Z ∧
    prio !! c = Some w ∧
    ∀ c' b' w', bnd !! c' = Some b' → (mb <= b')%Z → prio !! c' = Some w' →
      pair_gt (c', w') (c, w) = false).
Proof.
  intros Hpos (c0 & b0 & Hc0 & Hle0). unfold one_point_init. wstep. eapply wp_mono.
  { apply (wp_foldM _ (λ (pre : list nat) (cur : nat * W),
      cur = (n, wminv) ∧ (∀ c b, c ∈ pre → bnd !! c = Some b → (b < mb)%Z) ∨
      (∃ b, bnd !! cur.1 = Some b ∧ (mb <= b)%Z) ∧ keyed prio cur ∧
      ∀ c' b' w', c' ∈ pre → bnd !! c' = Some b' → (mb <= b')%Z → prio !! c' = Some w' →
        pair_gt (c', w') cur = false)).
    { left. split; [done|]. intros c b Hc. by apply elem_of_nil in Hc. }
    intros pre i post cur Hseq Hcur.
    assert (i < n) as Hi.
    { assert (i ∈ seq 0 n) as Hi' by (rewrite Hseq; set_solver).
      apply elem_of_seq in Hi'. lia. }
    wstep. apply wp_vget; [lia|]. intros w Hw.
    wstep. apply wp_vget; [lia|]. intros x Hx. simpl.
    assert (w ∈ prio) as Hwin by (by eapply elem_of_list_lookup_2).
    case_bool_decide as Hxz; simpl.
    - destruct Hcur as [[-> Hcur]|(Hcb & Hck & Hcm)].
      + assert (pair_gt (i, w) (n, wminv) = true) as ->.
        { unfold pair_gt. simpl. destruct (wlt wminv w); [done|]. rewrite Hpos by done.
          by apply bool_decide_eq_true. }
        right. split; [by exists x|]. split; [done|].
        intros c' b' w' Hc' Hb' Hle Hw'. apply elem_of_app in Hc' as [Hc'|Hc'].
        { specialize (Hcur _ _ Hc' Hb'). lia. }
        apply elem_of_list_singleton in Hc' as ->. rewrite Hw in Hw'. simplify_eq.
        by apply (pair_gt_irr _ Hord).
      + right. destruct (pair_gt (i, w) cur) eqn:Hgt.
        * split; [by exists x|]. split; [done|].
          intros c' b' w' Hc' Hb' Hle Hw'. apply elem_of_app in Hc' as [Hc'|Hc'].
          -- destruct (pair_gt (c', w') (i, w)) eqn:Hgt'; [|done].
             rewrite <- (Hcm c' b' w') by done. symmetry.
             eapply (pair_gt_trans _ Hord _ (i, w)); try done; simpl.
             ++ by eapply elem_of_list_lookup_2.
             ++ by eapply keyed_in.
          -- apply elem_of_list_singleton in Hc' as ->. rewrite Hw in Hw'. simplify_eq.
             by apply (pair_gt_irr _ Hord).
        * split; [done|]. split; [done|].
          intros c' b' w' Hc' Hb' Hle Hw'. apply elem_of_app in Hc' as [Hc'|Hc']; [by eauto|].
          apply elem_of_list_singleton in Hc' as ->. rewrite Hw in Hw'. by simplify_eq.
    - destruct Hcur as [[-> Hcur]|(Hcb & Hck & Hcm)]; [left|right].
      + split; [done|]. intros c b Hc Hcb. apply elem_of_app in Hc as [Hc|Hc]; [eauto|].
        apply elem_of_list_singleton in Hc as ->. rewrite Hx in Hcb. simplify_eq. lia.
      + split_and!; [done..|]. intros c' b' w' Hc' Hb' Hle Hw'.
        apply elem_of_app in Hc' as [Hc'|Hc']; [by eauto|].
        apply elem_of_list_singleton in Hc' as ->. rewrite Hx in Hb'. by simplify_eq. }
  assert (∀ c b, bnd !! c = Some b → c ∈ seq 0 n) as Hseq.
  { intros c b Hc. apply lookup_lt_Some in Hc. apply elem_of_seq. lia. }
  simpl. intros [c w] [[-> Hno]|((b & Hcb & Hle) & Hck & Hcm)].
  { specialize (Hno _ _ (Hseq _ _ Hc0) Hc0). lia. }
  exists c, b, w. split_and!; [done..|]. eauto.
Qed.

Lemma pool_initialize_ok aggl p :
  pool_wf p → 0 < n → (sp_one p = true → ∀ w, w ∈ prio → wlt w wminv = false) →
  (∀ t, sp_top p = Some t → ∃ c b, bnd !! c = Some b ∧ (t <= b)%Z) →
  (sp_bp p = true → bp_inv aggl p) → (sp_bp p = false → np_inv aggl p) →
  wp (pool_initialize prio bnd p) (λ p',
    pool_inv aggl p' ∧ sp_top p' ≠ None ∧ sp_bp p' = sp_bp p ∧ sp_one p' = sp_one p).
Proof.
  intros Hw Hn Hpos Hex Hbp Hnp. unfold pool_initialize. wstep.
  assert (wp (match sp_top p with Some t => Ok t | None => max_bnd bnd end) (λ t,
    (0 <= t <= 3)%Z ∧ (∃ c b, bnd !! c = Some b ∧ (t <= b)%Z) ∧
    (sp_top p = Some t ∨ sp_top p = None ∧ ∀ c b, bnd !! c = Some b → (b <= t)%Z))) as Htop.
  { destruct (sp_top p) as [t|] eqn:Ht.
    - simpl. split_and!; [by apply (pw_top _ Hw)..|by apply Hex|by left].
    - eapply wp_mono; [by apply max_bnd_ok|]. simpl. intros m [[c Hc] Hm]. split_and!.
      + by apply Hb3 in Hc as [? ?].
      + by apply Hb3 in Hc as [? ?].
      + exists c, m. split; [done|lia].
      + by right. }
  eapply wp_mono; [apply Htop|]. clear Htop. simpl. intros t (Ht3 & Hext & Ht).
  wstep. apply wp_vgetZ; [rewrite (pw_len _ Hw); lia|]. intros _ _. wstep.
  assert (wp (if sp_one p then one_point_init prio bnd t else full_init prio bnd t) (λ l,
    ∀ c, c ∈ l → ∃ b, bnd !! c = Some b ∧ (t <= b)%Z)) as Hinit.
  { destruct (sp_one p).
    - eapply wp_mono; [apply one_point_init_ok; [by apply Hpos|done]|]. simpl.
      intros l (c & b & w & -> & Hc & Hle & _) c' Hc'. apply elem_of_list_singleton in Hc' as ->. eauto.
    - eapply wp_mono; [apply full_init_ok|]. simpl. intros l Hl c Hc. by apply Hl. }
  eapply wp_mono; [apply Hinit|]. clear Hinit. intros l Hl. wstep.
  eapply wp_mono; [apply push_back_ok; [apply Hw|done]|]. intros q [Hlen Hq]. simpl.
  assert (∀ k c, (∃ r, q !! k = Some r ∧ c ∈ r) →
    inq p k c ∨ k = Z.to_nat t ∧ ∃ b, bnd !! c = Some b ∧ (t <= b)%Z) as Hin.
  { intros k c (r & Hr & Hc). apply Hq in Hr. case_decide as Hk.
    - destruct Hr as (old & Hold & ->). apply elem_of_app in Hc as [Hc|Hc].
      + left. by exists old.
      + right. split; [done|]. by apply Hl.
    - left. by exists r. }
  split_and!; try done. split.
  - split; simpl; [done| |].
    + intros k c Hc. apply Hin in Hc as [Hc|[-> (b & Hc & Hle)]]; [by apply (pw_cell _ Hw)|].
      exists b. split; [done|lia].
    + intros ? [= <-]. done.
  - simpl. intros Hk. specialize (Hbp Hk).
    assert (∀ c b, freec aggl c → bnd !! c = Some b → (b <= t)%Z) as Hmax.
    { intros c b Hfc Hc. destruct Ht as [Ht|[_ Ht]]; [by eapply bi_top|by eapply Ht]. }
    split.
    + intros k c Hc Hfc. apply Hin in Hc as [Hc|[-> (b & Hc & Hle)]]; [by eapply bi_lvl|].
      rewrite Hc. f_equal. specialize (Hmax _ _ Hfc Hc). lia.
    + simpl. intros ? c b [= <-]. apply Hmax.
  - simpl. intros Hk. specialize (Hnp Hk). intros t' k c Ht' Hlt Hc. simpl in Ht'. simplify_eq.
    apply Hin in Hc as [Hc|[-> _]]; [|lia]. destruct Ht as [Ht|[_ Ht]].
    + by eapply Hnp.
    + intros _. destruct (pw_cell _ Hw _ _ Hc) as (b & Hcb & Hle). specialize (Ht _ _ Hcb). lia.
Qed.

Lemma pool_new_wf bp one : pool_wf (pool_new bp one).
Proof.
  split; [done| |done]. intros l c (q & Hq & Hc). unfold pool_new in Hq. simpl in Hq.
  do 4 (destruct l as [|l]; [simpl in Hq; simplify_eq; by apply elem_of_nil in Hc|]). done.
Qed.
Lemma pool_new_inq bp one l c : ¬ inq (pool_new bp one) l c.
Proof.
  intros (q & Hq & Hc). unfold pool_new in Hq. simpl in Hq.
  do 4 (destruct l as [|l]; [simpl in Hq; simplify_eq; by apply elem_of_nil in Hc|]). done.
Qed.
Lemma pool_new_inv aggl bp one : pool_inv aggl (pool_new bp one).
Proof.
  split; [apply pool_new_wf| |].
  - intros _. split; [|done]. intros l c Hc. by apply pool_new_inq in Hc.
  - intros _ t l c Ht. done.
Qed.

(** ** Updates *)

(** Everything the invariant says except that the top level bounds the free
    cells (boundary priority). *)
Record pool_pre aggl p : Prop := {
  pp_wf : pool_wf p;
  pp_bp : sp_bp p = true →
    ∀ l c, inq p l c → freec aggl c → bnd !! c = Some (Z.of_nat l);
  pp_np : sp_bp p = false → np_inv aggl p;
}.
Lemma pool_inv_pre aggl p : pool_inv aggl p → pool_pre aggl p.
Proof. intros [Hw Hbp Hnp]. split; [done| |done]. intros Hk. by destruct (Hbp Hk). Qed.

(** The level at which a cell is inserted. *)
Definition ins_level p (b : Z) : Z :=
  if sp_bp p then b else match sp_top p with Some t => Z.min b t | None => b end.

(** Pushing cells at their level. *)
Definition pushed p p' (new : nat → Prop) : Prop :=
  ∀ l c, inq p' l c ↔ inq p l c ∨
    new c ∧ ∃ b, bnd !! c = Some b ∧ l = Z.to_nat (ins_level p b).

Lemma ins_level_range p b : pool_wf p → (0 <= b <= 3)%Z → (0 <= ins_level p b <= 3)%Z ∧ (ins_level p b <= b)%Z.
Proof.
  intros Hw Hb. unfold ins_level. destruct (sp_bp p); [lia|].
  destruct (sp_top p) eqn:Ht; [|lia]. apply (pw_top _ Hw) in Ht. lia.
Qed.
Lemma pushed_pre aggl p p' new :
  pool_pre aggl p → length (sp_q p') = 4 → sp_bp p' = sp_bp p → pushed p p' new →
  (∀ t, sp_top p' = Some t → (0 <= t <= 3)%Z) →
  (sp_bp p = false → sp_top p' = sp_top p) →
  pool_pre aggl p'.
Proof.
  intros [Hw Hbp Hnp] Hlen Hk Hpush Ht3 Htop. split.
  - split; [done| |done]. intros l c Hc. apply Hpush in Hc as [Hc|(_ & b & Hc & ->)].
    + by apply (pw_cell _ Hw).
    + exists b. split; [done|]. apply Hb3 in Hc. pose proof (ins_level_range p b Hw Hc). lia.
  - rewrite Hk. intros Hk' l c Hc Hfc. apply Hpush in Hc as [Hc|(_ & b & Hc & ->)]; [by apply Hbp|].
    unfold ins_level. rewrite Hk', Hc. f_equal. apply Hb3 in Hc. lia.
  - rewrite Hk. intros Hk' t l c Ht Hlt Hc. rewrite Htop in Ht by done.
    apply Hpush in Hc as [Hc|(_ & b & Hc & ->)]; [by eapply Hnp|].
    exfalso. pose proof (pw_top _ Hw _ Ht). apply Hb3 in Hc.
    unfold ins_level in Hlt. rewrite Hk', Ht in Hlt. lia.
Qed.

Lemma pool_update_ok p (new : list nat) :
  pool_wf p → (∀ c, c ∈ new → c < n) →
  wp (pool_update bnd p new) (λ p',
    length (sp_q p') = 4 ∧ sp_bp p' = sp_bp p ∧ sp_one p' = sp_one p ∧
    pushed p p' (λ c, c ∈ new) ∧
    (∀ t, sp_top p' = Some t → (0 <= t <= 3)%Z) ∧
    (sp_bp p = false → sp_top p' = sp_top p) ∧
    (∀ t, sp_top p = Some t → ∃ t', sp_top p' = Some t' ∧ (t <= t')%Z)).
Proof.
  intros Hw Hnew. unfold pool_update.
  set (inqq := λ (q : list (list nat)) l c, ∃ r, q !! l = Some r ∧ c ∈ r).
  assert (∀ q z s, length q = 4 → (0 <= z <= 3)%Z →
    wp (push_back q z [s]) (λ q', length q' = 4 ∧ ∀ l c, inqq q' l c ↔
      inqq q l c ∨ c = s ∧ l = Z.to_nat z)) as Hpush1.
  { intros q z s Hl Hz. eapply wp_mono; [by apply push_back_ok|]. intros q' [Hl' Hq'].
    split; [done|]. intros l c. unfold inqq. split.
    - intros (r & Hr & Hc). apply Hq' in Hr. case_decide as Hlz; [|by eauto].
      destruct Hr as (old & Hold & ->). apply elem_of_app in Hc as [Hc|Hc]; [by eauto|].
      apply elem_of_list_singleton in Hc. auto.
    - intros Hc. destruct (decide (l = Z.to_nat z)) as [->|Hne].
      + destruct (lookup_lt_is_Some_2 q (Z.to_nat z)) as [old Hold]; [lia|].
        exists (old ++ [s]). split.
        * apply Hq'. rewrite decide_True by done. eauto.
        * apply elem_of_app. destruct Hc as [(r & Hr & Hc)|[-> _]]; [|right; left].
          rewrite Hold in Hr. simplify_eq. by left.
      + destruct Hc as [(r & Hr & Hc)|[_ ?]]; [|done]. exists r. split; [|done].
        apply Hq'. by rewrite decide_False. }
  destruct (sp_bp p) eqn:Hk.
  - assert (wp (r ← foldM (λ '(mb, q) s,
              n ← vget bnd s;
              q ← push_back q n [s];
              Ok (if bool_decide (mb < n)%Z then n else mb, q))
              new (0%Z, sp_q p);
        let '(mb, q) := r in
        let p := set_q p q in
        Ok (match sp_top p with
            | Some t => if bool_decide (t < mb)%Z then set_top p (Some mb) else p
            | None => set_top p (Some mb)
            end)) (λ p',
    length (sp_q p') = 4 ∧ sp_bp p' = true ∧ sp_one p' = sp_one p ∧
    pushed p p' (λ c, c ∈ new) ∧
    (∀ t, sp_top p' = Some t → (0 <= t <= 3)%Z) ∧
    (true = false → sp_top p' = sp_top p) ∧
    (∀ t, sp_top p = Some t → ∃ t', sp_top p' = Some t' ∧ (t <= t')%Z))) as Hmain.
    { wstep. eapply wp_mono.
      { apply (wp_foldM _ (λ (pre : list nat) (st : Z * list (list nat)),
          length st.2 = 4 ∧ (0 <= st.1 <= 3)%Z ∧
          ∀ l c, inqq st.2 l c ↔ inq p l c ∨
            c ∈ pre ∧ ∃ b, bnd !! c = Some b ∧ l = Z.to_nat b)).
        { simpl. split_and!; [apply Hw|lia|lia|]. intros l c. unfold inqq, inq.
          rewrite elem_of_nil. split; [by left|]. intros [?|[[] _]]; done. }
        intros pre s post [mb q] Heq (Hl & Hmb & Hq). simpl in *.
        wstep. apply wp_vget; [apply Hnew; rewrite Heq; set_solver|]. intros b Hsb.
        pose proof (Hb3 _ _ Hsb). wstep. eapply wp_mono; [by apply Hpush1|].
        intros q' [Hl' Hq']. simpl. split_and!; [done|case_bool_decide; lia|case_bool_decide; lia|].
        intros l c. rewrite Hq', Hq, elem_of_app, elem_of_list_singleton. split.
        - intros [[?|[? ?]]|[-> ->]]; [by left|right; by eauto|right; by eauto].
        - intros [?|[[?| ->] (b' & Hb' & ->)]]; [by auto|left; right; by eauto|].
          rewrite Hsb in Hb'. simplify_eq. auto. }
      intros [mb q] (Hl & Hmb & Hq). simpl in *.
      destruct (sp_top p) as [t|] eqn:Ht; [case_bool_decide|]; simpl; split_and!; try done.
      all: try (intros l c; unfold ins_level; rewrite Hk; apply Hq).
      - intros ? [= <-]. lia.
      - intros ? [= <-]. exists mb. split; [done|lia].
      - intros ?. rewrite Ht. intros [= <-]. by apply (pw_top _ Hw).
      - intros ? [= <-]. exists t. split; [done|lia].
      - intros ? [= <-]. lia. }
    destruct new as [|s new]; [|exact Hmain].
    simpl. split_and!; try done; [apply Hw| |apply Hw|].
    + intros l c. rewrite elem_of_nil. split; [by left|]. intros [?|[[] _]]; done.
    + intros t ->. exists t. split; [done|lia].
  - wstep. eapply wp_mono.
    { apply (wp_foldM _ (λ (pre : list nat) (q : list (list nat)),
          length q = 4 ∧
          ∀ l c, inqq q l c ↔ inq p l c ∨
            c ∈ pre ∧ ∃ b, bnd !! c = Some b ∧ l = Z.to_nat (ins_level p b))).
      { split_and!; [apply Hw|]. intros l c. unfold inqq, inq.
        rewrite elem_of_nil. split; [by left|]. intros [?|[[] _]]; done. }
      intros pre s post q Heq (Hl & Hq). simpl in *.
      wstep. apply wp_vget; [apply Hnew; rewrite Heq; set_solver|]. intros b Hsb.
      pose proof (ins_level_range p b Hw (Hb3 _ _ Hsb)) as Hr.
      assert (ins_level p b = match sp_top p with Some t => Z.min b t | None => b end) as Hlv.
      { unfold ins_level. by rewrite Hk. }
      rewrite <- Hlv.
      eapply wp_mono; [apply Hpush1; [done|lia]|].
      intros q' [Hl' Hq']. simpl. split_and!; [done|].
      intros l c. rewrite Hq', Hq, elem_of_app, elem_of_list_singleton. split.
      - intros [[?|[? ?]]|[-> ->]]; [by left|right; by eauto|right; by eauto].
      - intros [?|[[?| ->] (b' & Hb' & ->)]]; [by auto|left; right; by eauto|].
        rewrite Hsb in Hb'. simplify_eq. auto. }
    intros q [Hl Hq]. simpl. split_and!; try done; [apply Hw|].
    intros t ->. exists t. split; [done|lia].
Qed.

(** ** Ordered updates *)

(** The map from number of boundary faces to ordered set of cells. *)
Record bymap_ok (new : nat → Prop) (m : list (Z * list (nat * W))) : Prop := {
  bm_sorted : StronglySorted (λ x y : Z * list (nat * W), (y.1 < x.1)%Z) m;
  bm_good : ∀ k s, (k, s) ∈ m → good_pset prio s ∧ s ≠ [];
  bm_elem : ∀ k s c, (k, s) ∈ m → c ∈ map fst s → new c ∧ bnd !! c = Some k;
  bm_all : ∀ c k, new c → bnd !! c = Some k → ∃ s, (k, s) ∈ m ∧ c ∈ map fst s;
}.


Notation ksorted := (StronglySorted (λ x y : Z * list (nat * W), (y.1 < x.1)%Z)).
Lemma bymap_insert_spec k pr m : ksorted m →
  ksorted (bymap_insert k pr m) ∧
  ∀ k' s', (k', s') ∈ bymap_insert k pr m ↔
    k' ≠ k ∧ (k', s') ∈ m ∨
    k' = k ∧ ((∃ s, (k, s) ∈ m ∧ s' = pset_insert pr s) ∨ (∀ s, (k, s) ∉ m) ∧ s' = [pr]).
Proof.
  induction m as [|[k0 s0] m IH]; intros Hs; simpl.
  { split; [repeat constructor|]. intros k' s'. rewrite elem_of_list_singleton.
    split.
    - intros [= -> ->]. right. split; [done|]. right. split; [|done]. intros s Hin.
      by apply elem_of_nil in Hin.
    - intros [[_ Hin]|[-> [(s & Hin & _)|[_ ->]]]]; [by apply elem_of_nil in Hin..|done]. }
  apply StronglySorted_inv in Hs as [Hs Hall]. rewrite Forall_forall in Hall.
  destruct (IH Hs) as [IH1 IH2]. clear IH.
  assert (∀ s, (k0, s) ∉ m) as Hk0.
  { intros s Hin. apply Hall in Hin. simpl in Hin. lia. }
  case_bool_decide as H1; [|case_bool_decide as H2].
  - assert (∀ s, (k, s) ∉ m) as Hk.
    { intros s Hin. apply Hall in Hin. simpl in Hin. lia. }
    split.
    + constructor; [constructor; [done|]|].
      * by apply Forall_forall.
      * apply Forall_forall. intros [k1 s1] Hin. apply elem_of_cons in Hin as [[= -> ->]|Hin]; [done|].
        apply Hall in Hin. simpl in *. lia.
    + intros k' s'. rewrite !elem_of_cons. split.
      * intros [[= -> ->]|[[= -> ->]|Hin]].
        -- right. split; [done|]. right. split; [|done].
           intros s. rewrite elem_of_cons. intros [[= ? ?]|Hin]; [lia|by eapply Hk].
        -- left. split; [lia|by left].
        -- left. split; [|by right]. intros ->. by eapply Hk.
      * intros [[? [?|?]]|[-> [(s & Hin & _)|[_ ->]]]]; [by auto..| |by left].
        apply elem_of_cons in Hin as [[= ? ?]|Hin]; [lia|by destruct (Hk s)].
  - split.
    + constructor; [done|]. apply Forall_forall. intros [k1 s1] Hin. apply IH2 in Hin.
      destruct Hin as [[_ Hin]|[-> _]]; [|done]. by apply Hall in Hin.
    + intros k' s'. rewrite !elem_of_cons, IH2. split.
      * intros [[= -> ->]|[[? ?]|[-> [(s & Hin & ->)|[Hno ->]]]]].
        -- left. split; [lia|by left].
        -- left. split; [done|by right].
        -- right. split; [done|]. left. exists s. split; [by right|done].
        -- right. split; [done|]. right. split; [|done]. intros s.
           rewrite elem_of_cons. intros [[= ? ?]|Hin]; [lia|by eapply Hno].
      * intros [[? [?|?]]|[-> [(s & Hin & ->)|[Hno ->]]]]; [by auto..| |].
        -- apply elem_of_cons in Hin as [[= ? ?]|Hin]; [lia|]. right. right. split; [done|].
           left. by exists s.
        -- right. right. split; [done|]. right. split; [|done]. intros s Hin. apply (Hno s). by right.
  - assert (k0 = k) as -> by lia. split.
    + constructor; [done|]. by apply Forall_forall.
    + intros k' s'. rewrite !elem_of_cons. split.
      * intros [[= -> ->]|Hin].
        -- right. split; [done|]. left. exists s0. split; [left|done].
        -- left. split; [intros ->; by eapply Hk0|by right].
      * intros [[? [[= ? ?]|?]]|[-> [(s & Hin & ->)|[Hno ->]]]]; [done|by right| |].
        -- apply elem_of_cons in Hin as [[= ->]|Hin]; [by left|by destruct (Hk0 s)].
        -- destruct (Hno s0). left.
Qed.

Lemma bymap_insert_ok (new : nat → Prop) m c k w :
  bymap_ok new m → bnd !! c = Some k → prio !! c = Some w →
  bymap_ok (λ x, new x ∨ x = c) (bymap_insert k (c, w) m).
Proof.
  intros [Hs Hg He Ha] Hk Hw. destruct (bymap_insert_spec k (c, w) m Hs) as [Hs' Hin].
  assert (good_pset prio [(c, w)]) as Hg1.
  { apply (good_insert prio Hord (c, w) []); [done|apply good_nil]. }
  split; [done| | |].
  - intros k' s' Hks. apply Hin in Hks as [[_ Hks]|[-> [(s & Hks & ->)|[_ ->]]]]; [by eapply Hg| |done].
    split; [|apply pset_insert_ne]. apply good_insert; [done..|]. by eapply Hg.
  - intros k' s' x Hks Hx. apply Hin in Hks as [[_ Hks]|[-> [(s & Hks & ->)|[_ ->]]]].
    + destruct (He _ _ _ Hks Hx). auto.
    + apply pset_insert_fst in Hx as [->|Hx]; [by auto|]. destruct (He _ _ _ Hks Hx). auto.
    + apply elem_of_list_singleton in Hx as ->. auto.
  - intros x k' Hx Hxk. destruct (decide (k' = k)) as [->|Hne].
    + assert (x = c ∨ new x) as Hx' by tauto. clear Hx.
      destruct (decide (Exists (λ y : Z * list (nat * W), y.1 = k) m)) as [Hex|Hno].
      * apply Exists_exists in Hex as ([k' s] & Hks & Heq). simpl in Heq. subst k'.
        exists (pset_insert (c, w) s). split; [apply Hin; right; split; [done|]; left; by exists s|].
        apply pset_insert_fst. destruct Hx' as [->|Hx]; [by left|right].
        destruct (Ha _ _ Hx Hxk) as (s' & Hks' & Hx').
        assert (s = s') as ->; [|done]. clear -Hs Hks Hks'.
        induction Hs as [|y m Hs IH Hall]; [by apply elem_of_nil in Hks|].
        rewrite Forall_forall in Hall.
        apply elem_of_cons in Hks as [<-|Hks]; apply elem_of_cons in Hks' as [Heq|Hks'].
        -- by simplify_eq.
        -- apply Hall in Hks'. simpl in Hks'. lia.
        -- subst y. apply Hall in Hks. simpl in Hks. lia.
        -- auto.
      * assert (∀ s, (k, s) ∉ m) as Hno'.
        { intros s Hks. apply Hno, Exists_exists. by exists (k, s). }
        exists [(c, w)]. split; [apply Hin; right; auto|]. destruct Hx' as [->|Hx]; [left|].
        destruct (Ha _ _ Hx Hxk) as (s' & Hks' & _). by destruct (Hno' s').
    + destruct Hx as [Hx| ->]; [|congruence]. destruct (Ha _ _ Hx Hxk) as (s & Hks & Hx').
      exists s. split; [apply Hin; by left|done].
Qed.

Lemma by_bnd_ok (new : gset nat) :
  (∀ c, c ∈ new → c < n) → wp (by_bnd prio bnd new) (bymap_ok (λ c, c ∈ new)).
Proof.
  intros Hnew. unfold by_bnd. eapply wp_mono.
  { apply (wp_foldM _ (λ (pre : list nat) m, bymap_ok (λ c, c ∈ pre) m)).
    { split; [constructor|..].
      - intros k s Hin. by apply elem_of_nil in Hin.
      - intros k s c Hin. by apply elem_of_nil in Hin.
      - intros c k Hin. by apply elem_of_nil in Hin. }
    intros pre c post m Heq Hm.
    assert (c < n) as Hc. { apply Hnew, (elem_of_hset s_newseeds). rewrite Heq. set_solver. }
    wstep. apply wp_vget; [lia|]. intros k Hk. wstep. apply wp_vget; [lia|]. intros w Hw. simpl.
    destruct (bymap_insert_ok _ _ _ _ _ Hm Hk Hw) as [H1 H2 H3 H4]. split; [done..| |].
    - intros k' s' x Hin Hx. destruct (H3 _ _ _ Hin Hx) as [Hx' ?].
      rewrite elem_of_app, elem_of_list_singleton. auto.
    - intros x k' Hx. apply H4. by rewrite elem_of_app, elem_of_list_singleton in Hx. }
  intros m [H1 H2 H3 H4]. split; [done..| |].
  - intros k s c Hin Hx. destruct (H3 _ _ _ Hin Hx) as [Hx' ?]. by rewrite elem_of_hset in Hx'.
  - intros c k Hc. apply H4. by rewrite elem_of_hset.
Qed.

Lemma order_new_seeds_ok p (new : gset nat) :
  pool_wf p → (∀ c, c ∈ new → c < n) →
  wp (order_new_seeds_and_update prio bnd p new) (λ p',
    length (sp_q p') = 4 ∧ sp_bp p' = sp_bp p ∧ sp_one p' = sp_one p ∧
    pushed p p' (λ c, c ∈ new) ∧
    (∀ t, sp_top p' = Some t → (0 <= t <= 3)%Z) ∧
    (sp_bp p = false → sp_top p' = sp_top p) ∧
    (∀ t, sp_top p = Some t → ∃ t', sp_top p' = Some t' ∧ (t <= t')%Z)).
Proof.
  intros Hw Hnew. unfold order_new_seeds_and_update. wstep.
  eapply wp_mono; [by apply by_bnd_ok|]. intros m Hm. cbn zeta.
  set (p1 := if sp_bp p then
             match m with
             | [] => p
             | (mb, _) :: _ =>
                 match sp_top p with
                 | Some t => if bool_decide (t < mb)%Z then set_top p (Some mb) else p
                 | None => set_top p (Some mb)
                 end
             end
           else p).
  assert (∀ k s, (k, s) ∈ m → (0 <= k <= 3)%Z) as Hk3.
  { intros k s Hks. destruct (bm_good _ _ Hm _ _ Hks) as [_ Hne]. destruct s as [|[c w] s]; [done|].
    destruct (bm_elem _ _ Hm k _ c Hks) as [_ Hc]; [left|]. by eapply Hb3. }
  assert (sp_q p1 = sp_q p ∧ sp_bp p1 = sp_bp p ∧ sp_one p1 = sp_one p ∧
    (∀ t, sp_top p1 = Some t → (0 <= t <= 3)%Z) ∧
    (sp_bp p = false → sp_top p1 = sp_top p) ∧
    (∀ t, sp_top p = Some t → ∃ t', sp_top p1 = Some t' ∧ (t <= t')%Z)) as (Hq1 & Hb1 & Ho1 & Ht1 & Ht2 & Ht3).
  { unfold p1. destruct (sp_bp p) eqn:Hk.
    - destruct m as [|[mb s] m].
      { split_and!; try done; [apply Hw|]. intros t ->. exists t. split; [done|lia]. }
      assert (0 <= mb <= 3)%Z as Hmb by (eapply Hk3; left).
      destruct (sp_top p) as [t|] eqn:Ht; [case_bool_decide|]; simpl; split_and!; try done.
      + by intros ? [= <-].
      + intros ? [= <-]. exists mb. split; [done|lia].
      + intros t'. rewrite Ht. intros [= <-]. by apply (pw_top _ Hw).
      + intros ? [= <-]. exists t. split; [done|lia].
      + by intros ? [= <-].
    - split_and!; try done; [apply Hw|]. intros t ->. exists t. split; [done|lia]. }
  assert (∀ k, (if sp_bp p1 then k else match sp_top p1 with Some t => Z.min k t | None => k end)
    = ins_level p k) as Hlv.
  { intros k. unfold ins_level. rewrite Hb1. destruct (sp_bp p) eqn:Hk; [done|]. by rewrite Ht2. }
  wstep. eapply wp_mono.
  { apply (wp_foldM _ (λ (pre : list (Z * list (nat * W))) (q : list (list nat)),
      length q = 4 ∧ ∀ l c, (∃ r, q !! l = Some r ∧ c ∈ r) ↔
        inq p l c ∨ ∃ k s, (k, s) ∈ pre ∧ c ∈ map fst s ∧ l = Z.to_nat (ins_level p k))).
    { split; [rewrite Hq1; apply Hw|]. intros l c. rewrite Hq1. split; [by left|].
      intros [?|(k & s & Hin & _)]; [done|by apply elem_of_nil in Hin]. }
    intros pre [k s] post q Heq [Hl Hq].
    assert ((k, s) ∈ m) as Hin by (rewrite Heq; set_solver).
    rewrite Hlv. pose proof (ins_level_range p k Hw (Hk3 _ _ Hin)) as Hr.
    eapply wp_mono; [apply push_back_ok; [done|lia]|]. intros q' [Hl' Hq']. split; [done|].
    intros l c.
    assert ((∃ r, q' !! l = Some r ∧ c ∈ r) ↔ (∃ r, q !! l = Some r ∧ c ∈ r) ∨
      c ∈ map fst s ∧ l = Z.to_nat (ins_level p k)) as ->.
    { split.
      - intros (r & Hr' & Hc). apply Hq' in Hr'. case_decide as Hlk; [|by eauto].
        destruct Hr' as (old & Hold & ->). apply elem_of_app in Hc as [Hc|Hc]; [by eauto|]. auto.
      - intros Hc. destruct (decide (l = Z.to_nat (ins_level p k))) as [->|Hne].
        + destruct (lookup_lt_is_Some_2 q (Z.to_nat (ins_level p k))) as [old Hold]; [lia|].
          exists (old ++ map fst s). split.
          * apply Hq'. rewrite decide_True by done. eauto.
          * apply elem_of_app. destruct Hc as [(r & Hr' & Hc)|[Hc _]]; [|by right].
            rewrite Hold in Hr'. simplify_eq. by left.
        + destruct Hc as [(r & Hr' & Hc)|[_ ?]]; [|done]. exists r. split; [|done].
          apply Hq'. by rewrite decide_False. }
    rewrite Hq. split.
    - intros [[?|(k' & s' & ? & ? & ?)]|[? ?]].
      + by left.
      + right. exists k', s'. split; [set_solver|done].
      + right. exists k, s. split; [set_solver|done].
    - intros [?|(k' & s' & Hks & ? & ?)]; [by auto|].
      apply elem_of_app in Hks as [Hks|Hks].
      + left. right. eauto.
      + apply elem_of_list_singleton in Hks as [= -> ->]. by right. }
  intros q [Hl Hq]. simpl. split_and!; try done.
  intros l c. unfold inq at 1. simpl. rewrite Hq. apply or_iff_compat_l. split.
  - intros (k & s & Hks & Hc & ->). destruct (bm_elem _ _ Hm _ _ _ Hks Hc). eauto.
  - intros (Hc & b & Hcb & ->). destruct (bm_all _ _ Hm _ _ Hc Hcb) as (s & Hks & Hcs). eauto.
Qed.

(** In the state of the isotropic loop the update keeps the invariant. *)
Lemma order_new_seeds_inv aggl p (new : gset nat) :
  pool_inv aggl p → sp_top p ≠ None → (∀ c, c ∈ new → c < n) →
  wp (order_new_seeds_and_update prio bnd p new) (λ p',
    pool_inv aggl p' ∧ sp_top p' ≠ None ∧ sp_bp p' = sp_bp p ∧ sp_one p' = sp_one p ∧
    (∀ c, c ∈ new → ∃ l, inq p' l c) ∧ (∀ l c, inq p l c → inq p' l c)).
Proof.
  intros Hi Htop Hnew. eapply wp_mono; [by apply order_new_seeds_ok; [apply Hi|]|].
  intros p' (Hl & Hb & Ho & Hpush & Ht3 & Htn & Htm).
  destruct (pushed_pre aggl p p' _ (pool_inv_pre _ _ Hi) Hl Hb Hpush Ht3 Htn) as [Hw Hbp Hnp].
  destruct (sp_top p) as [t|] eqn:Ht; [|done]. destruct (Htm t eq_refl) as (t' & Ht' & Hle).
  split_and!; [|by rewrite Ht'|done..| |].
  - split; [done| |done]. intros Hk. split; [by apply Hbp|].
    intros t'' c b Ht'' Hfc Hc. rewrite Ht' in Ht''. simplify_eq.
    rewrite Hb in Hk. pose proof (bi_top _ _ (pi_bp _ _ Hi Hk) t c b Ht Hfc Hc). lia.
  - intros c Hc. destruct (bnd_some c (Hnew _ Hc)) as [b Hcb].
    eexists. apply Hpush. right. split; [done|]. eauto.
  - intros l c Hc. apply Hpush. by left.
Qed.

(** Preparing the pool after the anisotropic phase. *)
Lemma need_init_ok aggl p :
  pool_pre aggl p → length aggl = n → 0 < n →
  (sp_one p = true → ∀ w, w ∈ prio → wlt w wminv = false) →
  (sp_top p ≠ None → pool_is_empty p = false) →
  wp (r ← need_initialization bnd aggl p;
      if r.1 : bool then pool_initialize prio bnd r.2 else Ok r.2) (λ p',
    pool_inv aggl p' ∧ sp_top p' ≠ None ∧ sp_bp p' = sp_bp p ∧ sp_one p' = sp_one p).
Proof.
  intros [Hw Hbp Hnp] Hag Hn Hpos Hemp. unfold need_initialization.
  destruct (sp_top p) as [t|] eqn:Ht.
  - rewrite Hemp by done. rewrite (bool_decide_false (Some t = None)) by done. simpl.
    destruct (sp_bp p) eqn:Hk.
    + wstep. wstep. eapply wp_mono; [by apply get_highest_ok|]. intros [mb|] Hmb; simpl.
      * destruct Hmb as [(c & Hfc & Hc) Hmax].
        assert (∀ c b, freec aggl c → bnd !! c = Some b → (b <= mb)%Z) as Hmax'.
        { destruct Hmax as [Hmax|Hmax]; [|done]. intros c' b _ Hc'. apply Hb3 in Hc'.
          unfold CORNER in Hmax. lia. }
        case_bool_decide as Hlt; simpl.
        -- eapply wp_mono.
           { apply (pool_initialize_ok aggl); simpl.
             - split; simpl; [apply Hw|apply Hw|]. intros ? [= <-]. by eapply Hb3.
             - done.
             - done.
             - intros ? [= <-]. exists c, mb. split; [done|lia].
             - intros _. split; [by apply Hbp|]. simpl. intros ? c' b [= <-]. by apply Hmax'.
             - by rewrite Hk. }
           simpl. by rewrite Hk.
        -- split_and!; [|by rewrite Ht|done..]. split; [done| |by rewrite Hk].
           intros _. split; [by apply Hbp|]. intros t' c' b Ht' Hfc' Hc'.
           rewrite Ht in Ht'. simplify_eq. specialize (Hmax' _ _ Hfc' Hc'). lia.
      * split_and!; [|by rewrite Ht|done..]. split; [done| |by rewrite Hk].
        intros _. split; [by apply Hbp|]. intros t' c' b _ Hfc'. by destruct (Hmb c').
    + simpl. split_and!; [|by rewrite Ht|done..]. split; [done|by rewrite Hk|by intros _; apply Hnp].
  - rewrite bool_decide_true by done. rewrite orb_true_r. simpl.
    eapply wp_mono.
    { apply (pool_initialize_ok aggl); try done.
      - by rewrite Ht.
      - intros Hk. split; [by apply Hbp|]. by rewrite Ht. }
    done.
Qed.

End seeds.
