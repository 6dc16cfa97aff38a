(** * ContainerP: the container of coarse cells before the correction *)

From Verif Require Export GraphP.

(** ** Counting *)

Definition count_true (v : list bool) : nat := length (filter (λ b, b = true) v).

Lemma count_true_cons b v : count_true (b :: v) = (if b then 1 else 0) + count_true v.
Proof. unfold count_true. rewrite filter_cons. by destruct b. Qed.
Lemma count_true_insert v i : v !! i = Some false → count_true (<[i := true]> v) = S (count_true v).
Proof.
  revert i. induction v as [|b v IH]; intros [|i]; simpl; intros Hi; [done..| |].
  - simplify_eq. by rewrite !count_true_cons.
  - rewrite !count_true_cons, IH by done. lia.
Qed.
Lemma count_true_le v : count_true v ≤ length v.
Proof. apply filter_length. Qed.
Lemma count_true_lt v : count_true v < length v → ∃ i, v !! i = Some false.
Proof.
  induction v as [|[] v IH]; rewrite ?count_true_cons; simpl; [lia| |].
  - intros Hl. destruct IH as [i Hi]; [lia|]. by exists (S i).
  - intros _. by exists 0.
Qed.
Lemma count_true_all v : count_true v = length v → ∀ i b, v !! i = Some b → b = true.
Proof.
  induction v as [|b v IH]; rewrite ?count_true_cons; simpl; intros Hl i b'; [done|].
  pose proof (count_true_le v). destruct b; [|lia].
  destruct i as [|i]; simpl; [naive_solver|]. apply IH. lia.
Qed.
Lemma count_true_free v i : v !! i = Some false → count_true v < length v.
Proof.
  intros Hi. pose proof (count_true_le v).
  destruct (decide (count_true v = length v)) as [He|]; [|lia].
  by apply (count_true_all _ He) in Hi.
Qed.
Lemma count_true_replicate n : count_true (replicate n false) = 0.
Proof. induction n; [done|]. simpl. by rewrite count_true_cons. Qed.

Section container.
Context {A : Arith} {H : HashOrder}.
Implicit Types ct : container.

(** What the container of [n] cells satisfies until the correction. *)
Record cont_inv (n : nat) ct : Prop := {
  ci_flen : length (ct_fc2cc ct) = n;
  ci_alen : length (ct_aggl ct) = n;
  ci_dom : ∀ k, is_Some (ct_ccs ct !! k) ↔ k < ct_n ct;
  ci_cell : ∀ x k, ct_fc2cc ct !! x = Some (Some k) ↔
    ∃ cc, ct_ccs ct !! k = Some cc ∧ x ∈ cc_fcs cc;
  ci_aggl : ∀ x, ct_aggl ct !! x = Some true ↔ ∃ k, ct_fc2cc ct !! x = Some (Some k);
  ci_nagg : ct_nagg ct = count_true (ct_aggl ct);
  ci_nle : ct_n ct ≤ ct_nagg ct;
  ci_delayed : ct_delayed ct = [];
  ci_card : ∀ k cc, ct_ccs ct !! k = Some cc →
    cc_card cc = Z.of_nat (size (cc_fcs cc)) ∧ cc_fcs cc ≠ ∅;
  ci_sing : ∀ k, k ∈ ct_sing ct ↔ ∃ cc, ct_ccs ct !! k = Some cc ∧
    cc_iso cc = true ∧ (cc_card cc <= ct_thresh ct)%Z;
  ci_sing_nd : StronglySorted (<) (ct_sing ct);
}.

Lemma cont_new_inv n th : cont_inv n (cont_new n th).
Proof.
  split; simpl; rewrite ?replicate_length; try done.
  - intros k. rewrite lookup_empty. split; [intros [? ?]; done|lia].
  - intros x k. rewrite lookup_replicate. setoid_rewrite lookup_empty. naive_solver.
  - intros x. setoid_rewrite lookup_replicate. naive_solver.
  - by rewrite count_true_replicate.
  - intros k. setoid_rewrite lookup_empty. rewrite elem_of_nil. naive_solver.
  - constructor.
Qed.

(** The effect of creating a coarse cell. *)
Record created ct (s : gset nat) (cpt : Z) (aniso : bool) ct' : Prop := {
  cr_ccs : ct_ccs ct' = <[ct_n ct := CCell s (Z.of_nat (size s)) cpt (negb aniso)]> (ct_ccs ct);
  cr_n : ct_n ct' = S (ct_n ct);
  cr_fc : ∀ x, ct_fc2cc ct' !! x = if decide (x ∈ s) then Some (Some (ct_n ct)) else ct_fc2cc ct !! x;
  cr_ag : ∀ x, ct_aggl ct' !! x = if decide (x ∈ s) then Some true else ct_aggl ct !! x;
  cr_th : ct_thresh ct' = ct_thresh ct;
  cr_nagg : ct_nagg ct' = ct_nagg ct + size s;
  cr_del : ct_delayed ct' = ct_delayed ct;
  cr_sing : ct_sing ct' = if negb aniso && bool_decide (Z.of_nat (size s) <= ct_thresh ct)%Z
     then ct_sing ct ++ [ct_n ct] else ct_sing ct;
}.

Lemma created_unique ct s cpt an c1 c2 : created ct s cpt an c1 → created ct s cpt an c2 → c1 = c2.
Proof.
  intros [] []. destruct c1, c2; simpl in *. f_equal; try congruence.
  - apply list_eq. intros x. etransitivity; [eauto|]. symmetry. eauto.
  - apply list_eq. intros x. etransitivity; [eauto|]. symmetry. eauto.
Qed.

Lemma mark_cells_ok n ct l :
  cont_inv n ct → NoDup l → (∀ x, x ∈ l → ct_aggl ct !! x = Some false) →
  wp (mark_cells ct l) (λ r,
    (∀ x, r.1 !! x = if decide (x ∈ l) then Some true else ct_aggl ct !! x) ∧
    count_true r.1 = ct_nagg ct + length l ∧ r.2 = ct_nagg ct + length l).
Proof.
  intros HI Hnd Hl. unfold mark_cells.
  set (I := λ (pre : list nat) (r : list bool * nat),
    (∀ x, r.1 !! x = if decide (x ∈ pre) then Some true else ct_aggl ct !! x) ∧
    count_true r.1 = ct_nagg ct + length pre ∧ r.2 = ct_nagg ct + length pre).
  apply (wp_foldM _ I); unfold I; clear I.
  { rewrite (ci_nagg _ _ HI). split_and!; [|simpl; lia..]. intros x.
    rewrite decide_False by apply not_elem_of_nil. done. }
  intros pre i post [ag k] Heq (H1 & H2 & H3). simpl in *.
  assert (ct_aggl ct !! i = Some false) as Hi by (apply Hl; rewrite Heq; set_solver).
  assert (i ∉ pre) as Hpre.
  { rewrite Heq in Hnd. apply NoDup_app in Hnd as (_ & Hnd & _). intros Hp. apply (Hnd i Hp). by left. }
  assert (i < n) as Hin. { apply lookup_lt_Some in Hi. by rewrite (ci_alen _ _ HI) in Hi. }
  wstep. apply wp_vget; [by rewrite (ci_flen _ _ HI)|]. intros o Ho.
  wstep. apply wp_massert.
  { apply bool_decide_eq_true. destruct o as [k'|]; [|done]. exfalso.
    assert (ct_aggl ct !! i = Some true) by (apply (ci_aggl _ _ HI); eauto). congruence. }
  pose proof (H1 i) as Hag. rewrite decide_False in Hag by done.
  wstep. rewrite (vget_ok _ _ _ (eq_trans Hag Hi)). simpl. wstep.
  rewrite vset_ok by (apply lookup_lt_Some in Hag || rewrite Hi in Hag; by eapply lookup_lt_Some).
  simpl. split_and!.
  - intros x. destruct (decide (x = i)) as [->|Hne].
    + rewrite list_lookup_insert by (rewrite Hi in Hag; by eapply lookup_lt_Some).
      rewrite decide_True; [done|set_solver].
    + rewrite list_lookup_insert_ne by done. rewrite H1.
      assert (x ∈ pre ↔ x ∈ pre ++ [i]) as Hiff by set_solver.
      by destruct (decide (x ∈ pre)), (decide (x ∈ pre ++ [i])); tauto || done.
  - rewrite count_true_insert by (by rewrite Hag). rewrite app_length, H2. simpl. lia.
  - rewrite app_length, H3. simpl. lia.
Qed.

Lemma assign_cells_ok n ct l id :
  cont_inv n ct → NoDup l → (∀ x, x ∈ l → ct_aggl ct !! x = Some false) →
  wp (assign_cells (ct_fc2cc ct) id l) (λ f, length f = n ∧
    ∀ x, f !! x = if decide (x ∈ l) then Some (Some id) else ct_fc2cc ct !! x).
Proof.
  intros HI Hnd Hl. unfold assign_cells.
  set (I := λ (pre : list nat) (f : list (option nat)), length f = n ∧
    ∀ x, f !! x = if decide (x ∈ pre) then Some (Some id) else ct_fc2cc ct !! x).
  apply (wp_foldM _ I); unfold I; clear I.
  { split; [apply HI|]. intros x. rewrite decide_False by apply not_elem_of_nil. done. }
  intros pre i post f Heq (H1 & H2).
  assert (ct_aggl ct !! i = Some false) as Hi by (apply Hl; rewrite Heq; set_solver).
  assert (i ∉ pre) as Hpre.
  { rewrite Heq in Hnd. apply NoDup_app in Hnd as (_ & Hnd & _). intros Hp. apply (Hnd i Hp). by left. }
  assert (i < n) as Hin. { apply lookup_lt_Some in Hi. by rewrite (ci_alen _ _ HI) in Hi. }
  wstep. apply wp_vget; [by rewrite H1|]. intros o Ho. rewrite H2, decide_False in Ho by done.
  wstep. apply wp_massert.
  { apply bool_decide_eq_true. destruct o as [k'|]; [|done]. exfalso.
    assert (ct_aggl ct !! i = Some true) by (apply (ci_aggl _ _ HI); eauto). congruence. }
  apply wp_vset; [lia|]. rewrite insert_length. split; [done|].
  intros x. destruct (decide (x = i)) as [->|Hne].
  - rewrite list_lookup_insert by lia. rewrite decide_True; [done|set_solver].
  - rewrite list_lookup_insert_ne by done. rewrite H2.
    assert (x ∈ pre ↔ x ∈ pre ++ [i]) as Hiff by set_solver.
    by destruct (decide (x ∈ pre)), (decide (x ∈ pre ++ [i])); tauto || done.
Qed.

Lemma create_cc_ok n ct s cpt aniso :
  cont_inv n ct → s ≠ ∅ → (∀ x, x ∈ s → ct_aggl ct !! x = Some false) →
  wp (create_cc ct s cpt aniso false) (λ ct', cont_inv n ct' ∧ created ct s cpt aniso ct').
Proof.
  intros HI Hne Hs. unfold create_cc. wstep. apply wp_massert; [by destruct aniso|].
  assert (∀ x, x ∈ hset s_create s → ct_aggl ct !! x = Some false) as Hs'.
  { intros x Hx. apply elem_of_hset in Hx. auto. }
  pose proof (NoDup_hset s_create s) as Hnd.
  wstep. eapply wp_mono; [by apply (mark_cells_ok n)|]. intros [ag k] (Hag & Hct & Hk). simpl in *.
  wstep. eapply wp_mono; [by apply (assign_cells_ok n)|]. intros f (Hfl & Hf).
  rewrite hset_length in *.
  assert (∀ x, ag !! x = if decide (x ∈ s) then Some true else ct_aggl ct !! x) as Hag'.
  { intros x. rewrite Hag. pose proof (elem_of_hset s_create s x).
    by destruct (decide (x ∈ s)), (decide (x ∈ hset s_create s)); tauto || done. }
  assert (∀ x, f !! x = if decide (x ∈ s) then Some (Some (ct_n ct)) else ct_fc2cc ct !! x) as Hf'.
  { intros x. rewrite Hf. pose proof (elem_of_hset s_create s x).
    by destruct (decide (x ∈ s)), (decide (x ∈ hset s_create s)); tauto || done. }
  clear Hag Hf. rewrite orb_true_r.
  assert (created ct s cpt aniso (Cont (<[ct_n ct:=CCell s (Z.of_nat (size s)) cpt (negb aniso)]> (ct_ccs ct))
    (S (ct_n ct)) f ag (ct_thresh ct) k (ct_delayed ct)
    (if negb aniso && bool_decide (Z.of_nat (size s) <= ct_thresh ct)%Z
     then ct_sing ct ++ [ct_n ct] else ct_sing ct))) as Hcr by by split.
  split; [|done].
  assert (ct_ccs ct !! ct_n ct = None) as Hfresh.
  { apply eq_None_not_Some. rewrite (ci_dom _ _ HI). lia. }
  assert (∀ x k', ct_fc2cc ct !! x = Some (Some k') → k' < ct_n ct ∧ x ∉ s) as Hold.
  { intros x k' Hx. split.
    - apply (ci_cell _ _ HI) in Hx as (cc & Hc & _). apply (ci_dom _ _ HI). eauto.
    - intros Hin. apply Hs in Hin. assert (ct_aggl ct !! x = Some true); [|congruence].
      apply (ci_aggl _ _ HI). eauto. }
  assert (∀ x k', k' ≠ ct_n ct → <[ct_n ct:=CCell s (Z.of_nat (size s)) cpt (negb aniso)]> (ct_ccs ct) !! k' = x →
     ct_ccs ct !! k' = x) as Hins.
  { intros x k' Hk'. by rewrite lookup_insert_ne. }
  split; simpl; try done.
  - rewrite <- (ci_alen _ _ HI). apply Nat.le_antisymm; apply Nat.nlt_ge; intros Hlt.
    + apply lookup_lt_is_Some in Hlt as [b Hb]. rewrite Hag' in Hb. case_decide as Hx.
      * apply Hs in Hx. apply lookup_lt_Some in Hx. lia.
      * apply lookup_lt_Some in Hb. lia.
    + apply lookup_lt_is_Some in Hlt as [b Hb].
      assert (ag !! length ag = None) as Hn by by apply lookup_ge_None_2.
      rewrite Hag' in Hn. case_decide; congruence.
  - intros k'. rewrite lookup_insert_is_Some', (ci_dom _ _ HI). lia.
  - intros x k'. rewrite Hf'. destruct (decide (k' = ct_n ct)) as [->|Hk'].
    + rewrite lookup_insert. destruct (decide (x ∈ s)) as [Hx|Hx].
      * split; [intros _; eexists; split; [reflexivity|exact Hx]|intros _; reflexivity].
      * split; [|intros (cc & [= <-] & ?); done]. intros Hx'. apply Hold in Hx' as [? _]. lia.
    + rewrite lookup_insert_ne by done. destruct (decide (x ∈ s)) as [Hx|Hx].
      * split; [naive_solver|]. intros Hc. apply (ci_cell _ _ HI) in Hc.
        by apply Hold in Hc as [_ ?].
      * apply (ci_cell _ _ HI).
  - intros x. rewrite Hag', Hf'. destruct (decide (x ∈ s)); [naive_solver|]. apply (ci_aggl _ _ HI).
  - lia.
  - pose proof (ci_nle _ _ HI). assert (size s ≠ 0); [|lia].
    intros He. by apply size_empty_inv, leibniz_equiv in He.
  - apply HI.
  - intros k' cc. destruct (decide (k' = ct_n ct)) as [->|Hk'].
    + rewrite lookup_insert. intros [= <-]. done.
    + rewrite lookup_insert_ne by done. apply (ci_card _ _ HI).
  - intros k'. set (b := negb aniso && bool_decide (Z.of_nat (size s) <= ct_thresh ct)%Z).
    destruct (decide (k' = ct_n ct)) as [->|Hk'].
    + rewrite lookup_insert. assert (ct_n ct ∉ ct_sing ct) as Hns.
      { rewrite (ci_sing _ _ HI). intros (cc & Hc & _). congruence. }
      split.
      * intros Hin. eexists. split; [done|]. simpl.
        destruct b eqn:Hb; [|done]. unfold b in Hb. apply andb_true_iff in Hb as [Hb1 Hb2].
        apply bool_decide_eq_true in Hb2. done.
      * intros (cc & [= <-] & Hi & Hc). simpl in *. unfold b. rewrite Hi.
        rewrite bool_decide_true by done. simpl. set_solver.
    + rewrite lookup_insert_ne by done. rewrite <- (ci_sing _ _ HI).
      destruct b; [|done]. rewrite elem_of_app, elem_of_list_singleton. tauto.
  - destruct (_ && _); [|apply HI].
    assert (∀ k', k' ∈ ct_sing ct → k' < ct_n ct) as Hlt.
    { intros k' Hk'. apply (ci_sing _ _ HI) in Hk' as (cc & Hc & _). apply (ci_dom _ _ HI). eauto. }
    pose proof (ci_sing_nd _ _ HI) as Hso. clear -Hso Hlt.
    induction Hso as [|y l Hso IH Hall]; simpl; [repeat constructor|].
    constructor; [apply IH; set_solver|].
    apply Forall_app. split; [done|]. constructor; [|done]. apply Hlt. by left.
Qed.

(** The cells which are not agglomerated are those without a coarse cell. *)
Lemma free_none n ct x : cont_inv n ct →
  ct_aggl ct !! x = Some false ↔ ct_fc2cc ct !! x = Some None.
Proof.
  intros HI. pose proof (ci_aggl _ _ HI x) as Ha. split; intros Hx.
  - apply lookup_lt_Some in Hx as Hlt. rewrite (ci_alen _ _ HI), <- (ci_flen _ _ HI) in Hlt.
    apply lookup_lt_is_Some in Hlt as [[k|] Hk]; [|done].
    exfalso. assert (ct_aggl ct !! x = Some true); [apply Ha; eauto|congruence].
  - apply lookup_lt_Some in Hx as Hlt. rewrite (ci_flen _ _ HI), <- (ci_alen _ _ HI) in Hlt.
    apply lookup_lt_is_Some in Hlt as [[] Hk]; [|done].
    apply Ha in Hk as [k Hk]. congruence.
Qed.

Lemma create_all_delayed_ok n ct : cont_inv n ct → create_all_delayed ct = Ok ct.
Proof.
  intros HI. unfold create_all_delayed. rewrite (ci_delayed _ _ HI). simpl.
  destruct ct; simpl. f_equal. f_equal. symmetry. apply HI.
Qed.

(** Everything is agglomerated. *)
Lemma cont_full n ct : cont_inv n ct → ¬ ct_nagg ct < n →
  ∀ x, x < n → ∃ k, k < ct_n ct ∧ ct_fc2cc ct !! x = Some (Some k).
Proof.
  intros HI Hn x Hx. rewrite (ci_nagg _ _ HI) in Hn.
  pose proof (count_true_le (ct_aggl ct)). rewrite (ci_alen _ _ HI) in *.
  destruct (lookup_lt_is_Some_2 (ct_aggl ct) x) as [b Hb]; [by rewrite (ci_alen _ _ HI)|].
  assert (b = true) as ->.
  { eapply count_true_all; [|done]. rewrite (ci_alen _ _ HI). lia. }
  apply (ci_aggl _ _ HI) in Hb as [k Hk]. exists k. split; [|done].
  apply (ci_cell _ _ HI) in Hk as (cc & Hc & _). apply (ci_dom _ _ HI). eauto.
Qed.

End container.
