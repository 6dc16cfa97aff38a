(** * ConnT: [check_connectivity] (C30) *)

From Verif Require Import Lib Spec GraphP.

Section dfs.
Context {A : Arith} (g : graph) (WF : wfg g).
Notation E := (edge (g_row g) (g_col g)).
Notation n := (g_n g).

Definition marked (vis : list bool) (x : nat) : Prop := vis !! x = Some true.
Definition n_free (vis : list bool) : nat := length (filter (λ b, b = false) vis).
Definition reach (i x : nat) : Prop := ∃ k, walk E (λ y, y < n) (λ y, y = i) k x.

Lemma reach_refl i : reach i i.
Proof. exists 0. by constructor. Qed.
Lemma reach_step i x y : reach i x → E x y → y < n → reach i y.
Proof. intros [k Hk] He Hy. exists (S k). by eapply walk_S. Qed.
Lemma reach_trans i j x : reach i j → reach j x → reach i x.
Proof.
  intros Hij [k Hk]. revert x Hk. induction k as [|k IH]; intros x Hk; inversion Hk as [? Hx|? y ? Hy He Hn]; subst; [done|].
  by eapply reach_step; [apply IH| |].
Qed.
Lemma adj_lt x y : E x y → y < n.
Proof. intros (a & b & k & _ & _ & _ & Hk). by eapply (csr_col _ _ _ (wg_csr _ WF)). Qed.
Lemma reach_sym i x : i < n → reach i x → reach x i.
Proof using WF.
  intros Hi [k Hk]. revert x Hk. induction k as [|k IH]; intros x Hk; inversion Hk as [? Hx|? y ? Hy He Hn]; subst.
  - apply reach_refl.
  - eapply reach_trans; [|by apply IH]. eapply reach_step; [apply reach_refl|by apply (wg_sym _ WF)|].
    inversion Hy; subst; done.
Qed.

Lemma n_free_mark vis i : vis !! i = Some false → n_free vis = S (n_free (<[i := true]> vis)).
Proof.
  unfold n_free. revert i. induction vis as [|b vis IH]; intros [|i] Hi; simpl in *; [done..| |].
  - by simplify_eq.
  - rewrite !filter_cons. destruct (decide _); simpl; by rewrite (IH i Hi).
Qed.
Lemma n_free_mono vis vis' : length vis' = length vis → (∀ x, marked vis x → marked vis' x) → n_free vis' ≤ n_free vis.
Proof.
  unfold n_free, marked. revert vis'. induction vis as [|b vis IH]; intros [|b' vis'] Hl Hm; simpl in *; try done.
  rewrite !filter_cons. specialize (IH vis' ltac:(lia)).
  assert (length (filter (λ b, b = false) vis') ≤ length (filter (λ b, b = false) vis)) as Hle.
  { apply IH. intros x Hx. apply (Hm (S x) Hx). }
  destruct b'; [rewrite decide_False by done|].
  - destruct (decide (b = false)); simpl; lia.
  - destruct b; [specialize (Hm 0); simpl in Hm; naive_solver|]. rewrite !decide_True by done. simpl. lia.
Qed.

(** [vis'] marks more than [vis]: cells reached from [i] whose neighbours are
    marked. *)
Record more (i : nat) (vis vis' : list bool) : Prop := {
  mo_len : length vis' = length vis;
  mo_mono : ∀ x, marked vis x → marked vis' x;
  mo_new : ∀ x, marked vis' x → marked vis x ∨
    reach i x ∧ ∀ y, E x y → marked vis' y;
}.

Lemma more_refl i vis : more i vis vis.
Proof. split; [done..|]. by left. Qed.
Lemma more_trans i vis vis' vis'' : more i vis vis' → more i vis' vis'' → more i vis vis''.
Proof.
  intros [H1 H2 H3] [K1 K2 K3]. split; [congruence|auto|].
  intros x Hx. destruct (K3 x Hx) as [Hx'|?]; [|by right].
  destruct (H3 x Hx') as [?|[? Hc]]; [by left|right]. split; [done|]. auto.
Qed.
Lemma more_from i j vis vis' : reach i j → more j vis vis' → more i vis vis'.
Proof.
  intros Hij [H1 H2 H3]. split; [done..|]. intros x Hx. destruct (H3 x Hx) as [?|[? ?]]; [by left|right].
  split; [by eapply reach_trans|done].
Qed.

Lemma dfs_ok fuel i vis : n ≤ length vis → i < n → vis !! i = Some false → n_free vis ≤ fuel →
  wp (dfs fuel g i vis) (λ vis', more i vis vis' ∧ marked vis' i).
Proof using WF.
  revert i vis. induction fuel as [|fuel IH]; intros i vis Hlen Hi Hv Hf.
  { rewrite (n_free_mark _ _ Hv) in Hf. lia. }
  rewrite (n_free_mark _ _ Hv) in Hf. simpl.
  wstep. apply wp_vset; [lia|]. wstep. rewrite (nbrs_ok g WF i Hi). simpl.
  set (v0 := <[i := true]> vis) in *.
  assert (length v0 = length vis) as Hl0 by apply insert_length.
  assert (marked v0 i) as Hi0 by (apply list_lookup_insert; lia).
  assert (∀ x, marked vis x → marked v0 x) as Hm0.
  { intros x Hx. unfold marked, v0. destruct (decide (x = i)) as [->|]; [done|]. by rewrite list_lookup_insert_ne. }
  eapply wp_mono; [apply (wp_foldM _ (λ pre v, length v = length vis ∧ (∀ x, marked v0 x → marked v x) ∧
    (∀ x, marked v x → marked v0 x ∨ reach i x ∧ ∀ y, E x y → marked v y) ∧ ∀ y, y ∈ pre → marked v y))|].
  - split_and!; [done..| |].
    + by left.
    + intros y Hy. by apply elem_of_nil in Hy.
  - intros pre j post v Heq (Hl & Hm & Hn & Hp).
    assert (E i j) as He. { apply elem_of_adj. rewrite Heq. set_solver. }
    pose proof (adj_lt _ _ He) as Hj.
    wstep. apply wp_vget; [lia|]. intros [|] Hvj.
    + apply wp_ok. split_and!; [done..|]. intros y Hy.
      apply elem_of_app in Hy as [Hy|Hy%elem_of_list_singleton]; [auto|]. by subst.
    + eapply wp_mono; [apply IH; [lia|done|done|]|].
      { transitivity (n_free v0); [|lia]. apply n_free_mono; [congruence|done]. }
      intros v' [Hmo Hmj]. apply (more_from i) in Hmo; [|eapply reach_step; [apply reach_refl|done..]].
      destruct Hmo as [K1 K2 K3]. split_and!; [congruence|auto| |].
      * intros x Hx. destruct (K3 x Hx) as [Hx'|?]; [|by right].
        destruct (Hn x Hx') as [?|[? ?]]; [by left|right; auto].
      * intros y Hy. apply elem_of_app in Hy as [Hy|Hy%elem_of_list_singleton]; [auto|]. by subst.
  - intros v (Hl & Hm & Hn & Hp). split; [|auto]. split; [done|auto|].
    intros x Hx. destruct (decide (x = i)) as [->|Hne].
    + right. split; [apply reach_refl|]. intros y Hy. by apply Hp, elem_of_adj.
    + destruct (Hn x Hx) as [Hx0|?]; [|by right]. left. unfold marked, v0 in Hx0.
      by rewrite list_lookup_insert_ne in Hx0.
Qed.

Lemma all_visited_ok m vis i : i + m ≤ length vis →
  wp (all_visited m vis i) (λ r, r = true ↔ ∀ x, i ≤ x < i + m → marked vis x).
Proof.
  revert i. induction m as [|m IH]; intros i Hl; simpl; [split; [lia|done]|].
  wstep. apply wp_vget; [lia|]. intros [|] Hb.
  - eapply wp_mono; [apply IH; lia|]. intros r ->. split.
    + intros Hx x Hix. destruct (decide (x = i)) as [->|]; [done|]. apply Hx. lia.
    + intros Hx x Hix. apply Hx. lia.
  - apply wp_ok. split; [done|]. intros Hx. specialize (Hx i ltac:(lia)). unfold marked in Hx. congruence.
Qed.

(** What [_visited] holds: nothing before the first call, otherwise at least
    one entry per cell, those marked being closed under neighbours. *)
Definition vis_ok (vis : list bool) : Prop :=
  vis = [] ∨ n = 1 ∨ n ≤ length vis ∧ ∃ c, g_col g !! 0 = Some c ∧ marked vis c ∧
    ∀ x, x < n → marked vis x ↔ reach c x.

Lemma check_connectivity_ok vis : 0 < n → n = 1 ∨ g_col g ≠ [] → vis_ok vis →
  wp (check_connectivity g vis) (λ r, vis_ok r.2 ∧
    (r.1 = true ↔ connected E (λ x, x < n))).
Proof using WF.
  intros Hn Hcol Hvis. unfold check_connectivity. case_bool_decide as H1.
  { apply wp_ok. split; [by right; left|]. split; [|done]. intros _ x y Hx Hy.
    assert (x = y) as -> by lia. exists 0. by constructor. }
  destruct Hcol as [?|Hcol]; [done|].
  assert (∃ c, g_col g !! 0 = Some c) as [c Hc] by (destruct (g_col g) as [|c l]; [done|by exists c]).
  wstep. unfold vget at 1. rewrite Hc. simpl.
  assert (c < n) as Hcn by by eapply (csr_col _ _ _ (wg_csr _ WF)).
  assert ((∀ x, x < n → reach c x) ↔ connected E (λ x, x < n)) as Hconn.
  { split.
    - intros Hall x y Hx Hy. eapply reach_trans; [|by apply Hall]. by apply reach_sym, Hall.
    - intros Hco x Hx. destruct (Hco c x Hcn Hx) as [k Hk]. by exists k. }
  wstep. eapply (wp_mono _ (λ v, n ≤ length v ∧ marked v c ∧ ∀ x, x < n → marked v x ↔ reach c x)).
  - destruct Hvis as [->|[?|(Hl & c' & Hc' & Hm & Hr)]]; [|done|].
    + simpl. rewrite replicate_length.
      eapply wp_mono; [apply (dfs_ok (S n) c (replicate n false)); rewrite ?replicate_length; [done|done|by apply lookup_replicate_2|]|].
      { unfold n_free. transitivity (length (replicate n false)); [apply filter_length|rewrite replicate_length; lia]. }
      intros v [[K1 K2 K3] Km]. rewrite replicate_length in K1. split_and!; [lia|done|]. intros x Hx.
      assert (∀ x, ¬ marked (replicate n false) x) as Hno.
      { intros y Hy. apply elem_of_list_lookup_2, elem_of_replicate in Hy as [? _]. done. }
      split.
      * intros Hxm. destruct (K3 x Hxm) as [?|[? _]]; [by exfalso; eapply Hno|done].
      * intros [k Hk]. clear Hx. revert x Hk. induction k as [|k IH]; intros x Hk; inversion Hk as [? Hx|? y ? Hy He Hy']; subst; [done|].
        destruct (K3 y (IH y Hy)) as [?|[_ Hcl]]; [by exfalso; eapply Hno|auto].
    + rewrite Hc in Hc'. injection Hc' as <-.
      set (w := vis ++ replicate n false).
      assert (∀ x, x < n → marked w x ↔ reach c x) as Hw.
      { intros x Hx. rewrite <- Hr by done. unfold marked, w. by rewrite lookup_app_l by lia. }
      change (wp (dfs (S (length w)) g c w) (λ v, n ≤ length v ∧ marked v c ∧ ∀ x, x < n → marked v x ↔ reach c x)).
      generalize (length w) as fl. intros fl. cbn [dfs].
      assert (n ≤ length w) as Hwl by (unfold w; rewrite app_length; lia).
      assert (marked w c) as Hwc by (apply Hw; [done|apply reach_refl]).
      wstep. apply wp_vset; [lia|]. wstep. rewrite (nbrs_ok g WF c Hcn). simpl.
      rewrite (list_insert_id w c true Hwc).
      eapply wp_mono; [apply (wp_foldM _ (λ _ v, v = w)); [done|]|].
      * intros pre j post v Heq ->.
        assert (E c j) as He. { apply elem_of_adj. rewrite Heq. set_solver. }
        pose proof (adj_lt _ _ He) as Hj.
        wstep. apply wp_vget; [lia|]. intros b Hb.
        assert (marked w j) as Hwj. { apply Hw; [done|]. eapply reach_step; [apply reach_refl|done..]. }
        unfold marked in Hwj. rewrite Hwj in Hb. injection Hb as <-. by apply wp_ok.
      * intros v ->. done.
  - intros v (Hl & Hm & Hr). wstep. eapply wp_mono; [apply all_visited_ok; simpl; lia|].
    intros r Hr'. apply wp_ok. simpl. split.
    + right; right. split; [done|]. exists c. split_and!; done.
    + rewrite Hr', <- Hconn. split; intros Hx x Hxn; [apply Hr; [done|]; apply Hx; lia|apply Hr; [lia|]; apply Hx; lia].
Qed.
End dfs.

(** The answers of [k] successive calls on one object, [_visited] being kept
    from call to call. *)
Fixpoint conn_calls {A : Arith} (k : nat) (g : graph) (vis : list bool) : res (list bool) :=
  match k with
  | O => Ok []
  | S k => r ← check_connectivity g vis; l ← conn_calls k g r.2; Ok (r.1 :: l)
  end.

Lemma C30_pos {A : Arith} (g : graph) k :
  csr (g_n g) (g_row g) (g_col g) → csr_sym (g_row g) (g_col g) → length (g_val g) = length (g_col g) →
  0 < g_n g → g_n g = 1 ∨ g_col g ≠ [] →
  ∃ l, conn_calls k g [] = Ok l ∧ length l = k ∧
    ∀ b, b ∈ l → b = true ↔ connected (edge (g_row g) (g_col g)) (λ x, x < g_n g).
Proof.
  intros Hc Hs Hv Hn Hcol. assert (wfg g) as WF by done.
  assert (∀ vis, vis_ok g vis → wp (conn_calls k g vis) (λ l, length l = k ∧
    ∀ b, b ∈ l → b = true ↔ connected (edge (g_row g) (g_col g)) (λ x, x < g_n g))) as Hg.
  { induction k as [|k IH]; intros vis Hvis; simpl; [split; [done|]; intros b Hb; by apply elem_of_nil in Hb|].
    wstep. eapply wp_mono; [by apply check_connectivity_ok|]. intros [b vis'] [Hv' Hb]. simpl in *.
    wstep. eapply wp_mono; [by apply IH|]. intros l [Hl Hl']. apply wp_ok. split; [simpl; by rewrite Hl|].
    intros b' [-> | Hb']%elem_of_cons; auto. }
  specialize (Hg [] (or_introl eq_refl)). apply wp_eq in Hg as (l & ? & ? & ?). by exists l.
Qed.
(** The undefined behaviour: several cells, no face. *)
Lemma C30_neg {A : Arith} (g : graph) vis : 1 < g_n g → g_col g = [] → check_connectivity g vis = Err EUB.
Proof. intros Hn Hc. unfold check_connectivity. rewrite bool_decide_false by lia. by rewrite Hc. Qed.
