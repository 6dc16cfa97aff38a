(** * GraphP: facts about the dual graph *)

From Verif Require Export Lib Main Spec.

Section graph.
Context {A : Arith}.
Implicit Types g : graph.

Record wfg g : Prop := {
  wg_csr : csr (g_n g) (g_row g) (g_col g);
  wg_sym : csr_sym (g_row g) (g_col g);
  wg_val : length (g_val g) = length (g_col g);
}.

(** The rest of the data attached to the cells. *)
Record wfd g (prio : list W) : Prop := {
  wd_vol : length (g_vol g) = g_n g;
  wd_cen : length (g_cen g) = g_n g;
  wd_dim : ∃ d, ∀ k c, g_cen g !! k = Some c → length c = d;
  wd_bnd : length (g_bnd g) = g_n g;
  wd_bnd_pos : ∀ k b, g_bnd g !! k = Some b → (0 <= b <= 3)%Z;
  wd_prio : length prio = g_n g;
  wd_ord : weak_order wlt (λ w, w ∈ prio);
}.

Definition adj g (i : nat) : list nat :=
  match g_row g !! i, g_row g !! S i with
  | Some a, Some b => slice (g_col g) a b
  | _, _ => []
  end.
Definition adjw g (i : nat) : list W :=
  match g_row g !! i, g_row g !! S i with
  | Some a, Some b => slice (g_val g) a b
  | _, _ => []
  end.

Notation gedge g := (edge (g_row g) (g_col g)).

Lemma elem_of_adj g i j : j ∈ adj g i ↔ gedge g i j.
Proof.
  unfold adj, edge. split.
  - destruct (g_row g !! i) as [a|] eqn:Ha; [|set_solver].
    destruct (g_row g !! S i) as [b|] eqn:Hb; [|set_solver].
    rewrite elem_of_slice. naive_solver.
  - intros (a & b & k & -> & -> & Hk & Hj). apply elem_of_slice. eauto.
Qed.

Section wf.
Context g (WF : wfg g).

Lemma row_some i : i ≤ g_n g → ∃ a, g_row g !! i = Some a.
Proof.
  intros Hi. apply lookup_lt_is_Some_2. rewrite (csr_len _ _ _ (wg_csr _ WF)). lia.
Qed.
Lemma row_mono_le i j a b :
  i ≤ j → g_row g !! i = Some a → g_row g !! j = Some b → a ≤ b.
Proof.
  intros Hij. revert a b. induction Hij as [|j Hij IH]; intros a b Ha Hb.
  - rewrite Ha in Hb. naive_solver.
  - assert (j ≤ g_n g) as Hj.
    { apply lookup_lt_Some in Hb. rewrite (csr_len _ _ _ (wg_csr _ WF)) in Hb. lia. }
    destruct (row_some j Hj) as [c Hc].
    pose proof (csr_mono _ _ _ (wg_csr _ WF) _ _ _ Hc Hb).
    specialize (IH _ _ Ha Hc). lia.
Qed.
Lemma row_le_len i a : g_row g !! i = Some a → a ≤ length (g_col g).
Proof.
  intros Ha. apply (row_mono_le i (g_n g) a).
  - apply lookup_lt_Some in Ha. rewrite (csr_len _ _ _ (wg_csr _ WF)) in Ha. lia.
  - done.
  - apply (csr_last _ _ _ (wg_csr _ WF)).
Qed.

Lemma nbrs_ok i : i < g_n g → nbrs g i = Ok (adj g i).
Proof.
  intros Hi. destruct (row_some i) as [a Ha]; [lia|].
  destruct (row_some (S i)) as [b Hb]; [lia|].
  unfold nbrs, adj. rewrite (vget_ok _ _ _ Ha), bind_ok, (vget_ok _ _ _ Hb), bind_ok, Ha, Hb.
  apply vrange_ok; [by eapply csr_mono; [apply WF|..]|by eapply row_le_len].
Qed.
Lemma wgts_ok i : i < g_n g → wgts g i = Ok (adjw g i).
Proof.
  intros Hi. destruct (row_some i) as [a Ha]; [lia|].
  destruct (row_some (S i)) as [b Hb]; [lia|].
  unfold wgts, adjw. rewrite (vget_ok _ _ _ Ha), bind_ok, (vget_ok _ _ _ Hb), bind_ok, Ha, Hb.
  apply vrange_ok; [by eapply csr_mono; [apply WF|..]|].
  rewrite wg_val by done. by eapply row_le_len.
Qed.
Lemma nb_nbrs_ok i : i < g_n g → nb_nbrs g i = Ok (Z.of_nat (length (adj g i))).
Proof.
  intros Hi. destruct (row_some i) as [a Ha]; [lia|].
  destruct (row_some (S i)) as [b Hb]; [lia|].
  unfold nb_nbrs, adj. rewrite (vget_ok _ _ _ Ha), (vget_ok _ _ _ Hb), !bind_ok, Ha, Hb.
  pose proof (csr_mono _ _ _ (wg_csr _ WF) _ _ _ Ha Hb).
  rewrite slice_length by (by eapply row_le_len). f_equal. lia.
Qed.
Lemma adjw_length i : length (adjw g i) = length (adj g i).
Proof.
  unfold adjw, adj. destruct (g_row g !! i) as [a|] eqn:Ha; [|done].
  destruct (g_row g !! S i) as [b|] eqn:Hb; [|done].
  rewrite !slice_length; [done| |rewrite wg_val by done]; by eapply row_le_len.
Qed.
Lemma nbrs_wgts_ok i : i < g_n g → nbrs_wgts g i = Ok (zip (adj g i) (adjw g i)).
Proof. intros. unfold nbrs_wgts. by rewrite nbrs_ok, bind_ok, wgts_ok, bind_ok. Qed.

Lemma edge_lt i j : gedge g i j → i < g_n g ∧ j < g_n g.
Proof.
  intros (a & b & k & Ha & Hb & Hk & Hj). split.
  - apply lookup_lt_Some in Hb. rewrite (csr_len _ _ _ (wg_csr _ WF)) in Hb. lia.
  - by eapply csr_col; [apply WF|].
Qed.
Lemma adj_lt i j : j ∈ adj g i → j < g_n g.
Proof. rewrite elem_of_adj. apply edge_lt. Qed.
Lemma adj_sym i j : j ∈ adj g i → i ∈ adj g j.
Proof. rewrite !elem_of_adj. apply (wg_sym _ WF). Qed.
Lemma adj_nil i : g_n g ≤ i → adj g i = [].
Proof.
  intros Hi. unfold adj.
  assert (g_row g !! S i = None) as ->.
  { apply lookup_ge_None. rewrite (csr_len _ _ _ (wg_csr _ WF)). lia. }
  by destruct (g_row g !! i).
Qed.

End wf.

(** ** Compactness *)

Section hash.
Context {H : HashOrder}.

(** Number of neighbours of [i] in [s]. *)
Lemma count_in_pos s l : (0 < count_in s l)%Z ↔ ∃ x, x ∈ l ∧ x ∈ s.
Proof.
  unfold count_in. split.
  - intros Hl. destruct (filter (λ x, x ∈ s) l) as [|x l'] eqn:Hf; [simpl in *; lia|].
    assert (x ∈ filter (λ x, x ∈ s) l) as Hx by (rewrite Hf; set_solver).
    apply elem_of_list_filter in Hx. naive_solver.
  - intros (x & Hl & Hs).
    assert (x ∈ filter (λ x, x ∈ s) l) as Hx by (apply elem_of_list_filter; done).
    destruct (filter (λ x, x ∈ s) l); [set_solver|simpl; lia].
Qed.
Lemma count_in_nonneg s l : (0 <= count_in s l)%Z.
Proof. unfold count_in. lia. Qed.

(** The map of the compactness of each cell of a set. *)
Definition cpt_map g (s : gset nat) : gmap nat Z :=
  set_to_map (λ i, (i, count_in s (adj g i))) s.
Lemma lookup_cpt_map g s i :
  cpt_map g s !! i = if decide (i ∈ s) then Some (count_in s (adj g i)) else None.
Proof.
  unfold cpt_map. apply option_eq. intros x. rewrite lookup_set_to_map by done.
  case_decide; naive_solver.
Qed.

Lemma min_step_fold (d : gmap nat Z) (l : list nat) b :
  (∀ k, k ∈ l → is_Some (d !! k)) →
  wp (foldM (λ b k, v ← mapat d k; Ok (min_step b v)) l b) (λ r,
    (l = [] → r = b) ∧
    ((l ≠ [] ∨ is_Some b) → ∃ v, r = Some v ∧
     (b = Some v ∨ ∃ k, k ∈ l ∧ d !! k = Some v) ∧
     (∀ v', b = Some v' → (v <= v')%Z) ∧
     (∀ k v', k ∈ l → d !! k = Some v' → (v <= v')%Z))).
Proof.
  revert b. induction l as [|k l IH]; intros b Hd; simpl.
  { split; [done|]. intros [?|[v ->]]; [done|]. exists v.
    split; [done|]. split; [by left|]. split; [naive_solver|set_solver]. }
  destruct (Hd k) as [v Hv]; [set_solver|]. rewrite (mapat_ok _ _ _ Hv), !bind_ok.
  eapply wp_mono; [apply IH; set_solver|]. simpl. intros r [_ Hr].
  split; [done|]. intros _.
  destruct Hr as (v' & -> & Hin & Hb & Hl).
  { right. unfold min_step. destruct b; [case_bool_decide|]; eauto. }
  exists v'. split; [done|]. unfold min_step in *.
  destruct b as [b|]; [case_bool_decide|].
  - specialize (Hb _ eq_refl). split_and!.
    + destruct Hin as [[= ->]|(?&?&?)]; [right; eexists; split; [left|done]|].
      right; eexists; split; [by right|done].
    + intros ? [= <-]. lia.
    + intros k' v'' Hk' Hv''. apply elem_of_cons in Hk' as [->|?]; [|eauto].
      rewrite Hv in Hv''. naive_solver.
  - specialize (Hb _ eq_refl). split_and!.
    + destruct Hin as [[= ->]|(?&?&?)]; [by left|].
      right; eexists; split; [by right|done].
    + intros ? [= <-]. lia.
    + intros k' v'' Hk' Hv''. apply elem_of_cons in Hk' as [->|?]; [|eauto].
      rewrite Hv in Hv''. simplify_eq. lia.
  - specialize (Hb _ eq_refl). split_and!.
    + destruct Hin as [[= ->]|(?&?&?)]; [right; eexists; split; [left|done]|].
      right; eexists; split; [by right|done].
    + done.
    + intros k' v'' Hk' Hv''. apply elem_of_cons in Hk' as [->|?]; [|eauto].
      rewrite Hv in Hv''. simplify_eq. lia.
Qed.
Definition is_min (d : gmap nat Z) (v : Z) : Prop :=
  (∃ k, d !! k = Some v) ∧ ∀ k v', d !! k = Some v' → (v <= v')%Z.
Lemma map_min_ok (d : gmap nat Z) : d ≠ ∅ → wp (map_min d) (is_min d).
Proof.
  intros Hd. unfold map_min. wstep. eapply wp_mono.
  { apply min_step_fold. intros k. by rewrite elem_of_hkeys. }
  simpl. intros r [_ Hr]. destruct Hr as (v & -> & Hin & _ & Hmin).
  { left. intros Hl. apply map_choose in Hd as (k & x & Hk).
    assert (k ∈ hkeys s_min d) by (apply elem_of_hkeys; eauto).
    rewrite Hl in *. set_solver. }
  simpl. split; [naive_solver|].
  intros k v' Hk. apply (Hmin k); [|done]. apply elem_of_hkeys. eauto.
Qed.
Lemma is_min_inj d v w : is_min d v → is_min d w → v = w.
Proof. intros [[k Hk] Hv] [[k' Hk'] Hw]. specialize (Hv _ _ Hk'). specialize (Hw _ _ Hk). lia. Qed.

Lemma fc_compactness_ok g s :
  wfg g → (∀ i, i ∈ s → i < g_n g) → 1 < size s →
  fc_compactness g s = Ok (cpt_map g s).
Proof.
  intros WF Hs Hsz. unfold fc_compactness.
  rewrite !bool_decide_false by lia.
  assert (foldM (λ d i, l ← nbrs g i; Ok (<[i:=count_in s l]> d)) (hset s_compact s) ∅
    = Ok (foldl (λ d i, <[i := count_in s (adj g i)]> d) ∅ (hset s_compact s))) as ->.
  { apply foldM_pure. intros i d Hi. rewrite nbrs_ok; [done|done|].
    apply Hs. by rewrite elem_of_hset in Hi. }
  f_equal. apply map_eq. intros k. rewrite lookup_cpt_map.
  assert (k ∈ hset s_compact s ↔ k ∈ s) as Hk by apply elem_of_hset.
  revert Hk. generalize (hset s_compact s). intros l Hk.
  assert (foldl (λ d i, <[i:=count_in s (adj g i)]> d) ∅ l !! k =
          if decide (k ∈ l) then Some (count_in s (adj g k)) else None) as ->.
  { clear Hk. induction l as [|x l IH] using rev_ind; [done|].
    rewrite foldl_app. simpl. destruct (decide (k = x)) as [->|Hne].
    - rewrite lookup_insert, decide_True; [done|set_solver].
    - rewrite lookup_insert_ne, IH by done.
      repeat case_decide; try done; set_solver. }
  repeat case_decide; naive_solver.
Qed.

(** The compactness of a set: 0 for less than two cells, otherwise the least
    number of neighbours inside the set. *)
Definition is_compactness g (s : gset nat) (v : Z) : Prop :=
  if decide (1 < size s) then is_min (cpt_map g s) v else v = 0%Z.
Lemma min_compactness_ok g s :
  wfg g → (∀ i, i ∈ s → i < g_n g) → wp (min_compactness g s) (is_compactness g s).
Proof.
  intros WF Hs. unfold min_compactness, is_compactness.
  case_bool_decide as Hsz; case_decide; try done.
  rewrite fc_compactness_ok, bind_ok by done.
  assert (cpt_map g s ≠ ∅) as Hne.
  { intros He. destruct (decide (s = ∅)) as [->|Hn]; [by rewrite size_empty in Hsz; lia|].
    apply set_choose_L in Hn as [x Hx].
    pose proof (lookup_cpt_map g s x) as Hl. rewrite He, lookup_empty, decide_True in Hl; done. }
  rewrite bool_decide_false by done. by apply map_min_ok.
Qed.

(** ** Neighbours of a coarse cell *)

Lemma neighbourhood_of_cc_ok g s aggl :
  wfg g → (∀ i, i ∈ s → i < g_n g) → length aggl = g_n g →
  wp (neighbourhood_of_cc g s aggl) (λ r, ∀ n, n ∈ r ↔
    n ∉ s ∧ aggl !! n = Some false ∧ ∃ i, i ∈ s ∧ n ∈ adj g i).
Proof.
  intros WF Hs Hlen. unfold neighbourhood_of_cc.
  set (P := λ n, n ∉ s ∧ aggl !! n = Some false).
  eapply wp_mono.
  { apply (wp_foldM _ (λ (pre : list nat) (r : gset nat), ∀ n, n ∈ r ↔ P n ∧ ∃ i, i ∈ pre ∧ n ∈ adj g i)).
    { set_solver. }
    intros pre i post acc Heq Hacc.
    assert (i < g_n g) as Hi.
    { apply Hs. rewrite <- (elem_of_hset s_neighcc), Heq. set_solver. }
    rewrite nbrs_ok, bind_ok by done.
    eapply wp_mono.
    { apply (wp_foldM _ (λ (pre' : list nat) (r : gset nat), ∀ n, n ∈ r ↔ n ∈ acc ∨ P n ∧ n ∈ pre')).
      { set_solver. }
      intros pre' j post' acc' Heq' Hacc'.
      assert (j < g_n g) as Hj by (eapply (adj_lt g WF i); rewrite Heq'; set_solver).
      wstep. apply wp_vget; [by rewrite Hlen|]. intros b Hb. simpl. intros n.
      destruct b; simpl.
      - rewrite Hacc', elem_of_app, elem_of_list_singleton. unfold P.
        split; [naive_solver|]. intros [?|[[? ?] [?| ->]]]; naive_solver.
      - case_bool_decide.
        + rewrite elem_of_union, elem_of_singleton, Hacc', elem_of_app, elem_of_list_singleton.
          unfold P. naive_solver.
        + rewrite Hacc', elem_of_app, elem_of_list_singleton.
          unfold P. naive_solver. }
    simpl. intros r Hr n. rewrite Hr, Hacc.
    setoid_rewrite elem_of_app. setoid_rewrite elem_of_list_singleton. naive_solver. }
  simpl. intros r Hr n. rewrite Hr. unfold P.
  setoid_rewrite elem_of_hset. naive_solver.
Qed.

End hash.
End graph.
Notation gedge g := (edge (g_row g) (g_col g)).
