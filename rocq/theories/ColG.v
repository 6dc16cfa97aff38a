(** * ColG: columns of stretched grids (C69) *)

From Verif Require Import Base Main Spec SpecSub SpecFeat SpecLine SpecNum SpecHash SpecGrid SpecCol LineT ApiT ReordU ColT GraphP MainP.

(** ** Pairs *)

Lemma pairs_at (parts : list (list nat)) : (∀ p, p ∈ parts → length p = 2) → ∀ k p x, parts !! k = Some p →
  x ∈ p ↔ ∃ j, concat parts !! j = Some x ∧ j / 2 = k.
Proof.
  induction parts as [|q parts IH]; intros H2 k p x Hk; [done|].
  assert (length q = 2) as Hq by (apply H2; left). destruct q as [|a [|b [|]]]; try done. clear Hq.
  destruct k as [|k]; simpl in Hk.
  - injection Hk as <-. split.
    + intros Hx. apply elem_of_cons in Hx as [->|Hx]; [by exists 0|]. apply elem_of_list_singleton in Hx as ->. by exists 1.
    + intros (j & Hj & Hd). assert (j < 2) as Hlt by (apply Nat.div_small_iff in Hd; lia).
      destruct j as [|[|]]; simpl in Hj; [injection Hj as ->; left|injection Hj as ->; right; left|lia].
  - rewrite (IH (λ p Hp, H2 p (elem_of_list_further _ _ _ Hp)) k p x Hk). split.
    + intros (j & Hj & Hd). exists (S (S j)). split; [done|]. replace (S (S j)) with (j + 1 * 2) by lia. rewrite Nat.div_add by lia. lia.
    + intros (j & Hj & Hd). destruct j as [|[|j]]; [done|done|]. exists j. split; [done|].
      replace (S (S j)) with (j + 1 * 2) in Hd by lia. rewrite Nat.div_add in Hd by lia. lia.
Qed.

Lemma pairs_length (parts : list (list nat)) : (∀ p, p ∈ parts → length p = 2) → length (concat parts) = 2 * length parts.
Proof.
  induction parts as [|q parts IH]; intros H2; [done|]. simpl. rewrite app_length, IH, (H2 q); [lia|left|].
  intros p Hp. apply H2. by right.
Qed.
Lemma nodup_bind (f : nat → list nat) l : NoDup l → (∀ x, x ∈ l → NoDup (f x)) →
  (∀ x1 x2 y, x1 ∈ l → x2 ∈ l → y ∈ f x1 → y ∈ f x2 → x1 = x2) → NoDup (l ≫= f).
Proof.
  induction 1 as [|x l Hx Hl IH]; intros Hn Hd; [constructor|]. simpl. apply NoDup_app. split; [apply Hn; left|]. split.
  - intros y Hy Hin. apply elem_of_list_bind in Hin as (x' & Hy' & Hx'). apply Hx.
    rewrite (Hd x x' y); [done|left|by right|done|done].
  - apply IH; [intros; apply Hn; by right|]. intros x1 x2 y H1 H2. apply Hd; by right.
Qed.

Section grid.
Context {A : Arith} (N : W → Prop) (i : input) (size : nat → nat) (co : nat → nat → nat) (a b : W).
Context (LO : line_order N i) (WM : wf_mesh i) (SG : stretched_grid i size co a b) (FA : far_apart i a b).
Context (Hdim : in_dim i = 2%Z ∨ in_dim i = 3%Z).

Lemma axes_pos : 2 ≤ axes i.
Proof using Hdim. unfold axes. destruct Hdim as [->| ->]; simpl; lia. Qed.

(** The cell of the column of [x] at height [t]. *)
Definition loc (x t : nat) : nat :=
  default 0 (head (filter (λ y, co y 0 = t ∧ Forall (λ k, co y k = co x k) (seq 1 (axes i - 1))) (seq 0 (in_n i)))).
Lemma loc_spec x t : x < in_n i → t < size 0 →
  loc x t < in_n i ∧ co (loc x t) 0 = t ∧ ∀ k, 0 < k < axes i → co (loc x t) k = co x k.
Proof using SG Hdim.
  intros Hx Ht. pose proof axes_pos as Hax.
  destruct (sg_all _ _ _ _ _ SG (λ k, if decide (k = 0) then t else co x k)) as (y & Hy & Hco).
  { intros k Hk. destruct (decide (k = 0)) as [->|]; [done|]. by apply SG. }
  unfold loc. destruct (filter _ _) as [|z l] eqn:E.
  - exfalso. assert (y ∈ @nil nat) as Hin.
    { rewrite <- E. apply elem_of_list_filter. split; [|apply elem_of_seq; lia]. split.
      - rewrite (Hco 0) by lia. by rewrite decide_True.
      - apply Forall_forall. intros k Hk. apply elem_of_seq in Hk. rewrite (Hco k) by lia. by rewrite decide_False by lia. }
    by apply elem_of_nil in Hin.
  - simpl. assert (z ∈ z :: l) as Hz by left. rewrite <- E in Hz. apply elem_of_list_filter in Hz as [[H1 H2] Hz].
    apply elem_of_seq in Hz. split; [lia|]. split; [done|]. intros k Hk. rewrite Forall_forall in H2. apply H2.
    apply elem_of_seq. lia.
Qed.
Definition column (x : nat) : list nat := loc x <$> seq 0 (size 0).
Definition bottoms : list nat := filter (λ x, co x 0 = 0) (seq 0 (in_n i)).
Definition cols : list (list nat) := column <$> bottoms.

Lemma column_at x t y : x < in_n i → column x !! t = Some y ↔
  t < size 0 ∧ y < in_n i ∧ co y 0 = t ∧ ∀ k, 0 < k < axes i → co y k = co x k.
Proof using SG Hdim.
  intros Hx. unfold column. rewrite list_lookup_fmap. split.
  - intros Hy. apply fmap_Some in Hy as (t' & Ht & ->). apply lookup_seq in Ht as [-> Ht]. split; [done|]. simpl. by apply loc_spec.
  - intros (Ht & Hy & Hy0 & Hyk). rewrite lookup_seq_lt by done. simpl. f_equal.
    destruct (loc_spec x t Hx Ht) as (H1 & H2 & H3). apply (sg_one _ _ _ _ _ SG); [done|done|].
    intros k Hk. destruct k as [|k]; [congruence|]. rewrite H3, Hyk; [done|lia|lia].
Qed.
Lemma column_length x : length (column x) = size 0.
Proof. unfold column. by rewrite fmap_length, seq_length. Qed.
Lemma in_bottoms x : x ∈ bottoms ↔ x < in_n i ∧ co x 0 = 0.
Proof. unfold bottoms. rewrite elem_of_list_filter, elem_of_seq. lia. Qed.
Lemma in_cols c : c ∈ cols ↔ ∃ x, c = column x ∧ x < in_n i ∧ co x 0 = 0.
Proof. unfold cols. rewrite elem_of_list_fmap. by setoid_rewrite in_bottoms. Qed.
Lemma in_column x y : x < in_n i → y ∈ column x ↔ y < in_n i ∧ ∀ k, 0 < k < axes i → co y k = co x k.
Proof using SG Hdim.
  intros Hx. rewrite elem_of_list_lookup. setoid_rewrite column_at; [|done]. split; [naive_solver|].
  intros [Hy Hk]. exists (co y 0). split; [|done]. apply SG; [done|]. pose proof axes_pos. lia.
Qed.
Lemma own_col y : y < in_n i → ∃ c, c ∈ cols ∧ c !! co y 0 = Some y.
Proof using SG Hdim.
  intros Hy. pose proof axes_pos as Hax. assert (co y 0 < size 0) as Hy0 by (apply SG; [done|lia]).
  destruct (loc_spec y 0 Hy) as (H1 & H2 & H3); [lia|]. exists (column (loc y 0)). split.
  - apply in_cols. eauto.
  - apply column_at; [done|]. split; [done|]. split; [done|]. split; [done|].
    intros k Hk. by rewrite H3.
Qed.
Lemma beside_iff c x y : c ∈ cols → x ∈ c → beside c x y ↔
  y < in_n i ∧ (co y 0 = S (co x 0) ∨ co x 0 = S (co y 0)) ∧ ∀ k, 0 < k < axes i → co x k = co y k.
Proof using SG Hdim.
  intros (z & -> & Hz & Hz0)%in_cols Hx. apply in_column in Hx as [Hx Hxk]; [|done]. pose proof axes_pos as Hax. unfold beside. split.
  - intros [t [[H1 H2]|[H1 H2]]].
    + apply column_at in H1 as (_ & Ha & Hb & Hc); [|done]. apply column_at in H2 as (_ & Hd & He & Hf); [|done].
      split; [done|]. split; [lia|]. intros k Hk. by rewrite Hc, Hf.
    + apply column_at in H1 as (_ & Ha & Hb & Hc); [|done]. apply column_at in H2 as (_ & Hd & He & Hf); [|done].
      split; [done|]. split; [lia|]. intros k Hk. by rewrite Hc, Hf.
  - intros (Hy & Hd & Hk). assert (∀ k, 0 < k < axes i → co y k = co z k) as Hyk by (intros k ?; rewrite <- Hk, Hxk by done; done).
    assert (co x 0 < size 0) by (apply SG; [done|lia]). assert (co y 0 < size 0) by (apply SG; [done|lia]).
    destruct Hd as [Hd|Hd].
    + exists (co x 0). left. rewrite !column_at by done. rewrite <- Hd. done.
    + exists (co y 0). right. rewrite !column_at by done. rewrite <- Hd. done.
Qed.

Lemma grid_edge x y : x < in_n i → y < in_n i → (co y 0 = S (co x 0) ∨ co x 0 = S (co y 0)) →
  (∀ k, 0 < k < axes i → co x k = co y k) → in_edge i x y.
Proof using SG Hdim.
  intros Hx Hy Hd Hk. apply (sg_edge _ _ _ _ _ SG); [done|done|]. exists 0. pose proof axes_pos. split; [lia|]. split; [done|].
  intros j Hj Hj0. apply Hk. lia.
Qed.
Lemma entry_of x y : x < in_n i → y < in_n i → in_edge i x y →
  (y, if bool_decide (co x 0 = co y 0) then b else a) ∈ entries (in_row i) (in_col i) (in_val i) x.
Proof using SG WM.
  intros Hx Hy He. apply (elem_of_adj (graph_of i)) in He.
  change (adj (graph_of i) x) with (nb_list (in_row i) (in_col i) x) in He.
  rewrite <- (entries_fst _ _ (in_val i)) in He by apply WM. apply elem_of_list_fmap in He as ([y' w] & -> & He).
  simpl. by rewrite <- (sg_val _ _ _ _ _ SG _ _ _ He).
Qed.
Lemma edge_in x y w : (y, w) ∈ entries (in_row i) (in_col i) (in_val i) x → in_edge i x y.
Proof using WM.
  intros He. apply (elem_of_adj (graph_of i)). 
  change (adj (graph_of i) x) with (nb_list (in_row i) (in_col i) x).
  rewrite <- (entries_fst _ _ (in_val i)) by apply WM. apply elem_of_list_fmap. by exists (y, w).
Qed.
Context (Hcpl : in_coupling i ≠ 1%Z) (Hforce : in_force i = false).
Context (Hcompl : ∀ x, x < in_n i → x ∈ in_compl i).
Context (H0 : 2 ≤ size 0) (kk : nat) (Hkk : 0 < kk < axes i) (Hk2 : 2 ≤ size kk).

Lemma other_row x : x < in_n i → ∃ y, y < in_n i ∧ in_edge i x y ∧ co x 0 = co y 0.
Proof using SG Hdim Hkk Hk2.
  clear H0 Hforce Hcpl Hcompl. intros Hx. pose proof axes_pos as Hax. assert (co x kk < size kk) as Hxk by (apply SG; [done|lia]).
  set (t := match co x kk with 0 => 1 | S t => t end).
  destruct (sg_all _ _ _ _ _ SG (λ k, if decide (k = kk) then t else co x k)) as (y & Hy & Hco).
  { intros k Hk. destruct (decide (k = kk)) as [->|]; [|by apply SG]. unfold t. destruct (co x kk); lia. }
  exists y. split; [done|]. split.
  - apply (sg_edge _ _ _ _ _ SG); [done|done|]. exists kk. split; [lia|]. split.
    + rewrite (Hco kk) by lia. rewrite decide_True by done. unfold t. destruct (co x kk); lia.
    + intros j Hj Hjk. rewrite (Hco j) by done. by rewrite decide_False.
  - rewrite (Hco 0) by lia. by rewrite decide_False by lia.
Qed.
Lemma next_row x : x < in_n i → ∃ y, y < in_n i ∧ in_edge i x y ∧ co x 0 ≠ co y 0.
Proof using SG Hdim H0.
  clear Hk2 Hkk Hforce Hcpl Hcompl. intros Hx. pose proof axes_pos as Hax. assert (co x 0 < size 0) as Hxk by (apply SG; [done|lia]).
  destruct (loc_spec x (match co x 0 with 0 => 1 | S t => t end)) as (H1 & H2 & H3); [done|destruct (co x 0); lia|].
  eexists. split; [exact H1|]. split.
  - apply grid_edge; [done|done| |].
    + rewrite H2. destruct (co x 0); lia.
    + intros k Hk. by rewrite H3.
  - rewrite H2. destruct (co x 0); lia.
Qed.
Lemma val_cases x y w : (y, w) ∈ entries (in_row i) (in_col i) (in_val i) x → w = a ∨ w = b.
Proof using SG. intros He. rewrite (sg_val _ _ _ _ _ SG _ _ _ He). case_bool_decide; auto. Qed.
Lemma simple_grid x y : x < in_n i → y < in_n i → in_edge i x y → x ≠ y.
Proof using SG. 
  clear - SG. intros Hx Hy He ->. apply (sg_edge _ _ _ _ _ SG) in He as (k & _ & Hk & _); [|done..]. lia.
Qed.
Lemma edge_lt x y : in_edge i x y → x < in_n i ∧ y < in_n i.
Proof using WM.
  clear - WM. intros He. by apply (GraphP.edge_lt (graph_of i) (mesh_wfg i WM)).
Qed.
Lemma entries_val x y w : (y, w) ∈ entries (in_row i) (in_col i) (in_val i) x → w ∈ in_val i.
Proof.
  clear. unfold entries. destruct (in_row i !! x) as [c|]; [|by intros ?%elem_of_nil].
  destruct (in_row i !! S x) as [d|]; [|by intros ?%elem_of_nil].
  intros Hx. assert ((y, w) ∈ zip (in_col i) (in_val i)) as Hz.
  { rewrite <- (take_drop c (zip (in_col i) (in_val i))), <- (take_drop (d - c) (drop c (zip (in_col i) (in_val i)))).
    apply elem_of_app. right. apply elem_of_app. by left. }
  by apply (elem_of_zip_r y w (in_col i)).
Qed.
Lemma num_a : N a.
Proof using SG WM Hdim H0 LO.
  clear Hk2 Hkk Hforce Hcpl Hcompl. destruct (next_row 0 (wf_pos _ WM)) as (y & Hy & He & Hne).
  pose proof (entry_of 0 y (wf_pos _ WM) Hy He) as Hin. rewrite bool_decide_false in Hin by done.
  apply (lo_val _ _ LO). by eapply entries_val.
Qed.
Lemma num_b : N b.
Proof using SG WM Hdim Hkk Hk2 LO.
  clear H0 Hforce Hcpl Hcompl. destruct (other_row 0 (wf_pos _ WM)) as (y & Hy & He & Hne).
  pose proof (entry_of 0 y (wf_pos _ WM) Hy He) as Hin. rewrite bool_decide_true in Hin by done.
  apply (lo_val _ _ LO). by eapply entries_val.
Qed.
Lemma faces_iff x w : x < in_n i → w ∈ faces_to (in_row i) (in_col i) (in_val i) (λ y, y ≠ x) x ↔ w = a ∨ w = b.
Proof using SG WM Hdim H0 Hkk Hk2.
  intros Hx. unfold faces_to. rewrite elem_of_list_fmap. split.
  - intros ([y v] & -> & Hy). apply elem_of_list_filter in Hy as [_ Hy]. by eapply val_cases.
  - intros [->| ->].
    + destruct (next_row x Hx) as (y & Hy & He & Hne). pose proof (entry_of x y Hx Hy He) as Hin.
      rewrite bool_decide_false in Hin by done. exists (y, a). split; [done|]. apply elem_of_list_filter. split; [|done].
      simpl. intros ->. by apply (simple_grid x x).
    + destruct (other_row x Hx) as (y & Hy & He & Hne). pose proof (entry_of x y Hx Hy He) as Hin.
      rewrite bool_decide_true in Hin by done. exists (y, b). split; [done|]. apply elem_of_list_filter. split; [|done].
      simpl. intros ->. by apply (simple_grid x x).
Qed.
Lemma high_grid x : x < in_n i → max_coupling (in_row i) (in_col i) (in_val i) (in_cen i) false (in_thr i) x a.
Proof using SG FA WM LO Hdim H0 Hkk Hk2.
  intros Hx. destruct (next_row x Hx) as (y & Hy & He & Hne).
  pose proof (entry_of x y Hx Hy He) as Hin. rewrite bool_decide_false in Hin by done.
  assert (wlt a a = false) as Haa by (apply (wlt_irr (lo_weak _ _ LO)), num_a).
  unfold max_coupling. destruct (wlt (ratio_limit (in_thr i)) w0).
  - split.
    + apply elem_of_list_fmap. by exists (y, a).
    + intros w Hw. apply elem_of_list_fmap in Hw as ([y' w'] & -> & Hw). simpl. destruct (val_cases _ _ _ Hw) as [->| ->]; [done|apply FA].
  - split.
    + right. apply faces_iff; [done|]. by left.
    + intros w [->|Hw]; [apply FA|]. apply faces_iff in Hw as [->| ->]; [done|apply FA|done].
Qed.
Lemma maxc_num x m : x < in_n i → max_coupling (in_row i) (in_col i) (in_val i) (in_cen i) false (in_thr i) x m → m = a.
Proof using SG FA WM LO Hdim H0 Hkk Hk2.
  intros Hx. pose proof (high_grid x Hx) as Ha. revert Ha. unfold max_coupling.
  destruct (wlt (ratio_limit (in_thr i)) w0); intros [Ha1 Ha2] [Hm1 Hm2].
  - apply (lo_total _ _ LO); [|apply num_a|by apply Hm2|by apply Ha2].
    apply elem_of_list_fmap in Hm1 as ([y w] & -> & Hy). apply (lo_val _ _ LO). by eapply entries_val.
  - apply (lo_total _ _ LO); [|apply num_a|by apply Hm2|by apply Ha2].
    destruct Hm1 as [->|Hm1]; [apply LO|]. apply faces_iff in Hm1 as [->| ->]; [apply num_a|apply num_b|done].
Qed.
Lemma aniso_grid x : anisotropic (in_row i) (in_col i) (in_val i) (bool_decide (in_dim i = 2%Z)) (in_compl i) (in_thr i) x ↔ x < in_n i.
Proof using SG FA WM LO Hdim H0 Hkk Hk2 Hcompl.
  split; [intros [Hx _]; by apply (wf_compl _ WM)|]. intros Hx. split; [by apply Hcompl|].
  destruct (fa_thr _ _ _ FA) as [Ht|Ht]; [by left|right]. eexists. split; [|exact Ht]. exists a, b.
  assert (wlt a a = false) as Haa by (apply (wlt_irr (lo_weak _ _ LO)), num_a).
  assert (wlt b b = false) as Hbb by (apply (wlt_irr (lo_weak _ _ LO)), num_b).
  split; [|split; [|done]].
  - split; [right; apply faces_iff; auto|]. intros w [->|Hw]; [apply FA|]. apply faces_iff in Hw as [->| ->]; [done|apply FA|done].
  - split; [right; apply faces_iff; auto|]. intros w [->|Hw]; [apply FA|]. apply faces_iff in Hw as [->| ->]; [apply FA|done|done].
Qed.
Lemma strong_grid x y : x < in_n i → strong i x y ↔ in_edge i x y ∧ co x 0 ≠ co y 0.
Proof using SG FA WM LO Hdim H0 Hkk Hk2 Hcpl.
  intros Hx. unfold strong. rewrite bool_decide_false by done. split.
  - intros (w & Hin & m & Hm & Hw). simpl in Hin. pose proof (edge_in x y w Hin) as He. split; [done|]. intros Heq.
    rewrite (sg_val _ _ _ _ _ SG _ _ _ Hin), bool_decide_true in Hw by done.
    assert (m = a) as ->.
    { by apply (maxc_num x). }
    rewrite (fa_other _ _ _ FA) in Hw. done.
  - intros [He Hne]. destruct (edge_lt x y He) as [_ Hy]. pose proof (entry_of x y Hx Hy He) as Hin. rewrite bool_decide_false in Hin by done.
    exists a. split; [done|]. exists a. split; [by apply high_grid|apply FA].
Qed.
Lemma columns_grid : columns i cols.
Proof using SG FA WM LO Hdim H0 Hkk Hk2 Hcpl Hcompl Hforce.
  assert (∀ x, x ∈ concat cols ↔ x < in_n i) as Hin.
  { intros x. rewrite elem_of_list_In, in_concat. setoid_rewrite <- elem_of_list_In. split.
    - intros (c & (z & -> & Hz & _)%in_cols & Hx). by apply in_column in Hx as [? _].
    - intros Hx. destruct (own_col x Hx) as (c & Hc & Hx'). exists c. split; [done|]. by eapply elem_of_list_lookup_2. }
  split.
  - intros x. by rewrite aniso_grid, Hin.
  - unfold cols. assert (∀ l, concat (column <$> l) = l ≫= column) as -> by (clear; intros l; induction l; simpl; by f_equal).
    apply nodup_bind; [apply NoDup_filter, NoDup_seq| |].
    2:{ intros x1 x2 y H1 H2 Hy1 Hy2. apply in_bottoms in H1 as [H1 H1'], H2 as [H2 H2'].
      apply in_column in Hy1 as [_ Hy1]; [|done]. apply in_column in Hy2 as [_ Hy2]; [|done]. apply (sg_one _ _ _ _ _ SG); [done|done|].
      intros [|k] Hk; [congruence|]. rewrite <- Hy1, <- Hy2 by lia. done. }
    intros x Hx. apply in_bottoms in Hx as [Hx _]. apply NoDup_alt. intros t1 t2 y Ht1 Ht2.
      apply column_at in Ht1 as (_ & _ & <- & _); [|done]. by apply column_at in Ht2 as (_ & _ & <- & _).
  - intros c x y Hc Hb. assert (x ∈ c) as Hx by (destruct Hb as [k [[? _]|[_ ?]]]; by eapply elem_of_list_lookup_2).
    apply (beside_iff c x y Hc Hx) in Hb as (Hy & Hd & Hk).
    apply in_cols in Hc as (z & -> & Hz & _). apply in_column in Hx as [Hx _]; [|done].
    apply strong_grid; [done|]. split; [by apply grid_edge|lia].
  - intros c x y Hc Hx Hy Hs. apply beside_iff; [done|done|].
    apply in_cols in Hc as (z & -> & Hz & _). apply in_column in Hx as [Hx _]; [|done]. apply Hin in Hy.
    apply strong_grid in Hs as [He Hne]; [|done]. split; [done|].
    apply (sg_edge _ _ _ _ _ SG) in He as (k & Hk & Hd & Ho); [|done..].
    pose proof axes_pos as Hax. assert (k = 0) as ->. { destruct (decide (0 = k)) as [<-|Hk0]; [done|]. destruct Hne. apply Ho; [lia|done]. }
    split; [done|]. intros k' Hk'. apply Ho; lia.
  - congruence.
  - congruence.
Qed.
End grid.

Lemma C69_grid_lem {A : Arith} {H : HashOrder} (N : W → Prop) i o size co (a b : W) h kk r e :
  line_order N i → good_call i o → aniso_on i o → in_build i = true → stretched_grid i size co a b → far_apart i a b →
  in_coupling i ≠ 1%Z → in_force i = false → (∀ x, x < in_n i → x ∈ in_compl i) →
  size 0 = 2 * h → 0 < kk < axes i → 2 ≤ size kk →
  in_maxline i = None ∨ (∃ m, in_maxline i = Some m ∧ m <= 0)%Z → agglomerate_one_level i o = (r, e) →
  e = Ok () ∧ length (o_fc2cc r) = in_n i ∧
  ∀ x y, x < in_n i → y < in_n i → o_fc2cc r !! x = o_fc2cc r !! y ↔
    co x 0 / 2 = co y 0 / 2 ∧ ∀ k, 0 < k < axes i → co x k = co y k.
Proof.
  intros LO HG Ha Hb SG FA Hcp Hfo Hcm Hs0 Hkk Hk2 Hm Hr. pose proof HG as [WM HA _ _ _]. pose proof (ac_dim _ HA) as Hdim.
  destruct (C01_lem i o HG) as (r' & He' & Hlen). rewrite Hr in He'. injection He' as <- ->. split; [done|]. split; [done|].
  assert (2 ≤ size 0) as H02.
  { destruct h as [|h]; [|lia]. pose proof (sg_in _ _ _ _ _ SG 0 0 (wf_pos _ WM)) as H1. lia. }
  pose proof (columns_grid N i size co a b LO WM SG FA Hdim Hcp Hfo Hcm H02 kk Hkk Hk2) as HC.
  destruct (C69_lem N i o _ r _ LO HG Ha Hb HC Hm Hr) as (cs & Hcs & Hf).
  (* the pairs of the column of a cell *)
  assert (∀ x, x < in_n i → ∃ id, o_fc2cc r !! x = Some id ∧ ∀ y, o_fc2cc r !! y = Some id ↔
    y < in_n i ∧ co x 0 / 2 = co y 0 / 2 ∧ ∀ k, 0 < k < axes i → co x k = co y k) as Hcell.
  { intros x Hx. destruct (own_col i size co a b SG Hdim x Hx) as (c & Hc & Hxc).
    assert (c ∈ cs) as Hcc.
    { rewrite Hcs. apply elem_of_list_filter. split; [|done]. apply in_cols in Hc as (z & -> & _). by rewrite column_length. }
    apply elem_of_list_lookup in Hcc as [n Hn]. destruct (Forall2_lookup_l _ _ _ _ _ Hf Hn) as (ids & _ & l & parts & rest & Ho & Hcut & Hids & _).
    apply in_cols in Hc as (z & -> & Hz & Hz0).
    assert (l = column i size co z ∨ l = reverse (column i size co z)) as Hl.
    { destruct Ho as [(u & v & _ & _ & [[_ ->]|[_ ->]])|(u & v & _ & _ & [[_ ->]|[_ ->]])]; auto. rewrite reverse_involutive. auto. }
    assert (length l = 2 * h) as Hll. { rewrite <- Hs0. destruct Hl as [->| ->]; [|rewrite reverse_length]; apply column_length. }
    assert (Nat.odd (length l) = false) as Hodd. { rewrite Hll, Nat.odd_mul. done. }
    destruct Hcut as [Hc1 Hc2 Hc3 Hc4]. rewrite Hodd, !andb_false_r in *. simpl in Hc4.
    rewrite bool_decide_false in Hc4 by lia. destruct rest; [|done]. rewrite app_nil_r in Hc1.
    assert (∀ p, p ∈ parts → length p = 2) as H2.
    { intros p Hp. apply elem_of_list_lookup in Hp as [k Hk]. destruct (decide (S k < length parts)) as [Hlt|Hge]; [by eapply Hc2|].
      apply Hc3. rewrite last_lookup. apply lookup_lt_Some in Hk as Hk'. by replace (Nat.pred (length parts)) with k by lia. }
    (* the place of a cell in the line *)
    assert (∃ g : nat → nat, (∀ t y, t < 2 * h → column i size co z !! t = Some y → l !! g t = Some y) ∧
      (∀ t u, t < 2 * h → u < 2 * h → g t / 2 = g u / 2 ↔ t / 2 = u / 2) ∧
      (∀ t, t < 2 * h → g t < 2 * h) ∧ (∀ j, j < 2 * h → ∃ t, t < 2 * h ∧ j = g t)) as (g & Hg1 & Hg2 & Hg3 & Hg4).
    { destruct Hl as [->| ->].
      - exists (λ t, t). split; [done|]. split; [done|]. split; [done|]. intros j Hj. by exists j.
      - exists (λ t, 2 * h - 1 - t). split; [|split; [|split]].
        + intros t y Ht Hy. rewrite reverse_lookup by (rewrite column_length; lia). rewrite column_length, Hs0.
          by replace (2 * h - S (2 * h - 1 - t)) with t by lia.
        + clear. intros t u Ht Hu. pose proof (Nat.div_mod t 2). pose proof (Nat.div_mod u 2).
          pose proof (Nat.div_mod (2 * h - 1 - t) 2). pose proof (Nat.div_mod (2 * h - 1 - u) 2).
          pose proof (Nat.mod_upper_bound t 2). pose proof (Nat.mod_upper_bound u 2).
          pose proof (Nat.mod_upper_bound (2 * h - 1 - t) 2). pose proof (Nat.mod_upper_bound (2 * h - 1 - u) 2). lia.
        + intros t Ht. lia.
        + intros j Hj. exists (2 * h - 1 - j). lia. }
    assert (co x 0 < 2 * h) as Hx0. { rewrite <- Hs0. apply (sg_in _ _ _ _ _ SG); [done|lia]. }
    pose proof (pairs_length parts H2) as Hpl. rewrite Hc1, Hll in Hpl.
    assert (g (co x 0) / 2 < length parts) as Hkl. { apply Nat.div_lt_upper_bound; [lia|]. rewrite <- Hpl. by apply Hg3. }
    destruct (lookup_lt_is_Some_2 _ _ Hkl) as [p Hp]. destruct (Forall2_lookup_l _ _ _ _ _ Hids Hp) as (id & _ & Hid).
    assert (∀ y, y ∈ p ↔ y < in_n i ∧ co x 0 / 2 = co y 0 / 2 ∧ ∀ k, 0 < k < axes i → co x k = co y k) as Hin.
    { pose proof (proj1 (column_at i size co a b SG Hdim z _ x Hz) Hxc) as (_ & _ & _ & Hxk).
      intros y. rewrite (pairs_at parts H2 _ p y Hp), Hc1. split.
      - intros (j & Hj & Hd). apply lookup_lt_Some in Hj as Hjl. rewrite Hll in Hjl. destruct (Hg4 j Hjl) as (t & Ht & ->).
        destruct (lookup_lt_is_Some_2 (column i size co z) t) as [y' Hy']; [rewrite column_length; lia|].
        pose proof (Hg1 t y' Ht Hy') as Hj'. rewrite Hj in Hj'. injection Hj' as <-.
        apply (column_at i size co a b SG Hdim z t y Hz) in Hy' as (_ & Hy & <- & Hyk).
        split; [done|]. split; [symmetry; by apply Hg2|]. intros k Hk. by rewrite Hxk, Hyk.
      - intros (Hy & Hd & Hk). assert (co y 0 < 2 * h) as Hy0. { rewrite <- Hs0. apply (sg_in _ _ _ _ _ SG); [done|lia]. }
        exists (g (co y 0)). split; [|by apply Hg2]. apply Hg1; [done|].
        apply (column_at i size co a b SG Hdim z _ y Hz). split; [lia|]. split; [done|]. split; [done|].
        intros k Hk'. by rewrite <- Hk, Hxk. }
    exists id. split; [by apply Hid, Hin|]. intros y. by rewrite Hid, Hin. }
  intros x y Hx Hy. destruct (Hcell x Hx) as (id & Hid & Hall). rewrite Hid. split.
  - intros Heq. symmetry in Heq. apply Hall in Heq as (_ & ? & ?). done.
  - intros [H1 H2]. symmetry. by apply Hall.
Qed.
