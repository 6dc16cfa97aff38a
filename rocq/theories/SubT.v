(** * SubT: subgraphs of coarse cells (C31) *)

From Verif Require Import Lib Spec SpecSub GraphP CoarseT Subgraph.

(** ** CSR vectors given by rows *)

Section rows.
Context {A : Arith}.
Implicit Types rows : list (list (nat * W)).

Definition ptrs rows : list nat := map (row_ptr rows) (seq 0 (S (length rows))).
#[local] Arguments ptrs : simpl never.
Lemma ptrs_length rows : length (ptrs rows) = S (length rows).
Proof. unfold ptrs. by rewrite map_length, seq_length. Qed.
Lemma ptrs_lookup rows k : k ≤ length rows → ptrs rows !! k = Some (row_ptr rows k).
Proof.
  intros Hk. unfold ptrs. change ((row_ptr rows <$> seq 0 (S (length rows))) !! k = Some (row_ptr rows k)).
  rewrite list_lookup_fmap, lookup_seq_lt by lia. done.
Qed.
Lemma ptrs_snoc rows r : ptrs (rows ++ [r]) = ptrs rows ++ [length (concat (rows ++ [r]))].
Proof.
  apply list_eq. intros k. destruct (decide (k ≤ length rows)) as [Hk|Hk].
  - rewrite lookup_app_l by (rewrite ptrs_length; lia). rewrite !ptrs_lookup by (rewrite ?app_length; lia).
    by rewrite row_ptr_app.
  - rewrite lookup_app_r by (rewrite ptrs_length; lia). rewrite ptrs_length.
    destruct (decide (k = S (length rows))) as [->|].
    + rewrite ptrs_lookup by (rewrite app_length; simpl; lia). rewrite Nat.sub_diag. simpl. f_equal.
      rewrite <- row_ptr_all. f_equal. rewrite app_length. simpl. lia.
    + rewrite lookup_ge_None_2 by (rewrite ptrs_length, app_length; simpl; lia).
      symmetry. apply lookup_ge_None_2. simpl. lia.
Qed.
Lemma zip_fst_snd {B C} (l : list (B * C)) : zip l.*1 l.*2 = l.
Proof. induction l as [|[x y] l IH]; [done|]. cbn. f_equal. exact IH. Qed.

Lemma entries_rows rows k r : rows !! k = Some r → entries (ptrs rows) (concat rows).*1 (concat rows).*2 k = r.
Proof.
  intros Hr. apply lookup_lt_Some in Hr as Hlt. unfold entries. rewrite !ptrs_lookup by lia.
  rewrite zip_fst_snd, (row_ptr_S _ _ _ Hr), (concat_at _ _ _ Hr).
  unfold row_ptr. rewrite drop_app. replace (_ + _ - _) with (length r) by lia. by rewrite take_app.
Qed.
Lemma csr_rows rows : (∀ k r e, rows !! k = Some r → e ∈ r → e.1 < length rows) →
  csr (length rows) (ptrs rows) (concat rows).*1.
Proof.
  intros Hb. split.
  - apply ptrs_length.
  - intros i a b Ha Hb'. apply lookup_lt_Some in Hb' as Hl. rewrite ptrs_length in Hl.
    rewrite ptrs_lookup in Ha, Hb' by lia. simplify_eq.
    destruct (lookup_lt_is_Some_2 rows i) as [r Hr]; [lia|]. rewrite (row_ptr_S _ _ _ Hr). lia.
  - rewrite ptrs_lookup by done. by rewrite fmap_length, row_ptr_all.
  - intros k j Hk. apply elem_of_list_lookup_2, elem_of_list_fmap in Hk as (e & -> & He).
    apply elem_of_list_In, in_concat in He as (r & Hr%elem_of_list_In & He%elem_of_list_In).
    apply elem_of_list_lookup in Hr as [a Ha]. by eapply Hb.
Qed.

(** Conversely, CSR vectors are those of their rows. *)
Lemma entries_length row col val n k : csr n row col → length val = length col → k < n →
  ∃ a b, row !! k = Some a ∧ row !! S k = Some b ∧ a ≤ b ∧ b ≤ length col ∧
    length (entries row col val k) = b - a.
Proof.
  intros Hc Hv Hk. pose proof (csr_len _ _ _ Hc) as Hl.
  destruct (lookup_lt_is_Some_2 row k) as [a Ha]; [lia|].
  destruct (lookup_lt_is_Some_2 row (S k)) as [b Hb]; [lia|].
  pose proof (csr_mono _ _ _ Hc _ _ _ Ha Hb) as Hab.
  assert (∀ d i a, i + d = n → row !! i = Some a → a ≤ length col) as Hle.
  { induction d as [|d IH]; intros i a' Hi Ha'.
    - replace i with n in Ha' by lia. rewrite (csr_last _ _ _ Hc) in Ha'. by simplify_eq.
    - destruct (lookup_lt_is_Some_2 row (S i)) as [b' Hb']; [lia|].
      pose proof (csr_mono _ _ _ Hc _ _ _ Ha' Hb'). specialize (IH (S i) b' ltac:(lia) Hb'). lia. }
  pose proof (Hle (n - S k) (S k) b ltac:(lia) Hb) as Hbl.
  exists a, b. split_and!; [done..|]. unfold entries. rewrite Ha, Hb.
  rewrite take_length, drop_length, zip_with_length. lia.
Qed.
End rows.

Lemma zip_slice {B C} (l : list B) (k : list C) a b : zip (slice l a b) (slice k a b) = take (b - a) (drop a (zip l k)).
Proof.
  unfold slice. apply list_eq. intros i. rewrite lookup_zip_with.
  destruct (decide (i < b - a)) as [Hi|Hi].
  - rewrite !lookup_take by done. rewrite !lookup_drop, lookup_zip_with. done.
  - rewrite !lookup_take_ge by lia. done.
Qed.

#[local] Arguments ptrs : simpl never.
Section sub.
Context {A : Arith} {H : HashOrder}.

Lemma index_of_Some x l k : index_of x l = Some k → l !! k = Some x.
Proof.
  revert k. induction l as [|y l IH]; intros k; simpl; [done|]. case_bool_decide; [|].
  - intros. by simplify_eq.
  - destruct (index_of x l) as [j|]; simpl; [|done]. intros. simplify_eq. simpl. auto.
Qed.
Lemma index_of_None x l : index_of x l = None ↔ x ∉ l.
Proof.
  induction l as [|y l IH]; simpl; [set_solver|]. case_bool_decide as Hy.
  - subst. set_solver.
  - rewrite fmap_None, IH. set_solver.
Qed.
Lemma index_of_at x l k : NoDup l → l !! k = Some x → index_of x l = Some k.
Proof.
  intros Hnd Hk. destruct (index_of x l) as [j|] eqn:Hj.
  - f_equal. eapply NoDup_lookup; [done| |done]. by apply index_of_Some.
  - apply index_of_None in Hj. by apply elem_of_list_lookup_2 in Hk.
Qed.

Context (g : graph) (WF : wfg g) (Hvol : length (g_vol g) = g_n g).
Definition ents (s : gset nat) (i : nat) : list (nat * W) :=
  filter (λ e, e.1 ∈ s) (zip (adj g i) (adjw g i)).

Lemma entries_adj i : entries (g_row g) (g_col g) (g_val g) i = zip (adj g i) (adjw g i).
Proof.
  unfold entries, adj, adjw. destruct (g_row g !! i) as [a|]; [|done]. destruct (g_row g !! S i) as [b|]; [|done].
  by rewrite zip_slice.
Qed.

Lemma sub_rows_ok (s : gset nat) (l : list nat) : (∀ x, x ∈ l → x < g_n g) →
  wp (foldM (sub_row g s) l ([0], [], [], [], [])) (λ '(row, col, val, vol, mp),
    let rows := map (ents s) l in
    row = ptrs rows ∧ col = (concat rows).*1 ∧ val = (concat rows).*2 ∧
    mp = l ∧ length vol = length l ∧ ∀ k x, l !! k = Some x → vol !! k = g_vol g !! x).
Proof using WF Hvol.
  intros Hl. eapply wp_mono; [apply (wp_foldM _ (λ pre '(row, col, val, vol, mp),
    let rows := map (ents s) pre in
    row = ptrs rows ∧ col = (concat rows).*1 ∧ val = (concat rows).*2 ∧
    mp = pre ∧ length vol = length pre ∧ ∀ k x, pre !! k = Some x → vol !! k = g_vol g !! x))|].
  - by split_and!.
  - intros pre i post [[[[row col] val] vol] mp] Heq (-> & -> & -> & -> & Hlv & Hv).
    assert (i < g_n g) as Hi by (apply Hl; rewrite Heq; set_solver).
    remember (ptrs (map (ents s) pre)) as P eqn:HP.
    unfold sub_row. wstep. rewrite (nbrs_wgts_ok g WF i Hi). simpl. wstep.
    apply wp_vget; [lia|]. intros v Hvi. apply wp_ok.
    assert (filter (λ '(n, _), n ∈ s) (zip (adj g i) (adjw g i)) = ents s i) as ->.
    { unfold ents. apply list_filter_iff. by intros [? ?]. }
    cbv zeta. rewrite map_app, concat_app. cbn [map concat]. rewrite app_nil_r, !fmap_app. split_and!; try done.
    + rewrite HP, ptrs_snoc, concat_app. cbn [concat]. rewrite app_nil_r. do 2 f_equal.
      by rewrite <- fmap_app, fmap_length.
    + rewrite !app_length. simpl. lia.
    + intros k x Hk. apply lookup_app_Some in Hk as [Hk|[Hk1 Hk]].
      * rewrite lookup_app_l by (apply lookup_lt_Some in Hk; lia). auto.
      * apply list_lookup_singleton_Some in Hk as [Hk <-]. rewrite Hvi. rewrite lookup_app_r by lia.
        by replace (k - length vol) with 0 by lia.
  - by intros [[[[row col] val] vol] mp].
Qed.

Lemma sub_compactness_ok (rows : list (list (nat * W))) :
  wp (sub_compactness (length rows) (ptrs rows)) (λ c,
    (∀ r, r ∈ rows → (c <= Z.of_nat (length r))%Z) ∧ (c <= Z.of_nat (length rows))%Z ∧
    (c = Z.of_nat (length rows) ∨ ∃ r, r ∈ rows ∧ c = Z.of_nat (length r))).
Proof.
  unfold sub_compactness. eapply wp_mono; [apply (wp_foldM _ (λ pre c,
    (∀ k r, k ∈ pre → rows !! k = Some r → (c <= Z.of_nat (length r))%Z) ∧ (c <= Z.of_nat (length rows))%Z ∧
    (c = Z.of_nat (length rows) ∨ ∃ r, r ∈ rows ∧ c = Z.of_nat (length r))))|].
  - split_and!; [set_solver|lia|by left].
  - intros pre k post c Heq (H1 & H2 & H3).
    assert (k < length rows) as Hk.
    { assert (k ∈ seq 0 (length rows)) as Hin by (rewrite Heq; set_solver). apply elem_of_seq in Hin. lia. }
    destruct (lookup_lt_is_Some_2 _ _ Hk) as [r Hr].
    wstep. unfold vget. rewrite ptrs_lookup by lia. simpl. wstep. unfold vget. rewrite ptrs_lookup by lia. simpl. apply wp_ok.
    rewrite (row_ptr_S _ _ _ Hr).
    replace (Z.of_nat (row_ptr rows k + length r) - Z.of_nat (row_ptr rows k))%Z with (Z.of_nat (length r)) by lia.
    case_bool_decide as Hd; (split_and!; [|try lia|]).
    + intros k' r' [Hk'| ->%elem_of_list_singleton]%elem_of_app Hr'; [|by simplify_eq]. specialize (H1 _ _ Hk' Hr'). lia.
    + right. exists r. split; [|done]. by eapply elem_of_list_lookup_2.
    + intros k' r' [Hk'| ->%elem_of_list_singleton]%elem_of_app Hr'; [by eapply H1|]. simplify_eq. lia.
    + done.
  - intros c (H1 & H2 & H3). split_and!; [|done..]. intros r [k Hk]%elem_of_list_lookup. eapply H1; [|done].
    apply elem_of_seq. apply lookup_lt_Some in Hk. lia.
Qed.

(** The local version of the faces. *)
Definition loc_of (mp : list nat) (c : nat) : nat := default (length mp) (index_of c mp).
Lemma concat_map_map {B C D} (f : C → D) (h : B → list C) l :
  map f (concat (map h l)) = concat (map (λ x, map f (h x)) l).
Proof. induction l as [|x l IH]; simpl; [done|]. by rewrite map_app, IH. Qed.

Lemma loc_of_at mp c : NoDup mp → c ∈ mp → mp !! loc_of mp c = Some c.
Proof.
  intros Hnd [k Hk]%elem_of_list_lookup. unfold loc_of. by rewrite (index_of_at _ _ _ Hnd Hk).
Qed.

Lemma entries_filter_length (s : gset nat) x :
  length (filter (λ e : nat * W, e.1 ∈ s) (zip (adj g x) (adjw g x))) = length (filter (λ y, y ∈ s) (adj g x)).
Proof using WF.
  clear Hvol. pose proof (adjw_length g WF x) as Hl. revert Hl. generalize (adj g x) (adjw g x). intros l k. revert k.
  induction l as [|y l IH]; intros [|w k] Hl; simpl in *; try done.
  rewrite !filter_cons. simpl. specialize (IH k ltac:(lia)). destruct (decide (y ∈ s)); simpl; lia.
Qed.

Definition sub_induced (s : gset nat) (sg : subg) : Prop :=
  induced (g_row g) (g_col g) (g_val g) (g_vol g) s (sg_row sg) (sg_col sg) (sg_val sg) (sg_vol sg) (sg_map sg).

Lemma make_subgraph_ok s : (∀ x, x ∈ s → x < g_n g) →
  wp (make_subgraph g s) (λ sg, sub_induced s sg ∧ sg_card sg = Z.of_nat (size s) ∧
    (simple_csr (g_row g) (g_col g) → compactness (g_row g) (g_col g) s (sg_cpt sg))).
Proof using WF Hvol.
  intros Hs. unfold make_subgraph. wstep.
  eapply wp_mono; [apply (sub_rows_ok s (hset s_subgraph s)); intros x; rewrite elem_of_hset; apply Hs|].
  intros [[[[row col] val] vol] mp] (-> & -> & -> & -> & Hlv & Hv).
  set (l := hset s_subgraph s) in *.
  assert (NoDup l) as Hnd by apply NoDup_hset.
  assert (∀ x, x ∈ l ↔ x ∈ s) as Hin by apply elem_of_hset.
  assert (length l = size s) as Hsz by apply hset_length.
  wstep. rewrite <- Hsz. replace (length l) with (length (map (ents s) l)) by apply map_length.
  eapply wp_mono; [apply sub_compactness_ok|]. intros c (Hc1 & Hc2 & Hc3). rewrite map_length in Hc2, Hc3.
  apply wp_ok. rewrite map_length. split_and!; [|done|].
  - pose (f := λ e : nat * W, (loc_of l e.1, e.2)).
    pose (rows := map (λ x, map f (ents s x)) l).
    assert (ptrs (map (ents s) l) = ptrs rows) as Hp.
    { unfold ptrs, rows. rewrite !map_length. apply map_ext. intros a. apply row_ptr_len. rewrite !map_map.
      apply map_ext. intros x. by rewrite map_length. }
    assert (concat rows = map f (concat (map (ents s) l))) as Hcr.
    { unfold rows. by rewrite concat_map_map. }
    assert (map (λ c, default (length l) (index_of c l)) (concat (map (ents s) l)).*1 = (concat rows).*1) as Hcol.
    { rewrite Hcr. change (map ?a ?b) with (a <$> b). rewrite <- !list_fmap_compose. done. }
    assert ((concat (map (ents s) l)).*2 = (concat rows).*2) as Hval.
    { rewrite Hcr. change (map ?a ?b) with (a <$> b). rewrite <- !list_fmap_compose. done. }
    assert (length rows = length l) as Hlr by apply map_length.
    assert (∀ k x, l !! k = Some x → rows !! k = Some (map f (ents s x))) as Hrk.
    { intros k x Hk. change (((λ x, map f (ents s x)) <$> l) !! k = Some (map f (ents s x))).
      by rewrite list_lookup_fmap, Hk. }
    unfold sub_induced; cbn [sg_row sg_col sg_val sg_vol sg_map]. rewrite Hp, Hcol, Hval. split; [done|done| | | | |done|done].
    + rewrite ptrs_lookup by lia. done.
    + rewrite <- Hlr. apply csr_rows. intros k r e Hr He. rewrite Hlr.
      apply lookup_lt_Some in Hr as Hk. rewrite Hlr in Hk. destruct (lookup_lt_is_Some_2 _ _ Hk) as [x Hx].
      rewrite (Hrk _ _ Hx) in Hr. injection Hr as <-.
      apply elem_of_list_In, in_map_iff in He as ([y w] & <- & He%elem_of_list_In). simpl.
      apply elem_of_list_filter in He as [Hy _]. simpl in Hy. apply Hin in Hy.
      pose proof (loc_of_at _ _ Hnd Hy) as Hloc. by eapply lookup_lt_Some.
    + by rewrite !fmap_length.
    + intros k x Hk. rewrite (entries_rows _ _ _ (Hrk _ _ Hk)). rewrite entries_adj.
      change (map f (ents s x)) with (f <$> ents s x). rewrite <- list_fmap_compose.
      unfold ents. match goal with |- ?a ≡ₚ ?b => assert (a = b) as ->; [|done] end.
      apply list_fmap_ext. intros i0 [y w] [Hy _]%elem_of_list_lookup_2%elem_of_list_filter. unfold f, prod_map. simpl. f_equal.
      apply loc_of_at; [done|]. by apply Hin.
  - simpl. intros Hsimp. unfold compactness.
    assert (∀ x, length (filter (λ y, y ∈ s) (nb_list (g_row g) (g_col g) x)) = length (ents s x)) as Hlen.
    { intros x. unfold ents. by rewrite entries_filter_length. }
    assert (∀ x, x ∈ s → ents s x ∈ map (ents s) l) as Hine.
    { intros x Hx. apply elem_of_list_In, in_map, elem_of_list_In, Hin, Hx. }
    assert (∀ x, x ∈ s → length (ents s x) < size s) as Hlt.
    { intros x Hx. rewrite <- Hlen. destruct (Hsimp x) as [Hndx Hnx].
      assert (NoDup (x :: filter (λ y, y ∈ s) (nb_list (g_row g) (g_col g) x))) as Hn2.
      { constructor; [|by apply NoDup_filter]. intros [_ Hx']%elem_of_list_filter. by apply elem_of_adj in Hx'. }
      apply (NoDup_submseteq _ (elements s)) in Hn2.
      - apply submseteq_length in Hn2. exact Hn2.
      - intros y [-> | [Hy _]%elem_of_list_filter]%elem_of_cons; by apply elem_of_elements. }
    destruct (decide (1 < size s)) as [H1|H1].
    + assert (∃ x, x ∈ s) as [x0 Hx0].
      { destruct (set_choose_or_empty s) as [?|He]; [done|]. exfalso. apply size_empty_iff in He. lia. }
      split.
      * destruct Hc3 as [-> | (r & Hr & ->)].
        -- specialize (Hc1 _ (Hine _ Hx0)). specialize (Hlt _ Hx0). lia.
        -- apply elem_of_list_In, in_map_iff in Hr as (x & <- & Hx%elem_of_list_In). exists x. split; [by apply Hin|].
           by rewrite Hlen.
      * intros x Hx. rewrite Hlen. auto.
    + destruct Hc3 as [-> | (r & Hr & ->)].
      * destruct (decide (size s = 0)) as [Hz|]; [lia|]. exfalso.
        assert (∃ x, x ∈ s) as [x0 Hx0].
        { destruct (set_choose_or_empty s) as [?|He]; [done|]. exfalso. apply size_empty_iff in He. lia. }
        specialize (Hc1 _ (Hine _ Hx0)). specialize (Hlt _ Hx0). lia.
      * apply elem_of_list_In, in_map_iff in Hr as (x & <- & Hx%elem_of_list_In). apply Hin in Hx.
        specialize (Hlt _ Hx). lia.
Qed.
End sub.

(** ** Insertion *)

Section gen.
Context {A : Arith}.

Definition n_le (j : nat) (l : list nat) : nat := length (filter (λ e, e ≤ j) l).

Lemma ins_at_length {B} (l : list B) p x l' : ins_at l p x = Ok l' → length l' = S (length l).
Proof.
  unfold ins_at. case_decide; [|done]. intros Hl. injection Hl as <-.
  rewrite app_length. simpl. rewrite take_length, drop_length. lia.
Qed.
Lemma incr_from_length k l : length (incr_from k l) = length l.
Proof. unfold incr_from. rewrite app_length, map_length, take_length, drop_length. lia. Qed.
Lemma ins_fold_inv loc w ln row col val k r :
  foldM (ins_neigh loc w) ln (row, col, val, k) = Ok r →
  let '(row', col', _, _) := r in length row' = length row ∧
    length col' = length col + 2 * length ln ∧
    ∀ j, row' !! j = (λ a, a + n_le j ln) <$> row !! j.
Proof.
  revert row col val k. induction ln as [|e ln IH]; intros row col val k; simpl.
  - intros Hr. injection Hr as <-. split_and!; [done|lia|]. intros j. unfold n_le. simpl.
    destruct (row !! j); simpl; [|done]. f_equal. lia.
  - unfold ins_neigh at 1. destruct (vget row e) as [p|] eqn:Hp; [|done]. simpl.
    destruct (ins_at col p loc) as [col1|] eqn:Hcol; [|done]. apply ins_at_length in Hcol. simpl.
    destruct (vget w k) as [x|]; [|done]. simpl.
    destruct (ins_at val p x) as [val1|]; [|done]. simpl.
    intros Hr. apply IH in Hr. destruct r as [[[row' col'] val'] k']. destruct Hr as (H1 & H2 & H3). split_and!.
    + by rewrite H1, incr_from_length.
    + rewrite H2, app_length. simpl. lia.
    + intros j. rewrite H3. unfold incr_from, n_le. rewrite filter_cons.
      destruct (decide (j < e)) as [Hj|Hj].
      * rewrite (decide_False (P := e ≤ j)) by lia.
        destruct (decide (j < length row)).
        -- rewrite lookup_app_l by (rewrite take_length; lia). by rewrite lookup_take.
        -- rewrite !lookup_ge_None_2; [done|lia|]. fold (incr_from e row). rewrite incr_from_length. lia.
      * rewrite (decide_True (P := e ≤ j)) by lia.
        assert (e < length row) as He.
        { unfold vget in Hp. destruct (row !! e) eqn:Hre; [|done]. by eapply lookup_lt_Some. }
        rewrite lookup_app_r by (rewrite take_length; lia). rewrite take_length.
        replace (e `min` length row) with e by lia. change (map S ?l) with (S <$> l).
        rewrite list_lookup_fmap, lookup_drop. replace (e + (j - e)) with j by lia.
        destruct (row !! j); simpl; [|done]. f_equal. lia.
Qed.

Lemma omap_length_le (l : list nat) (f : nat → option nat) : length (omap f l) ≤ length l.
Proof.
  induction l as [|x l IH]; [done|].
  change (omap f (x :: l)) with (match f x with Some y => y :: omap f l | None => omap f l end).
  destruct (f x); cbn [length]; lia.
Qed.
Lemma omap_length_all (l : list nat) (f : nat → option nat) : length (omap f l) = length l →
  ∀ x, x ∈ l → is_Some (f x).
Proof.
  induction l as [|y l IH]; intros Hl x Hx; [by apply elem_of_nil in Hx|].
  change (omap f (y :: l)) with (match f y with Some y => y :: omap f l | None => omap f l end) in Hl.
  pose proof (omap_length_le l f). destruct (f y) as [z|] eqn:Hy; cbn [length] in Hl; [|lia].
  apply elem_of_cons in Hx as [-> | Hx]; [by rewrite Hy|]. apply IH; [lia|done].
Qed.
Lemma max_in (l : list nat) : l ≠ [] → ∃ m, m ∈ l ∧ ∀ x, x ∈ l → x ≤ m.
Proof.
  induction l as [|y l IH]; [done|]. intros _. destruct l as [|z l].
  - exists y. split; [set_solver|]. intros x [-> | Hx]%elem_of_cons; [done|]. by apply elem_of_nil in Hx.
  - destruct IH as (m & Hm & Hle); [done|]. exists (y `max` m). split.
    + destruct (Nat.max_spec y m) as [[_ ->]|[_ ->]]; [by right|by left].
    + intros x [-> | Hx]%elem_of_cons; [lia|]. specialize (Hle _ Hx). lia.
Qed.
Lemma n_le_all j l : (∀ x, x ∈ l → x ≤ j) → n_le j l = length l.
Proof.
  intros Hx. unfold n_le. induction l as [|y l IH]; [done|]. rewrite filter_cons, decide_True by (apply Hx; left).
  simpl. rewrite IH; [done|]. intros z Hz. apply Hx. by right.
Qed.
Lemma filter_ext_in {B} (P Q : B → Prop) `{∀ x, Decision (P x)} `{∀ x, Decision (Q x)} (l : list B) :
  (∀ x, x ∈ l → P x ↔ Q x) → filter P l = filter Q l.
Proof.
  induction l as [|x l IH]; intros Hx; [done|]. rewrite !filter_cons.
  rewrite IH by (intros y Hy; apply Hx; by right). specialize (Hx x (elem_of_list_here _ _)).
  destruct (decide (P x)), (decide (Q x)); tauto.
Qed.
Lemma filter_lt_length {B} (P Q : B → Prop) `{∀ x, Decision (P x)} `{∀ x, Decision (Q x)} l x :
  (∀ y, P y → Q y) → x ∈ l → Q x → ¬ P x → length (filter P l) < length (filter Q l).
Proof.
  intros HPQ Hx HQ HP.
  assert (∀ l, length (filter P l) ≤ length (filter Q l)) as Hle.
  { clear -HPQ. intros l. induction l as [|y l IH]; [done|]. rewrite !filter_cons.
    destruct (decide (P y)), (decide (Q y)); simpl; try lia. exfalso. auto. }
  induction l as [|y l IH]; [by apply elem_of_nil in Hx|]. apply elem_of_cons in Hx as [<- | Hx].
  - rewrite !filter_cons, decide_False, decide_True by done. simpl. specialize (Hle l). lia.
  - specialize (IH Hx). rewrite !filter_cons.
    destruct (decide (P y)), (decide (Q y)); simpl; try lia. exfalso. auto.
Qed.

End gen.

Section ins.
Context {A : Arith} (g : graph) (WF : wfg g).
Notation sub_induced := (sub_induced g).
Lemma induced_sizes s sg k x : sub_induced s sg → sg_map sg !! k = Some x →
  ∃ a b, sg_row sg !! k = Some a ∧ sg_row sg !! S k = Some b ∧ a ≤ b ∧
    b - a = length (filter (λ e : nat * W, e.1 ∈ s) (entries (g_row g) (g_col g) (g_val g) x)).
Proof.
  intros HI Hk. destruct (entries_length _ _ (sg_val sg) _ k (ind_csr _ _ _ _ _ _ _ _ _ _ HI) (ind_val _ _ _ _ _ _ _ _ _ _ HI))
    as (a & b & Ha & Hb & Hab & _ & Hl); [by eapply lookup_lt_Some|].
  exists a, b. split_and!; [done..|]. rewrite <- Hl.
  pose proof (ind_faces _ _ _ _ _ _ _ _ _ _ HI k x Hk) as Hp. apply Permutation_length in Hp.
  by rewrite !fmap_length in Hp.
Qed.

(** Inserting a cell which has a neighbour never gives the right subgraph. *)
Lemma insert_wrong s sg x y v w sg' : sub_induced s sg → x ∉ s → edge (g_row g) (g_col g) x y →
  insert_node sg (adj g x) x v w = Ok sg' → ¬ sub_induced ({[x]} ∪ s) sg'.
Proof using WF.
  intros HI Hx Hxy. unfold insert_node.
  set (ln := omap (λ e, index_of e (sg_map sg)) (adj g x)).
  destruct (foldM _ ln _) as [[[[row col] val] k]|] eqn:Hf; [|done]. simpl.
  apply ins_fold_inv in Hf as (Hrl & Hcl & Hr).
  destruct (last row) as [b|] eqn:Hlast; [|done]. simpl. intros Hok HI'. injection Hok as <-.
  pose proof (ind_csr _ _ _ _ _ _ _ _ _ _ HI) as Hc. pose proof (ind_csr _ _ _ _ _ _ _ _ _ _ HI') as Hc'. simpl in *.
  set (n := length (sg_map sg)) in *.
  assert (∀ e, e ∈ ln → ∃ z, z ∈ adj g x ∧ sg_map sg !! e = Some z) as Hln.
  { intros e (z & Hz & He)%elem_of_list_omap. exists z. split; [done|]. by apply index_of_Some. }
  assert (∀ e, e ∈ ln → e < n) as Hltn.
  { intros e (z & _ & Hz)%Hln. by eapply lookup_lt_Some. }
  assert (length ln = length (adj g x)) as Hlen.
  { pose proof (csr_last _ _ _ Hc') as Hl'. rewrite app_length in Hl'. simpl in Hl'.
    pose proof (csr_len _ _ _ Hc) as Hl1. pose proof (csr_last _ _ _ Hc) as Hl2.
    fold n in Hl'. replace (n + 1) with (length row) in Hl' by lia.
    rewrite list_lookup_middle in Hl' by done. injection Hl' as Hl'. rewrite Hcl in Hl'.
    rewrite last_lookup, Hrl, Hl1 in Hlast. simpl in Hlast. rewrite Hr, Hl2 in Hlast. simpl in Hlast.
    injection Hlast as <-. rewrite n_le_all in Hl'; [lia|]. intros e He. apply Hltn in He. lia. }
  apply elem_of_adj in Hxy as Hya.
  destruct (max_in ln) as (e & He & Hmax).
  { intros Hnil. rewrite Hnil in Hlen. simpl in Hlen. destruct (adj g x); [by apply elem_of_nil in Hya|done]. }
  destruct (Hln e He) as (z & Hz & Hez).
  assert (z ∈ s) as Hzs. { apply (ind_map _ _ _ _ _ _ _ _ _ _ HI). by eapply elem_of_list_lookup_2. }
  destruct (induced_sizes _ _ _ _ HI Hez) as (a1 & b1 & Ha1 & Hb1 & Hab1 & Hd1).
  destruct (induced_sizes _ _ e z HI') as (a2 & b2 & Ha2 & Hb2 & Hab2 & Hd2).
  { simpl. by apply lookup_app_l_Some. }
  simpl in Ha2, Hb2. apply lookup_lt_Some in Hb1 as Hlb.
  rewrite lookup_app_l in Ha2, Hb2 by lia. rewrite Hr, Ha1 in Ha2. rewrite Hr, Hb1 in Hb2. simpl in Ha2, Hb2.
  rewrite n_le_all in Ha2 by done. rewrite n_le_all in Hb2 by (intros ? ?%Hmax; lia).
  injection Ha2 as <-. injection Hb2 as <-.
  assert (length (filter (λ e : nat * W, e.1 ∈ s) (entries (g_row g) (g_col g) (g_val g) z)) <
    length (filter (λ e : nat * W, e.1 ∈ {[x]} ∪ s) (entries (g_row g) (g_col g) (g_val g) z))) as Hlt; [|lia].
  apply (adj_sym g WF) in Hz. apply elem_of_list_lookup in Hz as [i Hi].
  destruct (lookup_lt_is_Some_2 (adjw g z) i) as [u Hu].
  { rewrite (adjw_length g WF). by eapply lookup_lt_Some. }
  apply (filter_lt_length _ _ _ (x, u)); simpl; [set_solver| |set_solver|done].
  rewrite entries_adj. apply elem_of_list_lookup. exists i. rewrite lookup_zip_with, Hi. simpl. by rewrite Hu.
Qed.

(** Inserting a cell without neighbours. *)
Lemma insert_isolated s sg x v w : sub_induced s sg → x ∉ s → (∀ y, ¬ edge (g_row g) (g_col g) x y) →
  g_vol g !! x = Some v →
  wp (insert_node sg (adj g x) x v w) (sub_induced ({[x]} ∪ s)).
Proof using WF.
  intros HI Hx Hno Hv.
  assert (adj g x = []) as ->.
  { destruct (adj g x) as [|y l] eqn:Ha; [done|]. destruct (Hno y). apply elem_of_adj. rewrite Ha. left. }
  unfold insert_node. simpl.
  pose proof (ind_csr _ _ _ _ _ _ _ _ _ _ HI) as Hc. pose proof (csr_len _ _ _ Hc) as Hl. pose proof (csr_last _ _ _ Hc) as Hla.
  rewrite last_lookup, Hl. simpl. rewrite Hla. simpl. apply wp_ok.
  set (n := length (sg_map sg)) in *.
  assert (∀ k, k < n → entries (sg_row sg ++ [length (sg_col sg) + 0]) (sg_col sg) (sg_val sg) k =
    entries (sg_row sg) (sg_col sg) (sg_val sg) k) as He.
  { intros k Hk. unfold entries. rewrite !lookup_app_l by lia. done. }
  destruct HI as [I1 I2 I0 I3 I4 I5 I6 I7]. split; simpl.
  - apply NoDup_app. split_and!; [done| |apply NoDup_singleton]. intros z Hz ->%elem_of_list_singleton. by apply I2 in Hz.
  - intros z. rewrite elem_of_app, elem_of_list_singleton, I2. set_solver.
  - by apply lookup_app_l_Some.
  - rewrite app_length. simpl. fold n. split.
    + rewrite app_length. simpl. lia.
    + intros i a b Ha Hb. destruct (decide (S i < length (sg_row sg))) as [Hi|Hi].
      * rewrite lookup_app_l in Ha, Hb by lia. by eapply (csr_mono _ _ _ Hc).
      * apply lookup_lt_Some in Hb as Hb'. rewrite app_length in Hb'. simpl in Hb'.
        assert (i = n) as -> by lia. rewrite lookup_app_l in Ha by lia. rewrite Hla in Ha.
        rewrite lookup_app_r in Hb by lia. replace (S n - length (sg_row sg)) with 0 in Hb by lia.
        simpl in Hb. simplify_eq. lia.
    + rewrite lookup_app_r by lia. replace (n + 1 - length (sg_row sg)) with 0 by lia. simpl. f_equal. lia.
    + intros k j Hk. apply (csr_col _ _ _ Hc) in Hk. lia.
  - done.
  - intros k z Hk. destruct (decide (k < n)) as [Hkn|Hkn].
    + rewrite lookup_app_l in Hk by done. rewrite He by done.
      assert ((prod_map (λ j, (sg_map sg ++ [x]) !! j) id <$> entries (sg_row sg) (sg_col sg) (sg_val sg) k) =
        (prod_map (λ j, sg_map sg !! j) id <$> entries (sg_row sg) (sg_col sg) (sg_val sg) k)) as ->.
      { apply list_fmap_ext. intros i [j u] Hi. unfold prod_map. simpl. f_equal. apply lookup_app_l.
        unfold entries in Hi. destruct (sg_row sg !! k); [|done]. destruct (sg_row sg !! S k); [|done].
        apply elem_of_list_lookup_2, elem_of_take in Hi as (i' & Hi & _). rewrite lookup_drop, lookup_zip_with in Hi.
        destruct (sg_col sg !! (n0 + i')) as [j'|] eqn:Hj'; [|done]. simpl in Hi.
        destruct (sg_val sg !! (n0 + i')); [|done]. simpl in Hi. injection Hi as -> ->. by eapply (csr_col _ _ _ Hc). }
      rewrite I5 by done. 
      match goal with |- ?a ≡ₚ ?b => assert (a = b) as ->; [|done] end. f_equal.
      apply filter_ext_in. intros [j u] Hj. simpl. split; [set_solver|]. intros [Hjx%elem_of_singleton|?]%elem_of_union; [|done].
      exfalso. subst j. rewrite entries_adj in Hj. apply elem_of_zip_l in Hj. apply (adj_sym g WF), elem_of_adj in Hj. by eapply Hno.
    + apply lookup_lt_Some in Hk as Hk'. rewrite app_length in Hk'. simpl in Hk'. assert (k = n) as -> by (fold n in Hk'; lia).
      rewrite list_lookup_middle in Hk by done. injection Hk as <-.
      assert (entries (sg_row sg ++ [length (sg_col sg) + 0]) (sg_col sg) (sg_val sg) n = []) as ->.
      { unfold entries. rewrite lookup_app_l by lia. rewrite Hla. rewrite lookup_app_r by lia.
        replace (S n - length (sg_row sg)) with 0 by lia. simpl. by replace (_ + 0 - _) with 0 by lia. }
      simpl. rewrite entries_adj.
      assert (adj g x = []) as ->; [|done].
      destruct (adj g x) as [|y l] eqn:Ha; [done|]. destruct (Hno y). apply elem_of_adj. rewrite Ha. left.
  - rewrite !app_length. simpl. fold n. lia.
  - intros k z Hk. apply lookup_app_Some in Hk as [Hk|[Hk1 Hk]].
    + rewrite lookup_app_l; [by apply I7|]. apply lookup_lt_Some in Hk. lia.
    + apply list_lookup_singleton_Some in Hk as [Hk <-]. rewrite lookup_app_r by (fold n in Hk1; lia).
      replace (k - length (sg_vol sg)) with 0 by lia. by rewrite Hv.
Qed.

(** ** Removal of a cell without neighbours in the subgraph *)

Lemma lookup_del {B} (l : list B) i k : (take i l ++ drop (S i) l) !! k = l !! (if decide (k < i) then k else S k).
Proof.
  destruct (decide (i ≤ length l)) as [Hi|Hi].
  - case_decide.
    + rewrite lookup_app_l by (rewrite take_length; lia). by apply lookup_take.
    + rewrite lookup_app_r by (rewrite take_length; lia). rewrite take_length, lookup_drop. f_equal. lia.
  - rewrite take_ge, drop_ge, app_nil_r by lia. case_decide; [done|]. rewrite !lookup_ge_None_2 by lia. done.
Qed.
Lemma del_ok {B} (l : list B) i : i < length l → del_at l i = Ok (take i l ++ drop (S i) l).
Proof. intros Hi. unfold del_at. by rewrite decide_True. Qed.
Lemma length_del {B} (l : list B) i : i < length l → length (take i l ++ drop (S i) l) = length l - 1.
Proof. intros Hi. rewrite app_length, take_length, drop_length. lia. Qed.

Lemma csr_cover n row col k : csr n row col → row !! 0 = Some 0 → k < length col →
  ∃ r a b, r < n ∧ row !! r = Some a ∧ row !! S r = Some b ∧ a ≤ k < b.
Proof.
  intros Hc H0 Hk. pose proof (csr_last _ _ _ Hc) as Hla. pose proof (csr_len _ _ _ Hc) as Hl.
  assert (∀ m b, m ≤ n → row !! m = Some b → k < b →
    ∃ r a b, r < n ∧ row !! r = Some a ∧ row !! S r = Some b ∧ a ≤ k < b) as Hg; [|by eapply Hg].
  induction m as [|m IH]; intros b Hm Hb Hkb; [simplify_eq; lia|].
  destruct (lookup_lt_is_Some_2 row m) as [a Ha]; [lia|].
  destruct (decide (k < a)); [apply (IH a); [lia|done|done]|]. exists m, a, b. split_and!; [lia|done|done|lia|done].
Qed.

Lemma elem_entries row col (val : list W) r j u : (j, u) ∈ entries row col val r →
  ∃ k a b, row !! r = Some a ∧ row !! S r = Some b ∧ a ≤ k < b ∧ col !! k = Some j ∧ val !! k = Some u.
Proof.
  unfold entries. destruct (row !! r) as [a|]; [|by intros ?%elem_of_nil].
  destruct (row !! S r) as [b|]; [|by intros ?%elem_of_nil].
  intros (i & Hi & Hlt)%elem_of_take. rewrite lookup_drop, lookup_zip_with in Hi.
  destruct (col !! (a + i)) as [j'|] eqn:Hj; [|done]. simpl in Hi.
  destruct (val !! (a + i)) as [u'|] eqn:Hu; [|done]. simpl in Hi. injection Hi as -> ->.
  exists (a + i), a, b. split_and!; [done|done|lia|lia|done|done].
Qed.
Lemma entries_elem row col (val : list W) r j u k a b : row !! r = Some a → row !! S r = Some b → a ≤ k < b →
  col !! k = Some j → val !! k = Some u → (j, u) ∈ entries row col val r.
Proof.
  intros Ha Hb Hk Hj Hu. unfold entries. rewrite Ha, Hb. apply elem_of_take. exists (k - a). split; [|lia].
  rewrite lookup_drop, lookup_zip_with. replace (a + (k - a)) with k by lia. by rewrite Hj, Hu.
Qed.

Lemma remove_isolated s sg x : sub_induced s sg → x ∈ s → (∀ y, y ∈ s → ¬ edge (g_row g) (g_col g) x y) →
  wp (remove_node sg x) (sub_induced (s ∖ {[x]})).
Proof using WF.
  intros HI Hx Hno.
  pose proof (ind_map _ _ _ _ _ _ _ _ _ _ HI x) as [_ Hxm]. specialize (Hxm Hx).
  apply elem_of_list_lookup in Hxm as [i Hi].
  pose proof (ind_nd _ _ _ _ _ _ _ _ _ _ HI) as Hnd.
  unfold remove_node. rewrite (index_of_at _ _ _ Hnd Hi). change (default _ (Some i)) with i.
  destruct (induced_sizes _ _ _ _ HI Hi) as (a & b & Ha & Hb & Hab & Hd).
  assert (∀ z u, z ∈ s → (x, u) ∉ entries (g_row g) (g_col g) (g_val g) z) as Hnox.
  { intros z u Hz Hin. rewrite entries_adj in Hin. apply elem_of_zip_l in Hin. apply (adj_sym g WF), elem_of_adj in Hin.
    by eapply Hno. }
  assert (filter (λ e : nat * W, e.1 ∈ s) (entries (g_row g) (g_col g) (g_val g) x) = []) as Hxe.
  { destruct (filter _ _) as [|[y u] l] eqn:Hf; [done|].
    assert ((y, u) ∈ filter (λ e : nat * W, e.1 ∈ s) (entries (g_row g) (g_col g) (g_val g) x)) as Hin by (rewrite Hf; left).
    apply elem_of_list_filter in Hin as [Hy Hin]. rewrite entries_adj in Hin. simpl in Hy.
    apply elem_of_zip_l, elem_of_adj in Hin. by destruct (Hno y). }
  rewrite Hxe in Hd. simpl in Hd. assert (b = a) as -> by lia. clear Hd Hab.
  pose proof (ind_csr _ _ _ _ _ _ _ _ _ _ HI) as Hc. pose proof (csr_len _ _ _ Hc) as Hl. pose proof (csr_last _ _ _ Hc) as Hla.
  destruct HI as [_ I2 I0 _ I4 I5 I6 I7].
  set (n := length (sg_map sg)) in *. apply lookup_lt_Some in Hi as Hin. fold n in Hin.
  assert (a ≤ length (sg_col sg)) as Hal.
  { destruct (entries_length _ _ (sg_val sg) _ i Hc I4 Hin) as (a' & b' & Ha' & Hb' & Hab & Hbl & _). simplify_eq. done. }
  assert (∀ k c, sg_col sg !! k = Some c → c ≠ i) as Hci.
  { intros k c Hk ->. apply lookup_lt_Some in Hk as Hkl.
    destruct (csr_cover _ _ _ _ Hc I0 Hkl) as (r & a' & b' & Hr & Har & Hbr & Hab).
    destruct (lookup_lt_is_Some_2 (sg_map sg) r) as [z Hz]; [done|].
    destruct (lookup_lt_is_Some_2 (sg_val sg) k) as [u Hu]; [lia|].
    pose proof (entries_elem _ _ _ _ _ _ _ _ _ Har Hbr Hab Hk Hu) as He.
    assert ((Some x, u) ∈ prod_map (λ j, sg_map sg !! j) id <$> entries (sg_row sg) (sg_col sg) (sg_val sg) r) as He'.
    { apply elem_of_list_fmap. exists (i, u). split; [|done]. unfold prod_map. simpl. by rewrite Hi. }
    rewrite (I5 _ _ Hz) in He'. apply elem_of_list_fmap in He' as ([y u'] & Heq & [_ Hin']%elem_of_list_filter).
    injection Heq as -> ->. eapply Hnox; [|done]. apply I2. by eapply elem_of_list_lookup_2. }
  unfold vget. rewrite Ha, Hb. simpl.
  unfold vrange. rewrite decide_True by lia. simpl. unfold slice. rewrite Nat.sub_diag. simpl.
  unfold vget. rewrite Ha, Hb. simpl. rewrite bool_decide_true by lia. rewrite Nat.sub_diag. simpl.
  rewrite !del_ok by (fold n; lia). simpl.
  set (row' := take i (sg_row sg) ++ drop (S i) (sg_row sg)).
  set (mp' := take i (sg_map sg) ++ drop (S i) (sg_map sg)).
  assert (length row' = n) as Hlr'. { unfold row'. rewrite length_del; lia. }
  assert (length mp' = n - 1) as Hlm'. { unfold mp'. rewrite length_del; [done|]. by fold n. }
  pose (f := λ c, if bool_decide (i < c) then c - 1 else c).
  wstep. eapply wp_mono; [apply (wp_foldM _ (λ pre acc, acc = f <$> pre)); [done|]|].
  { intros pre c post acc Heq ->.
    assert (∃ k, sg_col sg !! k = Some c) as [k Hk].
    { exists (length pre). rewrite Heq. by apply list_lookup_middle. }
    rewrite bool_decide_true by (apply (csr_col _ _ _ Hc) in Hk; lia).
    rewrite (bool_decide_false (c = i)) by by eapply Hci. simpl. by rewrite fmap_app. }
  intros col' ->. apply wp_ok.
  assert (∀ k, row' !! k = sg_row sg !! (if decide (k < i) then k else S k)) as Hr' by apply lookup_del.
  assert (∀ k, mp' !! k = sg_map sg !! (if decide (k < i) then k else S k)) as Hm' by apply lookup_del.
  assert (∀ k, mp' !! f k = if decide (k = i) then mp' !! i else sg_map sg !! k) as Hmf.
  { intros k. unfold f. rewrite Hm'. case_bool_decide; repeat case_decide; try lia; try done.
    - f_equal. lia.
    - subst. by rewrite Hm', decide_False by lia. }
  assert (∀ k, k < n - 1 → row' !! k = sg_row sg !! (if decide (k < i) then k else S k) ∧
    row' !! S k = sg_row sg !! S (if decide (k < i) then k else S k)) as Hrr.
  { intros k Hk. split; [done|]. rewrite Hr'. repeat case_decide; try lia; try done.
    assert (S k = i) as -> by lia. congruence. }
  split; simpl.
  - assert (sg_map sg ≡ₚ x :: mp') as Hp.
    { rewrite <- (take_drop_middle _ _ _ Hi) at 1. symmetry. apply Permutation_middle. }
    rewrite Hp in Hnd. by apply NoDup_cons in Hnd as [_ ?].
  - intros z. fold mp'. rewrite elem_of_difference, not_elem_of_singleton, <- I2. split.
    + intros [k Hk]%elem_of_list_lookup. rewrite Hm' in Hk. split; [by eapply elem_of_list_lookup_2|].
      intros ->. pose proof (NoDup_lookup _ _ _ _ Hnd Hk Hi). case_decide; lia.
    + intros [[k Hk]%elem_of_list_lookup Hne]. apply elem_of_list_lookup. exists (f k). rewrite Hmf.
      case_decide; [|done]. congruence.
  - fold row'. rewrite Hr'. case_decide; [done|]. assert (i = 0) as -> by lia. congruence.
  - fold row' mp'. rewrite Hlm'. split.
    + rewrite Hlr'. lia.
    + intros k a' b' Ha' Hb'. apply lookup_lt_Some in Hb' as Hk.
      destruct (Hrr k) as [E1 E2]; [lia|]. rewrite E1 in Ha'. rewrite E2 in Hb'. by eapply (csr_mono _ _ _ Hc).
    + rewrite Hr', fmap_length. case_decide; [lia|]. by replace (S (n - 1)) with n by lia.
    + intros k j Hk. rewrite list_lookup_fmap in Hk. destruct (sg_col sg !! k) as [c|] eqn:Hck; [|done].
      simpl in Hk. injection Hk as <-. pose proof (csr_col _ _ _ Hc _ _ Hck) as Hcn. apply Hci in Hck. unfold f.
      case_bool_decide; lia.
  - by rewrite fmap_length.
  - fold row' mp'. intros k z Hk. apply lookup_lt_Some in Hk as Hkn. rewrite Hlm' in Hkn.
    rewrite Hm' in Hk.
    set (k' := if decide (k < i) then k else S k) in *.
    assert (entries row' (f <$> sg_col sg) (sg_val sg) k =
      prod_map f id <$> entries (sg_row sg) (sg_col sg) (sg_val sg) k') as ->.
    { unfold entries. destruct (Hrr k Hkn) as [-> ->]. fold k'. destruct (sg_row sg !! k'); [|done].
      destruct (sg_row sg !! S k'); [|done]. rewrite fmap_take, fmap_drop. do 2 f_equal.
      apply list_eq. intros q. rewrite list_lookup_fmap, !lookup_zip_with, list_lookup_fmap.
      destruct (sg_col sg !! q); simpl; [|done]. by destruct (sg_val sg !! q). }
    rewrite <- list_fmap_compose.
    assert (prod_map (λ j, mp' !! j) id ∘ prod_map f id <$> entries (sg_row sg) (sg_col sg) (sg_val sg) k' =
      prod_map (λ j, sg_map sg !! j) id <$> entries (sg_row sg) (sg_col sg) (sg_val sg) k') as ->.
    { apply list_fmap_ext. intros q [j u] Hq. simpl. unfold prod_map. simpl. f_equal. rewrite Hmf.
      apply elem_of_list_lookup_2, elem_entries in Hq as (p & ? & ? & _ & _ & _ & Hp & _). apply Hci in Hp. by rewrite decide_False. }
    rewrite (I5 _ _ Hk). match goal with |- ?a ≡ₚ ?b => assert (a = b) as ->; [|done] end. f_equal.
    apply filter_ext_in. intros [y u] Hy. simpl. rewrite elem_of_difference, not_elem_of_singleton. split; [|tauto].
    intros Hys. split; [done|]. intros ->. eapply Hnox; [|done]. apply I2. by eapply elem_of_list_lookup_2.
  - fold mp'. rewrite Hlm'. rewrite length_del; fold n in I6; lia.
  - fold mp'. intros k z Hk. rewrite Hm' in Hk. rewrite lookup_del. by apply I7.
Qed.
End ins.

(** ** Statements *)

Section thms.
Context {A : Arith} {H : HashOrder}.
Implicit Types (g : graph) (sg : subg).

Lemma C31_cons g s : csr (g_n g) (g_row g) (g_col g) → csr_sym (g_row g) (g_col g) →
  length (g_val g) = length (g_col g) → length (g_vol g) = g_n g → (∀ x, x ∈ s → x < g_n g) →
  ∃ sg, make_subgraph g s = Ok sg ∧
    induced (g_row g) (g_col g) (g_val g) (g_vol g) s
      (sg_row sg) (sg_col sg) (sg_val sg) (sg_vol sg) (sg_map sg) ∧
    sg_card sg = Z.of_nat (size s) ∧
    (simple_csr (g_row g) (g_col g) → compactness (g_row g) (g_col g) s (sg_cpt sg)).
Proof. intros H1 H2 H3 H4 Hs. apply wp_eq. by apply make_subgraph_ok. Qed.

Lemma C31_ins_pos g s sg x v w : csr (g_n g) (g_row g) (g_col g) → csr_sym (g_row g) (g_col g) →
  length (g_val g) = length (g_col g) →
  induced (g_row g) (g_col g) (g_val g) (g_vol g) s
    (sg_row sg) (sg_col sg) (sg_val sg) (sg_vol sg) (sg_map sg) →
  x ∉ s → (∀ y, ¬ edge (g_row g) (g_col g) x y) → g_vol g !! x = Some v →
  ∃ sg', insert_node sg (nb_list (g_row g) (g_col g) x) x v w = Ok sg' ∧
    induced (g_row g) (g_col g) (g_val g) (g_vol g) ({[x]} ∪ s)
      (sg_row sg') (sg_col sg') (sg_val sg') (sg_vol sg') (sg_map sg').
Proof. intros. apply wp_eq. by apply insert_isolated. Qed.

Lemma C31_ins_neg g s sg x y v w sg' : csr (g_n g) (g_row g) (g_col g) → csr_sym (g_row g) (g_col g) →
  length (g_val g) = length (g_col g) →
  induced (g_row g) (g_col g) (g_val g) (g_vol g) s
    (sg_row sg) (sg_col sg) (sg_val sg) (sg_vol sg) (sg_map sg) →
  x ∉ s → edge (g_row g) (g_col g) x y →
  insert_node sg (nb_list (g_row g) (g_col g) x) x v w = Ok sg' →
  ¬ induced (g_row g) (g_col g) (g_val g) (g_vol g) ({[x]} ∪ s)
      (sg_row sg') (sg_col sg') (sg_val sg') (sg_vol sg') (sg_map sg').
Proof. intros. by eapply (insert_wrong g). Qed.

Lemma C31_rem_pos g s sg x : csr (g_n g) (g_row g) (g_col g) → csr_sym (g_row g) (g_col g) →
  length (g_val g) = length (g_col g) →
  induced (g_row g) (g_col g) (g_val g) (g_vol g) s
    (sg_row sg) (sg_col sg) (sg_val sg) (sg_vol sg) (sg_map sg) →
  x ∈ s → (∀ y, y ∈ s → ¬ edge (g_row g) (g_col g) x y) →
  ∃ sg', remove_node sg x = Ok sg' ∧
    induced (g_row g) (g_col g) (g_val g) (g_vol g) (s ∖ {[x]})
      (sg_row sg') (sg_col sg') (sg_val sg') (sg_vol sg') (sg_map sg').
Proof. intros. apply wp_eq. by apply remove_isolated. Qed.
End thms.
