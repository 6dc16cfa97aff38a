(** * CoarseT: filtering of cells and coarse graphs (C20-C25) *)

From Verif Require Import Lib Spec SpecCoarse UtilM CorrectP.

Lemma seq_split n pre c post : seq 0 n = pre ++ c :: post → c = length pre ∧ pre = seq 0 c ∧ c < n.
Proof.
  intros Heq. assert (seq 0 n !! length pre = Some c) as Hk by (rewrite Heq; by rewrite list_lookup_middle).
  apply lookup_seq in Hk as [Hk ?]. simpl in Hk. subst c. split_and!; [done| |done].
  apply list_eq. intros i. destruct (decide (i < length pre)) as [Hi|Hi].
  - rewrite (lookup_seq_lt _ _ _ Hi). rewrite <- (lookup_app_l pre (length pre :: post)) by done.
    rewrite <- Heq, lookup_seq_lt by lia. done.
  - rewrite !lookup_ge_None_2; [done|rewrite seq_length; lia|lia].
Qed.

Lemma C25_lem idx bnd allowed : length idx = S (length bnd) →
  ∃ l, filter_cells idx bnd allowed = Ok l ∧ StronglySorted lt l ∧
    ((∃ v, v ∈ allowed ∧ (0 < v)%Z) ∧ (∀ c, c ∈ l ↔ ∃ v, n_edges idx bnd c v ∧ v ∈ allowed) ∨
     (∀ v, v ∈ allowed → (v <= 0)%Z) ∧ l = []).
Proof.
  intros Hlen. unfold filter_cells. destruct (filter _ allowed) as [|v0 l0] eqn:Hf.
  - exists []. split_and!; [done|constructor|]. right. split; [|done]. intros v Hv.
    destruct (decide (0 < v)%Z) as [Hp|]; [|lia].
    assert (v ∈ filter (λ n, 0 < n)%Z allowed) as Hm by by apply elem_of_list_filter.
    rewrite Hf in Hm. by apply elem_of_nil in Hm.
  - assert ((∃ v, v ∈ allowed ∧ (0 < v)%Z)) as Hpos.
    { assert (v0 ∈ filter (λ n, 0 < n)%Z allowed) as Hm by (rewrite Hf; by left).
      apply elem_of_list_filter in Hm as [? ?]. eauto. }
    assert (wp (foldM (λ acc c,
        a ← vget idx (S c);
        b ← vget idx c;
        n ← vget bnd c;
        Ok (if bool_decide ((Z.of_nat a - Z.of_nat b + n)%Z ∈ allowed)
            then acc ++ [c] else acc)) (seq 0 (length bnd)) [])
      (λ l, StronglySorted lt l ∧ ∀ c, c ∈ l ↔ ∃ v, n_edges idx bnd c v ∧ v ∈ allowed)) as Hw.
    2:{ apply wp_eq in Hw as (l & He & Hs & Hl). exists l. split_and!; [done..|]. by left. }
    eapply wp_mono; [apply (wp_foldM _ (λ pre l, StronglySorted lt l ∧
      ∀ c, c ∈ l ↔ c ∈ pre ∧ ∃ v, n_edges idx bnd c v ∧ v ∈ allowed))|].
    + split; [constructor|]. intros c. split; [intros Hc; by apply elem_of_nil in Hc|].
      intros [Hc _]. by apply elem_of_nil in Hc.
    + intros pre c post l Heq [Hs Hl].
      destruct (seq_split _ _ _ _ Heq) as (Hc & Hpre & ?).
      wstep. apply wp_vget; [lia|]. intros z Hz. wstep. apply wp_vget; [lia|]. intros a Ha.
      wstep. apply wp_vget; [lia|]. intros b Hb.
      assert (∀ v, n_edges idx bnd c v ↔ v = (Z.of_nat z - Z.of_nat a + b)%Z) as Hn.
      { intros v. unfold n_edges. split; [intros (? & ? & ? & ? & ? & ? & ->); by simplify_eq|].
        intros ->. exists a, z, b. done. }
      apply wp_ok. case_bool_decide as Hal.
      * split.
        -- assert (∀ x, x ∈ l → x < c) as Hlt.
           { intros x Hx. apply Hl in Hx as [Hx _]. rewrite Hpre in Hx. apply elem_of_seq in Hx. lia. }
           clear -Hs Hlt. induction Hs as [|x l Hs IH Hx]; simpl; [repeat constructor|].
           constructor; [apply IH; intros; apply Hlt; by right|].
           apply Forall_app. split; [done|]. constructor; [|done]. apply Hlt. by left.
        -- intros x. rewrite !elem_of_app, elem_of_list_singleton, Hl.
           destruct (decide (x = c)) as [->|]; [|naive_solver].
           split; [|by right]. intros _. split; [by right|]. exists (Z.of_nat z - Z.of_nat a + b)%Z.
           split; [by apply Hn|done].
      * split; [done|]. intros x. rewrite Hl, elem_of_app, elem_of_list_singleton.
        split; [naive_solver|]. intros [[?| ->] (v & Hv & ?)]; [naive_solver|].
        apply Hn in Hv as ->. done.
    + intros l [Hs Hl]. split; [done|]. intros c. rewrite Hl. split; [naive_solver|].
      intros (v & Hv & ?). split; [|naive_solver]. destruct Hv as (? & ? & ? & _ & _ & Hb & _).
      apply lookup_lt_Some in Hb. apply elem_of_seq. lia.
Qed.

(** ** Sorted lists and rows *)

Lemma sorted_eq (l k : list nat) : StronglySorted lt l → StronglySorted lt k → (∀ x, x ∈ l ↔ x ∈ k) → l = k.
Proof.
  assert (∀ l, StronglySorted lt l → NoDup l ∧ StronglySorted le l) as Hg.
  { clear. induction 1 as [|x l Hs IH Hx]; [split; constructor|]. destruct IH. split; constructor; try done.
    - intros Hin. rewrite Forall_forall in Hx. specialize (Hx _ Hin). lia.
    - eapply Forall_impl; [done|]. simpl. lia. }
  intros [Hl Hl']%Hg [Hk Hk']%Hg Hlk. apply (StronglySorted_unique le); [done..|].
  by apply NoDup_Permutation.
Qed.
Lemma sset_eq (X : gset nat) l : StronglySorted lt l → (∀ x, x ∈ X ↔ x ∈ l) → sset X = l.
Proof.
  intros Hs Hl. apply sorted_eq; [apply sset_sorted|done|]. intros x. by rewrite elem_of_sset.
Qed.
Lemma seq_sorted j n : StronglySorted lt (seq j n).
Proof.
  revert j. induction n as [|n IH]; intros j; simpl; constructor; [done|].
  apply Forall_forall. intros x [? _]%elem_of_seq. lia.
Qed.
Lemma filter_sorted (P : nat → Prop) `{∀ x, Decision (P x)} l : StronglySorted lt l → StronglySorted lt (filter P l).
Proof.
  induction 1 as [|x l Hs IH Hx]; [constructor|]. rewrite filter_cons. destruct (decide _); [|done].
  constructor; [done|]. rewrite Forall_forall in *. intros y [_ Hy]%elem_of_list_filter. auto.
Qed.

Section rows.
Context {T : Type}.
Implicit Types (rows : list (list T)).

(** Row pointers of [rows]. *)
Definition row_ptr rows (a : nat) : nat := length (concat (take a rows)).
Lemma row_ptr_S rows a r : rows !! a = Some r → row_ptr rows (S a) = row_ptr rows a + length r.
Proof.
  intros Hr. unfold row_ptr. rewrite (take_S_r _ _ _ Hr), concat_app, app_length. simpl. by rewrite app_nil_r.
Qed.
Lemma row_ptr_app rows k a : a ≤ length rows → row_ptr (rows ++ k) a = row_ptr rows a.
Proof. intros. unfold row_ptr. by rewrite take_app_le. Qed.
Lemma row_ptr_all rows : row_ptr rows (length rows) = length (concat rows).
Proof. unfold row_ptr. by rewrite take_ge. Qed.
Lemma concat_at rows a r : rows !! a = Some r → concat rows = concat (take a rows) ++ r ++ concat (drop (S a) rows).
Proof.
  intros Hr. transitivity (concat (take a rows ++ r :: drop (S a) rows)); [by rewrite (take_drop_middle _ _ _ Hr)|].
  by rewrite concat_app.
Qed.
Lemma concat_lookup rows a r j : rows !! a = Some r → j < length r →
  concat rows !! (row_ptr rows a + j) = r !! j.
Proof.
  intros Hr Hj. rewrite (concat_at _ _ _ Hr).
  unfold row_ptr. rewrite lookup_app_r by lia. rewrite lookup_app_l by lia. f_equal. lia.
Qed.
Lemma row_of_pos rows a r k : rows !! a = Some r → row_ptr rows a ≤ k < row_ptr rows (S a) →
  ∃ j, k = row_ptr rows a + j ∧ j < length r ∧ concat rows !! k = r !! j.
Proof.
  intros Hr Hk. rewrite (row_ptr_S _ _ _ Hr) in Hk. exists (k - row_ptr rows a). split_and!; [lia..|].
  rewrite <- (concat_lookup _ _ _ _ Hr) by lia. f_equal. lia.
Qed.
End rows.
Lemma row_ptr_len {T U} (r1 : list (list T)) (r2 : list (list U)) a :
  map length r1 = map length r2 → row_ptr r1 a = row_ptr r2 a.
Proof.
  unfold row_ptr. intros Heq. revert r2 Heq a. induction r1 as [|x r1 IH]; intros [|y r2] Heq [|a]; try done.
  cbn [map] in Heq. injection Heq as Hx Hr.
  cbn [take concat]. rewrite !app_length, Hx. f_equal. by apply IH.
Qed.

(** The graph with adjacency lists [rows]. *)
Lemma rows_edge (rows : list (list nat)) idx a b : length idx = S (length rows) →
  (∀ i, i ≤ length rows → idx !! i = Some (row_ptr rows i)) →
  edge idx (concat rows) a b ↔ ∃ r, rows !! a = Some r ∧ b ∈ r.
Proof.
  intros Hlen Hidx. split.
  - intros (p & q & k & Hp & Hq & Hk & Hb). apply lookup_lt_Some in Hq as Hlt. rewrite Hlen in Hlt.
    rewrite Hidx in Hp, Hq by lia. simplify_eq.
    destruct (lookup_lt_is_Some_2 rows a) as [r Hr]; [lia|]. exists r. split; [done|].
    destruct (row_of_pos _ _ _ _ Hr Hk) as (j & -> & Hj & Heq). rewrite Heq in Hb. by eapply elem_of_list_lookup_2.
  - intros (r & Hr & Hb). apply lookup_lt_Some in Hr as Hlt. apply elem_of_list_lookup in Hb as [j Hj].
    exists (row_ptr rows a), (row_ptr rows (S a)), (row_ptr rows a + j).
    rewrite !Hidx by lia. apply lookup_lt_Some in Hj as Hjl. rewrite (row_ptr_S _ _ _ Hr).
    split_and!; [done..|lia|lia|]. by rewrite (concat_lookup _ _ _ _ Hr).
Qed.
Lemma rows_nb_list (rows : list (list nat)) idx a r : length idx = S (length rows) →
  (∀ i, i ≤ length rows → idx !! i = Some (row_ptr rows i)) →
  rows !! a = Some r → nb_list idx (concat rows) a = r.
Proof.
  intros Hlen Hidx Hr. apply lookup_lt_Some in Hr as Hlt. unfold nb_list. rewrite !Hidx by lia.
  rewrite (row_ptr_S _ _ _ Hr). rewrite (concat_at _ _ _ Hr).
  unfold row_ptr. rewrite drop_app. replace (_ + _ - _) with (length r) by lia. by rewrite take_app.
Qed.
Lemma rows_csr (rows : list (list nat)) idx : length idx = S (length rows) →
  (∀ i, i ≤ length rows → idx !! i = Some (row_ptr rows i)) →
  (∀ a r b, rows !! a = Some r → b ∈ r → b < length rows) →
  csr (length rows) idx (concat rows).
Proof.
  intros Hlen Hidx Hb. split; [done|..].
  - intros i a b Ha Hb'. apply lookup_lt_Some in Hb' as Hlt. rewrite Hlen in Hlt.
    rewrite Hidx in Ha, Hb' by lia. simplify_eq. destruct (lookup_lt_is_Some_2 rows i) as [r Hr]; [lia|].
    rewrite (row_ptr_S _ _ _ Hr). lia.
  - rewrite Hidx by done. by rewrite row_ptr_all.
  - intros k j Hk. apply elem_of_list_lookup_2, elem_of_list_In, in_concat in Hk as (r & Hr%elem_of_list_In & Hj%elem_of_list_In).
    apply elem_of_list_lookup in Hr as [a Ha]. by eapply Hb.
Qed.

(** ** [build_coarse_graph] *)

Lemma list_max_elt_ok l : l ≠ [] → wp (list_max_elt l) (λ m, m ∈ l ∧ ∀ x, x ∈ l → x ≤ m).
Proof.
  destruct l as [|x l]; [done|]. intros _. simpl.
  assert (∀ l x, foldl max x l ∈ x :: l ∧ ∀ y, y ∈ x :: l → y ≤ foldl max x l) as Hg; [|apply Hg].
  clear. induction l as [|y l IH]; intros x; simpl.
  - split; [left|]. intros y [->|Hy%elem_of_nil]%elem_of_cons; done.
  - destruct (IH (max x y)) as [Hm Hall]. split.
    + apply elem_of_cons in Hm as [Hm|?]; [|by do 2 right].
      rewrite Hm. destruct (Nat.max_dec x y) as [->| ->]; [left|right; left].
    + assert (max x y ≤ foldl max (max x y) l) by (apply Hall; left).
      intros z [->|[->|Hz]%elem_of_cons]%elem_of_cons; [lia|lia|]. apply Hall. by right.
Qed.

Section coarse.
Context {A : Arith}.

Lemma wsum_l_snoc (l : list W) w : wsum_l (l ++ [w]) = wadd (wsum_l l) w.
Proof. unfold wsum_l. by rewrite foldl_app. Qed.

Context (f : fgraph) (f2c : list nat) (HF : fine_ok f f2c).
Notation n := (length f2c).

Definition fine_upto (j c : nat) : list nat := filter (λ x, f2c !! x = Some c) (seq 0 j).
Lemma fine_upto_S j c : fine_upto (S j) c = fine_upto j c ++ (if decide (f2c !! j = Some c) then [j] else []).
Proof.
  unfold fine_upto. rewrite seq_S, filter_app. f_equal.
Qed.
Lemma elem_of_fine_of c x : x ∈ fine_of f2c c ↔ f2c !! x = Some c.
Proof.
  unfold fine_of. rewrite elem_of_list_filter, elem_of_seq. split; [naive_solver|].
  intros Hx. split; [done|]. apply lookup_lt_Some in Hx. lia.
Qed.

Definition term (k x : nat) : option W :=
  v ← fg_vol f !! x; cx ← fg_cen f !! x; z ← cx !! k; Some (wmul v z).

Lemma omap_snoc {T U} (h : T → option U) l x u : h x = Some u → omap h (l ++ [x]) = omap h l ++ [u].
Proof. intros Hx. rewrite omap_app. simpl. by rewrite Hx. Qed.

Record inv1 (nc dim j : nat) (st : list (gset nat) * list W * list (list W)) : Prop := {
  i1_c2f : length st.1.1 = nc;
  i1_c2f_at : ∀ c, c < nc → st.1.1 !! c = Some (list_to_set (fine_upto j c));
  i1_vol : length st.1.2 = nc;
  i1_vol_at : ∀ c, c < nc → st.1.2 !! c = Some (wsum_l (omap (λ x, fg_vol f !! x) (fine_upto j c)));
  i1_cen : length st.2 = nc;
  i1_cen_at : ∀ c, c < nc → ∃ x, st.2 !! c = Some x ∧ length x = dim ∧
    ∀ k, k < dim → x !! k = Some (wsum_l (omap (term k) (fine_upto j c)));
}.

Lemma step1_ok nc dim c0 : fg_cen f !! 0 = Some c0 → length c0 = dim →
  (∀ c, c ∈ f2c → c < nc) →
  wp (foldM (cg_step1 f dim) (imap (λ fc cc, (fc, cc)) f2c)
        (replicate nc ∅, replicate nc w0, replicate nc (replicate dim w0))) (inv1 nc dim n).
Proof using HF.
  intros Hc0 Hdim Hnc.
  eapply wp_mono; [apply (wp_foldM _ (λ pre st, inv1 nc dim (length pre) st))|].
  - split; simpl; rewrite ?replicate_length; try done.
    + intros c Hc. rewrite lookup_replicate_2 by done. done.
    + intros c Hc. rewrite lookup_replicate_2 by done. done.
    + intros c Hc. exists (replicate dim w0). rewrite lookup_replicate_2 by done.
      rewrite replicate_length. split_and!; [done..|]. intros k Hk. by rewrite lookup_replicate_2.
  - intros pre [fc cc] post [[c2f vol] cen] Heq HI.
    assert (fc = length pre ∧ f2c !! length pre = Some cc) as [-> Hcc].
    { assert (imap (λ fc cc, (fc, cc)) f2c !! length pre = Some (fc, cc)) as Hk.
      { rewrite Heq. by rewrite list_lookup_middle. }
      rewrite list_lookup_imap in Hk. destruct (f2c !! length pre); simpl in Hk; naive_solver. }
    assert (cc < nc) as Hlt by by eapply Hnc, elem_of_list_lookup_2.
    apply lookup_lt_Some in Hcc as Hln. rewrite app_length. simpl. rewrite Nat.add_1_r.
    set (j := length pre) in *. destruct HI as [H1 H2 H3 H4 H5 H6]. simpl in *.
    unfold cg_step1.
    wstep. unfold vget at 1. rewrite (H2 _ Hlt). simpl.
    wstep. apply wp_vset; [lia|].
    wstep. unfold vget at 1. rewrite (H4 _ Hlt). simpl.
    wstep. apply wp_vget; [by rewrite (ff_vol _ _ HF)|]. intros fv Hfv.
    wstep. apply wp_vset; [lia|].
    destruct (H6 _ Hlt) as (x & Hx & Hxl & Hxk).
    wstep. unfold vget at 1. rewrite Hx. simpl.
    assert (j < length (fg_cen f)) as Hjc by by rewrite (ff_cen _ _ HF).
    destruct (lookup_lt_is_Some_2 _ _ Hjc) as [fx Hfx].
    assert (length fx = dim) as Hfxl by (rewrite <- Hdim; by eapply (ff_dim _ _ HF)).
    wstep. eapply (wp_mono _ (λ x', length x' = dim ∧
      ∀ k, k < dim → x' !! k = Some (wsum_l (omap (term k) (fine_upto j cc ++ [j]))))).
    { assert (∀ k, k < dim → ∃ b, fx !! k = Some b ∧ term k j = Some (wmul fv b)) as Ht.
      { intros k Hk. destruct (lookup_lt_is_Some_2 fx k) as [b Hb]; [lia|]. exists b. split; [done|].
        unfold term. by rewrite Hfv, Hfx; simpl; rewrite Hb. }
      case_bool_decide as Hd.
      { apply wp_ok. split; [done|]. lia. }
      wstep. unfold vget at 1. rewrite Hfx. simpl.
      eapply wp_mono; [apply (wp_foldM _ (λ pre x', length x' = dim ∧ ∀ k, k < dim →
        x' !! k = Some (wsum_l (omap (term k) (fine_upto j cc ++ if decide (k < length pre) then [j] else [])))))|].
      - split; [done|]. intros k Hk. rewrite decide_False by (simpl; lia). rewrite app_nil_r. auto.
      - intros pre' k post' x' Heq' [Hl' Hx']. destruct (seq_split _ _ _ _ Heq') as (-> & _ & Hk).
        destruct (Ht _ Hk) as (b & Hb & Htk).
        wstep. unfold vget at 1. rewrite (Hx' _ Hk). simpl.
        wstep. unfold vget at 1. rewrite Hb. simpl.
        apply wp_vset; [lia|]. rewrite insert_length. split; [done|]. intros k' Hk'.
        rewrite app_length. simpl. destruct (decide (k' = length pre')) as [->|Hne].
        + rewrite list_lookup_insert by lia. rewrite decide_False by lia. rewrite decide_True by lia.
          rewrite app_nil_r. rewrite (omap_snoc _ _ _ _ Htk), wsum_l_snoc. done.
        + rewrite list_lookup_insert_ne by done. rewrite (Hx' _ Hk').
          destruct (decide (k' < length pre')); [rewrite decide_True by lia|rewrite decide_False by lia]; done.
      - intros x' [Hl' Hx']. split; [done|]. intros k Hk. rewrite (Hx' _ Hk). rewrite seq_length.
        by rewrite decide_True. }
    intros x' [Hxl' Hxk']. wstep. apply wp_vset; [lia|]. apply wp_ok.
    split; simpl; rewrite ?insert_length; try done.
    + intros c Hc. rewrite fine_upto_S. destruct (decide (c = cc)) as [->|Hne].
      * rewrite list_lookup_insert by lia. rewrite decide_True by done. f_equal.
        rewrite list_to_set_app_L. set_solver.
      * rewrite list_lookup_insert_ne by done. rewrite decide_False by congruence. rewrite app_nil_r. auto.
    + intros c Hc. rewrite fine_upto_S. destruct (decide (c = cc)) as [->|Hne].
      * rewrite list_lookup_insert by lia. rewrite decide_True by done. f_equal.
        rewrite (omap_snoc (λ x, fg_vol f !! x) _ _ _ Hfv). by rewrite wsum_l_snoc.
      * rewrite list_lookup_insert_ne by done. rewrite decide_False by congruence. rewrite app_nil_r. auto.
    + intros c Hc. rewrite fine_upto_S. destruct (decide (c = cc)) as [->|Hne].
      * exists x'. rewrite list_lookup_insert by lia. rewrite decide_True by done. done.
      * rewrite list_lookup_insert_ne by done. rewrite decide_False by congruence. rewrite app_nil_r. auto.
  - intros st. by rewrite imap_length.
Qed.


Definition row_faces (x b : nat) : list nat :=
  match fg_idx f !! x, fg_idx f !! S x with
  | Some p, Some q =>
      filter (λ k, (fg_adj f !! k) ≫= (λ y, f2c !! y) = Some b) (seq p (q - p))
  | _, _ => []
  end.
Definition faces_in (xs : list nat) (b : nat) : list nat := xs ≫= λ x, row_faces x b.
Lemma faces_in_snoc xs x b : faces_in (xs ++ [x]) b = faces_in xs b ++ row_faces x b.
Proof. unfold faces_in. rewrite bind_app. f_equal. simpl. by rewrite app_nil_r. Qed.

(** The weight read for the face at position [k]. *)
Definition face_read (k : nat) : option W := y ← fg_adj f !! k; fg_wgt f !! y.
Definition mspec (a : nat) (fs : nat → list nat) (m : gmap nat W) : Prop :=
  ∀ b, m !! b = if decide (b = a ∨ fs b = []) then None else Some (wsum_l (omap face_read (fs b))).

Lemma row_bounds x p q : fg_idx f !! x = Some p → fg_idx f !! S x = Some q → p ≤ q ∧ q ≤ length (fg_adj f).
Proof using HF.
  pose proof (ff_csr _ _ HF) as HC. intros Hp Hq. split; [by eapply (csr_mono _ _ _ HC)|].
  assert (∀ k i z, k = n - i → i ≤ n → fg_idx f !! i = Some z → z ≤ length (fg_adj f)) as Hle.
  { induction k as [|k IH]; intros i z Hk Hi Hz.
    - assert (i = n) as -> by lia. rewrite (csr_last _ _ _ HC) in Hz. by simplify_eq.
    - destruct (lookup_lt_is_Some_2 (fg_idx f) (S i)) as [y Hy]; [rewrite (csr_len _ _ _ HC); lia|].
      pose proof (csr_mono _ _ _ HC _ _ _ Hz Hy). transitivity y; [done|]. apply (IH (S i)); [lia|lia|done]. }
  eapply (Hle _ (S x)); [done| |done]. apply lookup_lt_Some in Hq. rewrite (csr_len _ _ _ HC) in Hq. lia.
Qed.

Lemma cg_neigh_ok a fcs x p q fs m :
  (∀ y, y ∈ fcs ↔ f2c !! y = Some a) → f2c !! x = Some a →
  fg_idx f !! x = Some p → fg_idx f !! S x = Some q → mspec a fs m →
  wp (foldM (cg_neigh f f2c fcs) (slice (fg_adj f) p q) m) (mspec a (λ b, fs b ++ row_faces x b)).
Proof using HF.
  intros Hfcs Hx Hp Hq Hm. destruct (row_bounds _ _ _ Hp Hq) as [Hpq Hql].
  pose proof (slice_length (fg_adj f) p q Hql) as Hsl.
  assert (∀ b, row_faces x b = filter (λ k, (fg_adj f !! k) ≫= (λ y, f2c !! y) = Some b)
    (seq p (length (slice (fg_adj f) p q)))) as Hrow.
  { intros b. unfold row_faces. by rewrite Hp, Hq, Hsl. }
  eapply wp_mono; [apply (wp_foldM _ (λ pre, mspec a (λ b, fs b ++
    filter (λ k, (fg_adj f !! k) ≫= (λ y, f2c !! y) = Some b) (seq p (length pre)))))|].
  - intros b. simpl. rewrite filter_nil, app_nil_r. apply Hm.
  - intros pre y post m' Heq Hm'.
    assert (fg_adj f !! (p + length pre) = Some y) as Hy.
    { rewrite <- slice_lookup with (b := q).
      - rewrite Heq. by rewrite list_lookup_middle.
      - rewrite <- Hsl, Heq, app_length. simpl. lia. }
    assert (p + length pre < q) as Hlt.
    { apply (f_equal length) in Heq. rewrite app_length in Heq. simpl in Heq. lia. }
    assert (edge (fg_idx f) (fg_adj f) x y) as Hxy.
    { exists p, q, (p + length pre). split_and!; [done..|lia|lia|done]. }
    assert (y < n) as Hyn by by eapply (csr_col _ _ _ (ff_csr _ _ HF)).
    destruct (lookup_lt_is_Some_2 f2c y Hyn) as [cn Hcn].
    assert (∀ b, filter (λ k, (fg_adj f !! k) ≫= (λ y, f2c !! y) = Some b) (seq p (length (pre ++ [y]))) =
      filter (λ k, (fg_adj f !! k) ≫= (λ y, f2c !! y) = Some b) (seq p (length pre)) ++
      if decide (b = cn) then [p + length pre] else []) as Hsnoc.
    { intros b. rewrite app_length. simpl. rewrite Nat.add_1_r, seq_S, filter_app. f_equal.
      rewrite filter_cons, filter_nil, Hy. simpl. rewrite Hcn.
      destruct (decide (b = cn)) as [->|]; [by rewrite decide_True|rewrite decide_False by congruence; done]. }
    unfold cg_neigh. case_bool_decide as Hin.
    + apply Hfcs in Hin. assert (cn = a) as -> by congruence. apply wp_ok. intros b. rewrite Hsnoc.
      destruct (decide (b = a)) as [->|Hne]; [|rewrite app_nil_r; apply Hm'].
      rewrite Hm'. rewrite !decide_True by (by left). done.
    + assert (cn ≠ a) as Hca by (intros ->; by apply Hin, Hfcs).
      wstep. unfold vget at 1. rewrite Hcn. simpl.
      wstep. apply wp_vget; [eapply (ff_wgt _ _ HF); [done|congruence]|]. intros w Hw. apply wp_ok.
      assert (face_read (p + length pre) = Some w) as Hr by (unfold face_read; by rewrite Hy).
      intros b. rewrite Hsnoc. destruct (decide (b = cn)) as [->|Hne].
      * rewrite lookup_insert, Hm'. rewrite app_assoc.
        set (L := fs cn ++ _). rewrite (decide_False (P := cn = a ∨ L ++ _ = [])).
        2:{ intros [?|?%app_eq_nil]; [done|naive_solver]. }
        rewrite (omap_snoc _ _ _ _ Hr), wsum_l_snoc. f_equal. f_equal.
        destruct (decide _) as [[?|HL]|]; [done| |done]. by rewrite HL.
      * rewrite lookup_insert_ne by done. rewrite app_nil_r. apply Hm'.
  - intros m' Hm' b. rewrite Hrow. apply Hm'.
Qed.

Definition zmax_from (b : Z) (l : list Z) : Z := foldl (λ b x, if bool_decide (b < x)%Z then x else b) b l.
Definition wmax_from (p : W) (l : list W) : W := foldl (λ p x, if wlt p x then x else p) p l.

Lemma cg_cells_ok a fcs xs : (∀ y, y ∈ fcs ↔ f2c !! y = Some a) → (∀ x, x ∈ xs → f2c !! x = Some a) →
  wp (foldM (cg_cell f f2c fcs) xs (int_min, wminv, ∅)) (λ r,
    r.1.1 = zmax_from int_min (omap (λ x, fg_bnd f !! x) xs) ∧
    r.1.2 = wmax_from wminv (omap (λ x, fg_prio f !! x) xs) ∧
    mspec a (faces_in xs) r.2).
Proof using HF.
  intros Hfcs Hxs. apply (wp_foldM _ (λ xs r,
    r.1.1 = zmax_from int_min (omap (λ x, fg_bnd f !! x) xs) ∧
    r.1.2 = wmax_from wminv (omap (λ x, fg_prio f !! x) xs) ∧
    mspec a (faces_in xs) r.2)).
  - split_and!; [done..|]. intros b. simpl. rewrite decide_True; [done|by right].
  - intros pre x post [[bnd prio] m] Heq (Hb & Hp & Hm). simpl in Hb, Hp, Hm.
    assert (f2c !! x = Some a) as Hx by (apply Hxs; rewrite Heq; set_solver).
    apply lookup_lt_Some in Hx as Hlt. pose proof (ff_csr _ _ HF) as HC.
    unfold cg_cell.
    wstep. apply wp_vget; [by rewrite (ff_bnd _ _ HF)|]. intros b Hbx.
    wstep. apply wp_vget; [by rewrite (ff_prio _ _ HF)|]. intros w Hw.
    wstep. apply wp_vget; [rewrite (csr_len _ _ _ HC); lia|]. intros p Hpx.
    wstep. apply wp_vget; [rewrite (csr_len _ _ _ HC); lia|]. intros q Hq.
    destruct (row_bounds _ _ _ Hpx Hq) as [Hpq Hql].
    wstep. rewrite vrange_ok by done. simpl.
    wstep. eapply wp_mono; [by eapply cg_neigh_ok|]. intros m' Hm'. apply wp_ok. simpl. split_and!.
    + rewrite (omap_snoc (λ x, fg_bnd f !! x) _ _ _ Hbx). unfold zmax_from in *. by rewrite foldl_app, <- Hb.
    + rewrite (omap_snoc (λ x, fg_prio f !! x) _ _ _ Hw). unfold wmax_from in *. by rewrite foldl_app, <- Hp.
    + intros c. rewrite faces_in_snoc. apply Hm'.
Qed.

(** The exact result. *)
Definition cen_of (c k : nat) : W :=
  wmul (wsum_l (omap (term k) (fine_of f2c c))) (wdiv w1 (wofZ (Z.of_nat (length (fine_of f2c c))))).
Definition vals (m : gmap nat W) : list W := map (λ k, default w0 (m !! k)) (skeys m).

Record inv2 (nc dim c : nat) (vol : list W) (cen0 : list (list W)) (g : cgraph) (ms : list (gmap nat W)) : Prop := {
  i2_ms : length ms = c;
  i2_m : ∀ a m, ms !! a = Some m → mspec a (faces_in (fine_of f2c a)) m;
  i2_idx : length (cg_idx g) = S c;
  i2_idx_at : ∀ i, i ≤ c → cg_idx g !! i = Some (row_ptr (map skeys ms) i);
  i2_adj : cg_adj g = concat (map skeys ms);
  i2_wgt : cg_wgt g = concat (map vals ms);
  i2_vol : cg_vol g = vol;
  i2_cen : length (cg_cen g) = nc;
  i2_cen_old : ∀ a, c ≤ a → cg_cen g !! a = cen0 !! a;
  i2_cen_at : ∀ a, a < c → ∃ x, cg_cen g !! a = Some x ∧ length x = dim ∧
    ∀ k, k < dim → x !! k = Some (cen_of a k);
  i2_prio : length (cg_prio g) = nc;
  i2_prio_at : ∀ a, a < c → cg_prio g !! a = Some (wmax_from wminv (omap (λ x, fg_prio f !! x) (fine_of f2c a)));
  i2_bnd : length (cg_bnd g) = nc;
  i2_bnd_at : ∀ a, a < c → cg_bnd g !! a = Some (zmax_from int_min (omap (λ x, fg_bnd f !! x) (fine_of f2c a)));
}.

Lemma fine_of_sorted c : StronglySorted lt (fine_of f2c c).
Proof. apply filter_sorted, seq_sorted. Qed.
Lemma fine_of_NoDup c : NoDup (fine_of f2c c).
Proof. apply NoDup_filter, NoDup_seq. Qed.

Lemma skeys_length {V} (m : gmap nat V) : length (skeys m) = size m.
Proof. unfold skeys, sset. rewrite merge_sort_Permutation. rewrite <- size_dom. done. Qed.

Lemma step2_ok nc dim c2f vol cen0 :
  length c2f = nc → (∀ c, c < nc → c2f !! c = Some (list_to_set (fine_of f2c c))) →
  length cen0 = nc → (∀ c, c < nc → ∃ x, cen0 !! c = Some x ∧ length x = dim ∧
    ∀ k, k < dim → x !! k = Some (wsum_l (omap (term k) (fine_of f2c c)))) →
  wp (foldM (cg_step2 f f2c dim c2f) (seq 0 nc)
    (CGraph [0] [] [] vol cen0 (replicate nc w0) (replicate nc 0%Z)))
    (λ g, ∃ ms, inv2 nc dim nc vol cen0 g ms).
Proof using HF.
  intros Hc2f Hat Hcen Hcat.
  eapply wp_mono; [apply (wp_foldM _ (λ pre g, ∃ ms, inv2 nc dim (length pre) vol cen0 g ms))|].
  - exists []. split; simpl; rewrite ?replicate_length; try done; try lia.
    intros i Hi. assert (i = 0) as -> by lia. done.
  - intros pre cc post g Heq [ms HI]. destruct (seq_split _ _ _ _ Heq) as (Hcc & _ & Hlt).
    rewrite app_length. simpl. rewrite Nat.add_1_r. rewrite <- Hcc in *. clear pre Heq Hcc.
    destruct HI as [J1 J2 J3 J4 J5 J6 J7 J8 J9 J10 J11 J12 J13 J14].
    assert (∀ y, y ∈ (list_to_set (fine_of f2c cc) : gset nat) ↔ f2c !! y = Some cc) as Hfcs.
    { intros y. rewrite elem_of_list_to_set. apply elem_of_fine_of. }
    unfold cg_step2.
    wstep. unfold vget at 1. rewrite (Hat _ Hlt). simpl.
    destruct (Hcat _ Hlt) as (x & Hx & Hxl & Hxk).
    wstep. unfold vget at 1. rewrite J9 by done. rewrite Hx. simpl.
    wstep. apply wp_vset; [lia|].
    assert (sset (list_to_set (fine_of f2c cc)) = fine_of f2c cc) as Hss.
    { apply sset_eq; [apply fine_of_sorted|]. intros y. by rewrite elem_of_list_to_set. }
    wstep. rewrite Hss. eapply wp_mono; [apply (cg_cells_ok cc); [done|]|].
    { intros y. apply elem_of_fine_of. }
    intros [[bnd prio] m] (Hb & Hp & Hm). simpl in Hb, Hp, Hm.
    wstep. apply wp_vset; [lia|]. wstep. apply wp_vset; [lia|].
    wstep. rewrite last_lookup, J3. simpl. rewrite J4 by done. simpl.
    exists (ms ++ [m]).
    assert (size (list_to_set (fine_of f2c cc) : gset nat) = length (fine_of f2c cc)) as Hsz.
    { apply size_list_to_set, fine_of_NoDup. }
    split; simpl; rewrite ?app_length, ?insert_length, ?map_app, ?concat_app; simpl; try done; try lia.
    + intros a m' Hm'. destruct (decide (a < cc)) as [Ha|Ha].
      * rewrite lookup_app_l in Hm' by lia. auto.
      * rewrite lookup_app_r in Hm' by lia. assert (a = cc) as ->.
        { apply lookup_lt_Some in Hm'. simpl in Hm'. lia. }
        rewrite J1, Nat.sub_diag in Hm'. simpl in Hm'. by simplify_eq.
    + intros i Hi. destruct (decide (i ≤ cc)) as [Hic|Hic].
      * rewrite lookup_app_l by lia. rewrite row_ptr_app by (rewrite map_length; lia). auto.
      * assert (i = S cc) as -> by lia. rewrite lookup_app_r by lia. rewrite J3, Nat.sub_diag. simpl. f_equal.
        rewrite (row_ptr_S _ cc (skeys m)).
        -- rewrite row_ptr_app by (rewrite map_length; lia). by rewrite skeys_length.
        -- rewrite lookup_app_r by (rewrite map_length; lia). by rewrite map_length, J1, Nat.sub_diag.
    + by rewrite J5, app_nil_r.
    + by rewrite J6, app_nil_r.
    + intros a Ha. rewrite list_lookup_insert_ne by lia. apply J9. lia.
    + intros a Ha. destruct (decide (a = cc)) as [->|Hne].
      * rewrite list_lookup_insert by lia. eexists. split; [done|]. rewrite map_length. split; [done|].
        intros k Hk. change (map ?h ?l) with (h <$> l). 
        assert (((λ a, wmul a (wdiv w1 (wofZ (Z.of_nat (size (list_to_set (fine_of f2c cc) : gset nat)))))) <$> x) !! k =
          Some (cen_of cc k)) as ->; [|done].
        rewrite list_lookup_fmap, (Hxk _ Hk). simpl. unfold cen_of. by rewrite Hsz.
      * rewrite list_lookup_insert_ne by done. apply J10. lia.
    + intros a Ha. destruct (decide (a = cc)) as [->|Hne].
      * rewrite list_lookup_insert by lia. by rewrite Hp.
      * rewrite list_lookup_insert_ne by done. apply J12. lia.
    + intros a Ha. destruct (decide (a = cc)) as [->|Hne].
      * rewrite list_lookup_insert by lia. by rewrite Hb.
      * rewrite list_lookup_insert_ne by done. apply J14. lia.
  - intros g [ms HI]. rewrite seq_length in HI. eauto.
Qed.

Lemma build_ok : ∃ m c0 g ms vol cen0, fg_cen f !! 0 = Some c0 ∧
  m ∈ f2c ∧ (∀ c, c ∈ f2c → c ≤ m) ∧
  build_coarse_graph f f2c = Ok g ∧ inv2 (S m) (length c0) (S m) vol cen0 g ms ∧
  length vol = S m ∧ ∀ c, c ≤ m → vol !! c = Some (wsum_l (omap (λ x, fg_vol f !! x) (fine_of f2c c))).
Proof using HF.
  assert (wp (build_coarse_graph f f2c) (λ g, ∃ m c0 ms vol cen0, fg_cen f !! 0 = Some c0 ∧
    m ∈ f2c ∧ (∀ c, c ∈ f2c → c ≤ m) ∧ inv2 (S m) (length c0) (S m) vol cen0 g ms ∧
    length vol = S m ∧ ∀ c, c ≤ m → vol !! c = Some (wsum_l (omap (λ x, fg_vol f !! x) (fine_of f2c c))))) as Hw.
  2:{ apply wp_eq in Hw as (g & He & m & c0 & ms & vol & cen0 & ? & ? & ? & ? & ? & ?).
      exists m, c0, g, ms, vol, cen0. done. }
  pose proof (ff_pos _ _ HF) as Hpos.
  unfold build_coarse_graph. wstep. eapply wp_mono; [apply list_max_elt_ok; intros Hnil; rewrite Hnil in Hpos; simpl in Hpos; lia|].
  intros m [Hm Hall]. wstep. apply wp_vget; [by rewrite (ff_cen _ _ HF)|]. intros c0 Hc0.
  wstep. eapply wp_mono; [eapply (step1_ok (S m)); [done|done|]|].
  { intros c Hc%Hall. lia. }
  intros [[c2f vol] cen] []. simpl in *.
  eapply wp_mono; [eapply (step2_ok (S m) (length c0)); done|]. intros g [ms HI].
  exists m, c0, ms, vol, cen. split_and!; try done. intros c Hc. apply i1_vol_at0. lia.
Qed.

End coarse.
