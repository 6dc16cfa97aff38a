(** * LineT: which cells are anisotropic and how lines are built (C42-C44) *)

From Verif Require Export LinesP TagM SpecLine SpecNum SpecHash.
From Verif Require Import MainP ApiP ApiT SpecSub SpecFeat SubT.

Section ord.
Context {A : Arith} {N : W → Prop} (WO : weak_order (@wlt A) N).
Implicit Types (w m : W) (p q : nat * W).

Lemma wlt_irr w : N w → wlt w w = false.
Proof using WO. by apply (wo_irr _ _ WO). Qed.
Lemma wlt_tr a b c : N a → N b → N c → wlt a b = true → wlt b c = true → wlt a c = true.
Proof using WO. by apply (wo_tr _ _ WO). Qed.
Lemma wlt_neg a b c : N a → N b → N c → wlt a b = false → wlt b c = false → wlt a c = false.
Proof using WO.
  intros Na Nb Nc H1 H2. destruct (wlt a c) eqn:Hac; [|done].
  destruct (wo_neg _ _ WO a b c); try done; congruence.
Qed.
Lemma wlt_asym a b : N a → N b → wlt a b = true → wlt b a = false.
Proof using WO.
  intros Na Nb H1. destruct (wlt b a) eqn:H2; [|done]. pose proof (wlt_tr _ _ _ Na Nb Na H1 H2) as H.
  by rewrite wlt_irr in H.
Qed.

Lemma fold_greatest l m : N m → (∀ x, x ∈ l → N x) →
  greatest (λ w, w = m ∨ w ∈ l) (foldl (λ m x, if wlt m x then x else m) m l).
Proof using WO.
  revert m. induction l as [|x l IH]; intros m Nm Nl; simpl.
  { split; [by left|]. intros w [->|Hw]; [by apply wlt_irr|by apply elem_of_nil in Hw]. }
  assert (N x) as Nx by (apply Nl; left). assert (∀ y, y ∈ l → N y) as Nl' by (intros y Hy; apply Nl; by right).
  assert (N (if wlt m x then x else m)) as Nx' by (by destruct (wlt m x)).
  destruct (IH (if wlt m x then x else m)) as [H1 H2]; [done..|].
  assert (N (foldl (λ m x, if wlt m x then x else m) (if wlt m x then x else m) l)) as Nf.
  { destruct H1 as [->|H1]; [done|by apply Nl']. }
  split.
  - destruct H1 as [->|H1]; [|by right; right]. destruct (wlt m x); [right; left|by left].
  - intros w Hw.
    assert (wlt (if wlt m x then x else m) m = false ∧ wlt (if wlt m x then x else m) x = false) as [Hm Hx].
    { destruct (wlt m x) eqn:Hmx; [|by rewrite wlt_irr]. split; [by apply wlt_asym|by apply wlt_irr]. }
    pose proof (H2 _ (or_introl eq_refl)) as H3.
    destruct Hw as [->|Hw]; [by apply (wlt_neg _ (if wlt m x then x else m))|].
    apply elem_of_cons in Hw as [->|Hw]; [by apply (wlt_neg _ (if wlt m x then x else m))|]. apply H2. by right.
Qed.
Lemma fold_least l m : N m → (∀ x, x ∈ l → N x) →
  least (λ w, w = m ∨ w ∈ l) (foldl (λ m x, if wlt x m then x else m) m l).
Proof using WO.
  revert m. induction l as [|x l IH]; intros m Nm Nl; simpl.
  { split; [by left|]. intros w [->|Hw]; [by apply wlt_irr|by apply elem_of_nil in Hw]. }
  assert (N x) as Nx by (apply Nl; left). assert (∀ y, y ∈ l → N y) as Nl' by (intros y Hy; apply Nl; by right).
  assert (N (if wlt x m then x else m)) as Nx' by (by destruct (wlt x m)).
  destruct (IH (if wlt x m then x else m)) as [H1 H2]; [done..|].
  assert (N (foldl (λ m x, if wlt x m then x else m) (if wlt x m then x else m) l)) as Nf.
  { destruct H1 as [->|H1]; [done|by apply Nl']. }
  split.
  - destruct H1 as [->|H1]; [|by right; right]. destruct (wlt x m); [right; left|by left].
  - intros w Hw.
    assert (wlt m (if wlt x m then x else m) = false ∧ wlt x (if wlt x m then x else m) = false) as [Hm Hx].
    { destruct (wlt x m) eqn:Hmx; [|by rewrite wlt_irr]. split; [by apply wlt_asym|by apply wlt_irr]. }
    pose proof (H2 _ (or_introl eq_refl)) as H3.
    destruct Hw as [->|Hw]; [by apply (wlt_neg _ (if wlt x m then x else m))|].
    apply elem_of_cons in Hw as [->|Hw]; [by apply (wlt_neg _ (if wlt x m then x else m))|]. apply H2. by right.
Qed.

(** The first element of an ordered set of pairs. *)
Definition top (P : nat → W → Prop) (s : list (nat * W)) : Prop :=
  match s with
  | [] => ∀ y w, ¬ P y w
  | (c, w) :: _ => P c w ∧ ∀ y' w', P y' w' → wlt w' w = true ∨ wlt w w' = false ∧ c ≤ y'
  end.
Lemma top_ext (P Q : nat → W → Prop) s : (∀ y w, P y w ↔ Q y w) → top P s → top Q s.
Proof.
  intros HPQ. destruct s as [|[c w] s]; simpl; [by setoid_rewrite HPQ|]. by setoid_rewrite HPQ.
Qed.
Lemma top_insert (P : nat → W → Prop) s c w : N w → (∀ y v, P y v → N v) →
  top P s → top (λ y v, P y v ∨ y = c ∧ v = w) (pset_insert (c, w) s).
Proof using WO.
  intros Nw NP. destruct s as [|[d v] s]; simpl.
  { intros HP. split; [by right|]. intros y' w' [?|[-> ->]]; [by destruct (HP y' w')|].
    right. split; [by apply wlt_irr|lia]. }
  intros [HP Hb]. pose proof (NP _ _ HP) as Nv. unfold pair_gt. simpl.
  destruct (wlt v w) eqn:Hvw.
  { (* the new one is greater *)
    split; [by right|]. intros y' w' [H'|[-> ->]].
    - pose proof (NP _ _ H') as Nw'. left. destruct (Hb _ _ H') as [H1|[H1 _]]; [by apply (wlt_tr _ v)|].
      destruct (wo_neg _ _ WO v w' w); try done. congruence.
    - right. split; [by apply wlt_irr|lia]. }
  destruct (wlt w v) eqn:Hwv.
  { split; [by left|]. intros y' w' [H'|[-> ->]]; [by apply Hb|by left]. }
  case_bool_decide as Hcd.
  { split; [by right|]. intros y' w' [H'|[-> ->]].
    - pose proof (NP _ _ H') as Nw'. destruct (Hb _ _ H') as [H1|[H1 H2]].
      + left. destruct (wo_neg _ _ WO w' w v); try done. congruence.
      + right. split; [by apply (wlt_neg _ v)|lia].
    - right. split; [by apply wlt_irr|lia]. }
  assert (top (λ y w0, P y w0 ∨ y = c ∧ w0 = w) ((d, v) :: s)) as Ht.
  { split; [by left|]. intros y' w' [H'|[-> ->]]; [by apply Hb|]. right. split; [done|lia]. }
  case_bool_decide; done.
Qed.
Lemma top_preferred (P : nat → W → Prop) s :
  top P s → match s with [] => ∀ y, ¬ preferred P y | (c, _) :: _ => preferred P c end.
Proof.
  destruct s as [|[c w] s]; simpl.
  - intros Hn y (w & Hw & _). by apply (Hn y w).
  - intros [H1 H2]. by exists w.
Qed.
End ord.

Section vec.
Context {A : Arith}.
Implicit Types a b dir : list W.

Lemma sqd_acc_sum acc a b : length a ≤ length b →
  sqd_acc acc a b = Ok (foldl (λ s d, wadd s (wmul d d)) acc (zip_with wsub a b)).
Proof.
  revert acc b. induction a as [|x a IH]; intros acc [|y b]; simpl; intros Hl; [done..|lia|]. apply IH. lia.
Qed.
Lemma sqdist_sqd a b : length a ≤ length b → sqdist a b = Ok (sqd a b).
Proof. apply sqd_acc_sum. Qed.
Lemma dot_acc_sum acc a b : length a ≤ length b →
  dot_acc acc a b = Ok (foldl wadd acc (zip_with wmul a b)).
Proof.
  revert acc b. induction a as [|x a IH]; intros acc [|y b]; simpl; intros Hl; [done..|lia|]. apply IH. lia.
Qed.
Lemma dot_scalar a b : length a ≤ length b → dot_product a b = Ok (scalar a b).
Proof. apply dot_acc_sum. Qed.
Lemma dir_diff_eq a b : length a ≤ length b → dir_diff a b = Ok (zip_with (λ x y, wsub y x) a b).
Proof.
  revert b. induction a as [|x a IH]; intros [|y b]; simpl; intros Hl; [done..|lia|]. rewrite IH by lia. done.
Qed.
Lemma get_direction_unit a b dir : length a = length b → length a = length dir →
  get_direction a b dir = Ok (unit_vec a b).
Proof.
  intros Hb Hd. unfold get_direction. rewrite dir_diff_eq by lia. rewrite bind_ok.
  rewrite decide_True by (rewrite zip_with_length; lia).
  rewrite (drop_ge dir) by (rewrite zip_with_length; lia). rewrite app_nil_r. done.
Qed.
Lemma unit_vec_length a b : length a = length b → length (unit_vec a b) = length a.
Proof. intros. unfold unit_vec. rewrite fmap_length, zip_with_length. lia. Qed.
End vec.

Lemma diff_cons (F : gset nat) y l : F ∖ {[y]} ∖ list_to_set l = F ∖ list_to_set (y :: l).
Proof. apply set_eq. intros x. rewrite list_to_set_cons. set_solver. Qed.

Section tag.
Context {A : Arith} {H : HashOrder} {N : W → Prop} (WO : weak_order (@wlt A) N).
Context (g : graph) (prio : list W) (WF : wfg g) (WD : wfd g prio).
Context (Hcompl : ∀ c, c ∈ g_compl g → c < g_n g).
Context (dimc : nat) (Hdim : ∀ k c, g_cen g !! k = Some c → length c = dimc).
Notation n := (g_n g).
Notation row := (g_row g).
Notation col := (g_col g).
Notation val := (g_val g).
Notation cen := (g_cen g).
Notation ctr := (centre cen).

Lemma cen_ctr x : x < n → vget cen x = Ok (ctr x) ∧ length (ctr x) = dimc.
Proof using WD Hdim.
  intros Hx. destruct (lookup_lt_is_Some_2 cen x) as [c Hc]; [by rewrite (wd_cen _ _ WD)|].
  unfold centre. rewrite Hc. split; [by apply vget_ok|]. simpl. eauto.
Qed.

Lemma rows_apart x y a b : x < y → y < n → row !! x = Some a → row !! y = Some b → a + length (adj g x) ≤ b.
Proof using WF.
  intros Hxy Hy Ha Hb. destruct (row_some g WF (S x)) as [c Hc]; [lia|].
  assert (a + length (adj g x) = c) as ->.
  { unfold adj. rewrite Ha, Hc. pose proof (csr_mono _ _ _ (wg_csr _ WF) _ _ _ Ha Hc).
    pose proof (row_le_len g WF _ _ Hc). rewrite slice_length by done. lia. }
  clear Ha. assert (∃ d, y = S x + d) as [d ->] by (exists (y - S x); lia).
  clear Hxy. revert b Hb Hy. induction d as [|d IH]; intros b Hb Hy.
  - rewrite Nat.add_0_r in Hb. by simplify_eq.
  - destruct (row_some g WF (S x + d)) as [e He]; [lia|]. rewrite (IH e) by (done || lia).
    rewrite Nat.add_succ_r in Hb. by eapply csr_mono; [apply WF|..].
Qed.

Lemma coup_vals x : x < n → couplings row col val cen true x =
  zip (adj g x) ((λ y, wdiv w1 (sqd (ctr x) (ctr y))) <$> adj g x).
Proof.
  intros Hx. unfold couplings. change (nb_list row col x) with (adj g x). generalize (adj g x) as l.
  induction l as [|y l IH]; [done|]. rewrite !fmap_cons, IH. done.
Qed.

Definition inv_sq (x y : nat) : W := wdiv w1 (sqd (ctr x) (ctr y)).
(** Couplings by distance are among the numbers [N]. *)
Definition dists_in : Prop := ∀ x y, x < n → y ∈ adj g x → N (inv_sq x y).
(** Row [x] of the array of couplings. *)
Definition row_is (alt : list W) (x : nat) : Prop :=
  ∀ off k y, row !! x = Some off → adj g x !! k = Some y → alt !! (off + k) = Some (inv_sq x y).

Lemma inv_dists_spec i alt : N w0 → dists_in → i < n → length alt = length val →
  wp (inv_dists g i alt) (λ r, length r.1 = length val ∧ row_is r.1 i ∧
    (∀ x, x < n → x ≠ i → row_is alt x → row_is r.1 x) ∧
    greatest (λ w, w = w0 ∨ w ∈ inv_sq i <$> adj g i) r.2).
Proof using WF WD WO Hdim.
  clear Hcompl. intros N0 ND Hi Hal. unfold inv_dists. destruct (row_off g WF i Hi) as (off & Hoff & Hle).
  rewrite (vget_ok _ _ _ Hoff), bind_ok, (nbrs_ok g WF) by done. rewrite bind_ok.
  destruct (cen_ctr i Hi) as [-> Hci]. rewrite bind_ok.
  wstep. eapply wp_mono.
  { apply (wp_foldM _ (λ (pre : list nat) '((alt', m, pos) : list W * W * nat),
      length alt' = length val ∧ pos = off + length pre ∧
      (∀ k y, pre !! k = Some y → alt' !! (off + k) = Some (inv_sq i y)) ∧
      (∀ p, p < off ∨ off + length pre ≤ p → alt' !! p = alt !! p) ∧
      m = foldl (λ m x, if wlt m x then x else m) w0 (inv_sq i <$> pre))).
    { split_and!; [done|simpl; lia|by intros k y|done|done]. }
    intros pre x post [[alt' m] pos] Heq (Hl & -> & Hpre & Hout & ->).
    assert (x ∈ adj g i) as Hx by (rewrite Heq; set_solver).
    destruct (cen_ctr x) as [-> Hcx]; [by eapply adj_lt|]. rewrite bind_ok.
    rewrite sqdist_sqd by lia. rewrite bind_ok. fold (inv_sq i x). wstep.
    rewrite Heq, app_length in Hle. simpl in Hle. rewrite (wg_val _ WF) in Hl.
    apply wp_vset; [lia|]. simpl. rewrite insert_length, app_length. simpl. split_and!.
    - by rewrite (wg_val _ WF).
    - lia.
    - intros k y. rewrite lookup_app. destruct (pre !! k) as [y'|] eqn:Hk.
      + intros [= <-]. apply lookup_lt_Some in Hk as Hk'. rewrite list_lookup_insert_ne by lia. by apply Hpre.
      + apply lookup_ge_None in Hk. destruct (k - length pre) as [|j] eqn:Hj; simpl; [|done].
        intros [= <-]. replace k with (length pre) by lia. apply list_lookup_insert. lia.
    - intros p Hp. rewrite list_lookup_insert_ne by lia. apply Hout. lia.
    - rewrite fmap_app, foldl_app. done. }
  intros [[alt' m] pos] (Hl & _ & Hin & Hout & ->). simpl. split_and!.
  - done.
  - intros off' k y Ho. rewrite Hoff in Ho. simplify_eq. apply Hin.
  - intros x Hx Hne Hold off' k y Ho Hk. rewrite Hout; [by apply Hold|].
    apply lookup_lt_Some in Hk. destruct (decide (x < i)).
    + left. pose proof (rows_apart x i _ _ ltac:(done) Hi Ho Hoff). lia.
    + right. pose proof (rows_apart i x _ _ ltac:(lia) Hx Hoff Ho). lia.
  - apply (fold_greatest WO); [done|]. intros w Hw. apply elem_of_list_fmap in Hw as (y & -> & Hy). by apply ND.
Qed.

Lemma minmax_weight_spec i : i < n →
  minmax_weight g i = Ok (foldl (λ m x, if wlt x m then x else m) wmaxv (faces_to row col val (λ y, y ≠ i) i),
    foldl (λ m x, if wlt m x then x else m) w0 (faces_to row col val (λ y, y ≠ i) i)).
Proof using WF.
  intros Hi. unfold minmax_weight. rewrite (nbrs_wgts_ok g WF), bind_ok by done.
  unfold faces_to. rewrite (entries_adj g). f_equal.
  generalize (zip (adj g i) (adjw g i)) as l. intros l. generalize (@wmaxv A) as mn. generalize (@w0 A) as mx.
  induction l as [|[y w] l IH]; intros mx mn; [done|]. simpl. rewrite filter_cons. cbn [fst].
  case_bool_decide as Hy.
  - rewrite decide_True by done. cbn [fmap list_fmap foldl snd]. apply IH.
  - rewrite decide_False by naive_solver. apply IH.
Qed.
Context (N0 : N w0) (Nmax : N wmaxv) (Nval : ∀ w, w ∈ val → N w).

Lemma entries_in x y w : (y, w) ∈ entries row col val x → N w.
Proof using Nval.
  clear Hcompl. unfold entries. destruct (row !! x) as [a|]; [|by intros Hx%elem_of_nil].
  destruct (row !! S x) as [b|]; [|by intros Hx%elem_of_nil].
  intros Hx. assert ((y, w) ∈ zip col val) as Hz.
  { rewrite <- (take_drop a (zip col val)), <- (take_drop (b - a) (drop a (zip col val))).
    apply elem_of_app. right. apply elem_of_app. by left. }
  by apply Nval, (elem_of_zip_r y w col).
Qed.
Lemma faces_in (P : nat → Prop) `{∀ y, Decision (P y)} x w : w ∈ faces_to row col val P x → N w.
Proof using Nval.
  clear Hcompl. unfold faces_to. intros Hw. apply elem_of_list_fmap in Hw as ([y v] & -> & Hw).
  apply elem_of_list_filter in Hw as [_ Hw]. by eapply entries_in.
Qed.

Lemma minmax_right i mn mx : i < n → minmax_weight g i = Ok (mn, mx) →
  greatest (λ w, w = w0 ∨ w ∈ faces_to row col val (λ y, y ≠ i) i) mx ∧
  least (λ w, w = wmaxv ∨ w ∈ faces_to row col val (λ y, y ≠ i) i) mn.
Proof using WF WO N0 Nmax Nval.
  intros Hi. rewrite minmax_weight_spec by done. intros [= <- <-].
  split; [apply (fold_greatest WO)|apply (fold_least WO)]; try done; intros w Hw; by eapply faces_in.
Qed.


Context (HT : ∀ a b : W, N a → N b → wlt a b = false → wlt b a = false → a = b).
Lemma greatest_uniq (P : W → Prop) m m' : (∀ w, P w → N w) → greatest P m → greatest P m' → m = m'.
Proof using HT. intros NP [H1 H2] [H3 H4]. apply HT; auto. Qed.
Lemma least_uniq (P : W → Prop) m m' : (∀ w, P w → N w) → least P m → least P m' → m = m'.
Proof using HT. intros NP [H1 H2] [H3 H4]. apply HT; auto. Qed.
Context (thr0 : W).
Notation thr := (ratio_limit thr0).
Implicit Types ap : aniso_params.

Definition tagged (i : nat) : Prop :=
  wlt thr w0 = true ∨ ∃ a, face_ratio row col val (g_2d g) i a ∧ wle thr a = true.
Lemma tagged_by i mn mx : i < n → wlt thr w0 = false → minmax_weight g i = Ok (mn, mx) →
  tagged i ↔ wle thr (compute_AR g mn mx) = true.
Proof using WF WO HT N0 Nmax Nval.
  intros Hi Ht Hm. destruct (minmax_right i mn mx Hi Hm) as [Hmx Hmn]. unfold tagged. split.
  - intros [?|(a & (mx' & mn' & H1 & H2 & ->) & Ha)]; [congruence|].
    assert (mx' = mx) as ->.
    { eapply greatest_uniq; [|done..]. intros w [->|Hw]; [done|by eapply faces_in]. }
    assert (mn' = mn) as ->.
    { eapply least_uniq; [|done..]. intros w [->|Hw]; [done|by eapply faces_in]. }
    done.
  - intros Ha. right. exists (compute_AR g mn mx). split; [|done]. by exists mx, mn.
Qed.

Definition stays (pv : Z) (x : nat) : Prop :=
  wlt thr w0 = true ∨ kept row col (g_bnd g) pv x.

Lemma nb_others_eq i : i < n → nb_others g i = Ok (Z.of_nat (length (filter (λ y, y ≠ i) (nb_list row col i)))).
Proof using WF.
  clear Hcompl. intros Hi. unfold nb_others. rewrite (nbrs_ok g WF), bind_ok, (nb_nbrs_ok g WF), bind_ok by done. f_equal.
  change (nb_list row col i) with (adj g i). generalize (adj g i) as l. intros l.
  assert (∀ d : Z, foldl (λ (k : Z) n, if bool_decide (n ≠ i) then k else (k - 1)%Z) (Z.of_nat (length l) + d)%Z l
    = (Z.of_nat (length (filter (λ y, y ≠ i) l)) + d)%Z) as Hg.
  { induction l as [|y l IH]; intros d; [done|]. cbn [foldl length]. rewrite filter_cons. case_bool_decide as Hy.
    - rewrite decide_True by done. cbn [length]. rewrite !Nat2Z.inj_succ.
      replace (Z.succ (Z.of_nat (length l)) + d)%Z with (Z.of_nat (length l) + (d + 1))%Z by lia. rewrite IH. lia.
    - rewrite decide_False by naive_solver. rewrite <- IH. f_equal. lia. }
  specialize (Hg 0%Z). rewrite !Z.add_0_r in Hg. done.
Qed.
Lemma tag_keep_iff pv i b : i < n →
  tag_keep pv g i (Z.of_nat (length (filter (λ y, y ≠ i) (nb_list row col i)))) = Ok b →
  b = true ↔ kept row col (g_bnd g) pv i.
Proof using.
  clear Hcompl. intros Hi. unfold tag_keep, kept, layer_faces, is_on_boundary, n_bnd. case_bool_decide as Hp.
  - intros Hok. apply bind_Ok_inv in Hok as (b' & Hb & [= <-]). apply bind_Ok_inv in Hb as (z & Hz & [= <-]).
    apply vget_inv in Hz. rewrite Hz. simpl. rewrite orb_true_iff, andb_true_iff, !bool_decide_eq_true.
    split; [|naive_solver lia]. intros [[? ?]|?] _; [left|right]; lia.
  - intros Hok. assert (b = true) as ->; [|naive_solver].
    case_bool_decide; [|congruence]. apply bind_Ok_inv in Hok as (b' & _ & [= <-]). done.
Qed.

(** What is known once the cells [pre] have been visited. *)
Record tag_inv pv ap (pre : list nat) (st : tag_state) : Prop := {
  ti_alt : ap_mindist ap = true → length st.1.1 = length val ∧ ∀ x, x ∈ pre → row_is st.1.1 x;
  ti_len : length st.1.2 = n;
  ti_mw : ∀ x, x ∈ pre → ∃ m, st.1.2 !! x = Some m ∧ max_coupling row col val cen (ap_mindist ap) thr0 x m;
  ti_good : good_pset prio st.2;
  ti_tag : ∀ x, x ∈ map fst st.2 ↔ x ∈ pre ∧ tagged x ∧ stays pv x;
}.

Lemma tag_cell_spec pv ap pre st i : i < n → i ∉ pre → (∀ x, x ∈ pre → x < n) →
  (ap_mindist ap = true → dists_in) →
  tag_inv pv ap pre st → okp (tag_cell_p pv ap g prio thr st i) (tag_inv pv ap (pre ++ [i])).
Proof using WF WD WO Hdim HT N0 Nmax Nval.
  clear Hcompl. intros Hi Hnin Hpre ND HI. destruct st as [[alt mw] aw]. unfold tag_cell_p.
  apply okp_bind.
  eapply (okp_mono _ (λ aw' : list (nat * W), good_pset prio aw' ∧
    ∀ x, x ∈ map fst aw' ↔ x ∈ pre ++ [i] ∧ tagged x ∧ stays pv x)).
  { assert (tagged i → stays pv i → okp (p ← vget prio i; Ok (pset_insert (i, p) aw)) (λ aw' : list (nat * W), good_pset prio aw' ∧
      ∀ x, x ∈ map fst aw' ↔ x ∈ pre ++ [i] ∧ tagged x ∧ stays pv x)) as Hins.
    { intros Hti Hsi. apply okp_bind, okp_vget. intros w Hw. simpl. split.
      - apply good_insert; [apply WD|done|apply HI].
      - intros x. rewrite pset_insert_fst, (ti_tag _ _ _ _ HI), elem_of_app, elem_of_list_singleton. simpl.
        naive_solver. }
    destruct (wlt thr w0) eqn:Ht; [by apply Hins; left|].
    destruct (minmax_weight g i) as [[mn mx]|] eqn:Hm; [|done]. rewrite bind_ok. cbn [fst snd].
    pose proof (tagged_by i mn mx Hi Ht Hm) as Hti.
    rewrite nb_others_eq, bind_ok by done. pose proof (ti_tag _ _ _ _ HI) as Haw. simpl in Haw.
    destruct (wle thr (compute_AR g mn mx)).
    - apply okp_bind, okp_eq. intros b Hb. apply tag_keep_iff in Hb; [|done].
      destruct b; [apply Hins; [by apply Hti|right; by apply Hb]|]. simpl. split; [apply HI|].
      intros x. rewrite (Haw x), elem_of_app, elem_of_list_singleton. split; [naive_solver|].
      intros ([Hx| ->] & H1 & H2); [done|]. destruct H2; [congruence|]. naive_solver.
    - simpl. split; [apply HI|].
      intros x. rewrite (Haw x), elem_of_app, elem_of_list_singleton. naive_solver. }
  intros aw' [Hgood Htag]. pose proof (ti_mw _ _ _ _ HI) as Hmw. pose proof (ti_len _ _ _ _ HI) as Hlen. simpl in Hmw, Hlen.
  destruct (ap_mindist ap) eqn:Hmd.
  - destruct (ti_alt _ _ _ _ HI Hmd) as [Hal Hrows]. simpl in Hal, Hrows.
    apply okp_bind. eapply okp_mono; [apply wp_okp, inv_dists_spec; auto|].
    intros [alt' m] (Hl & Hri & Hro & Hg). simpl in *. apply okp_bind, okp_vset. intros _. simpl.
    split; simpl; [|by rewrite insert_length| |done|done].
    + intros _. split; [done|]. intros x Hx. apply elem_of_app in Hx as [Hx|Hx].
      * apply Hro; [by apply Hpre|by intros ->|by apply Hrows].
      * by apply elem_of_list_singleton in Hx as ->.
    + intros x Hx. apply elem_of_app in Hx as [Hx|Hx].
      * rewrite list_lookup_insert_ne by (by intros ->). rewrite Hmd. by apply Hmw.
      * apply elem_of_list_singleton in Hx as ->. exists m. rewrite list_lookup_insert by lia. split; [done|].
        rewrite Hmd. unfold max_coupling. rewrite coup_vals by done.
        rewrite snd_zip by (by rewrite fmap_length). done.
  - apply okp_bind. eapply (okp_mono _ (max_coupling row col val cen false thr0 i)).
    { unfold max_coupling, couplings. destruct (wlt thr w0) eqn:Ht.
      - rewrite (wgts_ok g WF), bind_ok by done. rewrite (entries_adj g), snd_zip by (by rewrite adjw_length).
        destruct (adjw g i) as [|w l] eqn:Hadj; [done|]. simpl.
        assert (∀ v, v ∈ w :: l → N v) as Nl.
        { intros v Hv. destruct (elem_of_list_lookup_1 _ _ Hv) as [k Hk]. rewrite <- Hadj in Hk.
          destruct (lookup_lt_is_Some_2 (adj g i) k) as [y Hy]; [rewrite <- adjw_length by done; by eapply lookup_lt_Some|].
          apply (entries_in i y). rewrite (entries_adj g). apply elem_of_list_lookup. exists k.
          apply lookup_zip_with_Some. by exists y, v. }
        destruct (fold_greatest WO l w) as [H1 H2]; [apply Nl; left|intros v Hv; apply Nl; by right|]. split.
        + destruct H1 as [->|H1]; [left|by right].
        + intros v Hv. apply H2. apply elem_of_cons in Hv as [->|Hv]; auto.
      - destruct (minmax_weight g i) as [[mn mx]|] eqn:Hm; [|done]. simpl. by apply (minmax_right i mn mx). }
    intros m Hm. apply okp_bind, okp_vset. intros _. simpl.
    split; simpl; [by rewrite Hmd|by rewrite insert_length| |done|done].
    intros x Hx. apply elem_of_app in Hx as [Hx|Hx].
    + rewrite list_lookup_insert_ne by (by intros ->). rewrite Hmd. by apply Hmw.
    + apply elem_of_list_singleton in Hx as ->. exists m. rewrite list_lookup_insert by lia. by rewrite Hmd.
Qed.

Record tag_res pv ap (alt mw : list W) (tr : list bool) (seeds : list nat) : Prop := {
  tr_ws : ∀ x, x ∈ g_compl g →
    nbrs_ref g (if ap_mindist ap then alt else val) x = Ok (couplings row col val cen (ap_mindist ap) x);
  tr_mw : ∀ x, x ∈ g_compl g → ∃ m, mw !! x = Some m ∧ max_coupling row col val cen (ap_mindist ap) thr0 x m;
  tr_sorted : prio_sorted prio seeds;
  tr_nd : NoDup seeds;
  tr_in : ∀ x, x ∈ seeds ↔ x ∈ g_compl g ∧ tagged x ∧ stays pv x;
  tr_tt : ∀ x, tr !! x = Some true ↔ x ∈ seeds;
  tr_tl : length tr = n;
  tr_alt : ap_mindist ap = true → length alt = length val ∧ ∀ x, x ∈ g_compl g → row_is alt x;
}.
Lemma tag_spec pv ap alt mw tr seeds : (ap_mindist ap = true → dists_in) →
  tag_anisotropic_cells_p pv ap g prio thr = Ok (alt, mw, tr, seeds) →
  tag_res pv ap alt mw tr seeds.
Proof using WF WD WO Hdim HT Hcompl N0 Nmax Nval.
  intros ND. unfold tag_anisotropic_cells_p. intros Hok. apply bind_Ok_inv in Hok as ([[alt' mw'] aw] & Hf & Hok).
  apply bind_Ok_inv in Hok as (ia & Hia & [= -> -> -> <-]).
  assert (okp (foldM (tag_cell_p pv ap g prio thr) (hset s_tag (g_compl g))
    ((if ap_mindist ap then replicate (length val) w0 else []), replicate n w0, []))
    (tag_inv pv ap (hset s_tag (g_compl g)))) as HI.
  { apply okp_foldM.
    { split; simpl.
      - intros ->. rewrite replicate_length. split; [done|]. intros x Hx. by apply elem_of_nil in Hx.
      - by rewrite replicate_length.
      - intros x Hx. by apply elem_of_nil in Hx.
      - apply good_nil.
      - set_solver. }
    intros pre i post st Heq HI. pose proof (NoDup_hset s_tag (g_compl g)) as Hnd. rewrite Heq in Hnd.
    assert (∀ x, x ∈ pre ++ i :: post → x < n) as Hlt.
    { intros x. rewrite <- Heq, elem_of_hset. apply Hcompl. }
    apply NoDup_app in Hnd as (_ & Hnd & _).
    apply tag_cell_spec; [apply Hlt; set_solver| |intros x Hx; apply Hlt; set_solver|done|done].
    intros Hin. apply (Hnd _ Hin). left. }
  assert (okp (foldM (λ v i, vset v i true) (map fst aw) (replicate n false))
    (λ ia : list bool, length ia = n ∧ ∀ x, ia !! x = Some true ↔ x ∈ map fst aw)) as Htr.
  { apply (okp_foldM _ (λ (pre : list nat) (ia : list bool), length ia = n ∧ ∀ x, ia !! x = Some true ↔ x ∈ pre)).
    { rewrite replicate_length. split; [done|]. intros x. rewrite lookup_replicate.
      split; [by intros [? _]|intros Hx; by apply elem_of_nil in Hx]. }
    intros pre x post v _ [Hl Hv]. apply okp_vset. intros Hx. rewrite insert_length. split; [done|].
    intros y. rewrite elem_of_app, elem_of_list_singleton, <- Hv. destruct (decide (y = x)) as [->|Hne].
    - rewrite list_lookup_insert by done. naive_solver.
    - rewrite list_lookup_insert_ne by done. naive_solver. }
  rewrite Hia in Htr. simpl in Htr.
  rewrite Hf in HI. simpl in HI. destruct HI as [H1 H2 H3 H4 H5]. simpl in *.
  setoid_rewrite elem_of_hset in H3. setoid_rewrite elem_of_hset in H5. setoid_rewrite elem_of_hset in H1. split.
  - intros x Hx. pose proof (Hcompl x Hx) as Hxn. unfold nbrs_ref.
    destruct (row_off g WF x Hxn) as (off & Hoff & Hle).
    rewrite (vget_ok _ _ _ Hoff), bind_ok, (nbrs_ok g WF), bind_ok by done.
    destruct (ap_mindist ap).
    + destruct (H1 eq_refl) as [Hl Hr]. rewrite vrange_ok by (rewrite ?Hl, ?(wg_val _ WF); lia). rewrite bind_ok.
      rewrite coup_vals by done. do 2 f_equal. apply list_eq. intros k.
      destruct (decide (k < length (adj g x))) as [Hk|Hk].
      * destruct (lookup_lt_is_Some_2 _ _ Hk) as [y Hy].
        rewrite slice_lookup by lia. rewrite list_lookup_fmap, Hy. by apply Hr.
      * rewrite !lookup_ge_None_2; [done|rewrite fmap_length; lia|].
        rewrite slice_length by (rewrite ?Hl, ?(wg_val _ WF); lia). lia.
    + rewrite vrange_ok by (rewrite ?(wg_val _ WF); lia). rewrite bind_ok. unfold couplings. rewrite (entries_adj g).
      do 2 f_equal. destruct (row_some g WF (S x)) as [b Hb]; [lia|].
      assert (off + length (adj g x) = b) as ->; [|unfold adjw; by rewrite Hoff, Hb].
      unfold adj. rewrite Hoff, Hb. pose proof (csr_mono _ _ _ (wg_csr _ WF) _ _ _ Hoff Hb).
      pose proof (row_le_len g WF _ _ Hb). rewrite slice_length by done. lia.
  - done.
  - by eapply (good_prio_sorted prio).
  - by eapply good_NoDup; [apply WD|].
  - done.
  - apply Htr.
  - apply Htr.
  - done.
Qed.

Lemma tag_p_0 pv ap : pv ≠ 2%Z → pv ≠ 3%Z →
  tag_anisotropic_cells_p pv ap g prio thr = tag_anisotropic_cells ap g prio thr.
Proof using WF Hcompl.
  intros H2 H3. unfold tag_anisotropic_cells_p, tag_anisotropic_cells. apply bind_ext; [|done].
  apply foldM_ext. intros i [[alt mw] aw] Hi. apply elem_of_hset, Hcompl in Hi.
  unfold tag_cell_p, tag_cell. apply bind_ext; [|done]. destruct (wlt thr w0); [done|].
  apply bind_ext; [done|]. intros mm. rewrite nb_others_eq, bind_ok by done.
  unfold tag_keep. rewrite !bool_decide_false, bind_ok by done. done.
Qed.

(** Preserving boundary layers does not make the tagging fail. *)
Lemma tag_cell_p_total pv ap alt mw aw aw0 i st : i < n → tag_cell ap g prio thr (alt, mw, aw0) i = Ok st →
  ∃ aw', tag_cell_p pv ap g prio thr (alt, mw, aw) i = Ok (st.1, aw').
Proof using WF WD.
  clear Hcompl. intros Hi Hok. unfold tag_cell in Hok. apply bind_Ok_inv in Hok as (aw1 & _ & Hok).
  unfold tag_cell_p.
  destruct (lookup_lt_is_Some_2 prio i) as [w Hw]; [by rewrite (wd_prio _ _ WD)|].
  rewrite (vget_ok _ _ _ Hw), bind_ok.
  assert (∃ aw', (if wlt thr w0 then Ok (pset_insert (i, w) aw) else
          mm ← minmax_weight g i; k ← nb_others g i;
          if wle thr (compute_AR g mm.1 mm.2)
          then b ← tag_keep pv g i k; if b : bool then Ok (pset_insert (i, w) aw) else Ok aw
          else Ok aw) = Ok aw') as [aw' ->].
  { destruct (wlt thr w0); [by eexists|]. rewrite minmax_weight_spec, bind_ok, nb_others_eq, bind_ok by done.
    destruct (wle _ _); [|by eexists]. unfold tag_keep, is_on_boundary, n_bnd.
    destruct (lookup_lt_is_Some_2 (g_bnd g) i) as [z Hz]; [by rewrite (wd_bnd _ _ WD)|].
    rewrite (vget_ok _ _ _ Hz), !bind_ok.
    repeat case_bool_decide; simpl; try (by eexists); destruct (_ || _); by eexists. }
  rewrite bind_ok. exists aw'. destruct (ap_mindist ap).
  - apply bind_Ok_inv in Hok as (r & -> & Hok). rewrite bind_ok. apply bind_Ok_inv in Hok as (mw' & -> & [= <-]). done.
  - apply bind_Ok_inv in Hok as (r & -> & Hok). rewrite bind_ok. apply bind_Ok_inv in Hok as (mw' & -> & [= <-]). done.
Qed.

Lemma tag_p_total pv ap : tag_safe g ap thr →
  ∃ alt mw tr seeds, tag_anisotropic_cells_p pv ap g prio thr = Ok (alt, mw, tr, seeds).
Proof using WF WD WO Hdim HT Hcompl N0 Nmax Nval.
  intros Hsafe. pose proof (tag_anisotropic_ok g prio WF WD Hcompl dimc Hdim ap thr Hsafe) as Hw.
  apply wp_eq in Hw as ([[[alt0 mw0] tr0] seeds0] & Hok & _).
  unfold tag_anisotropic_cells in Hok. apply bind_Ok_inv in Hok as ([[alt mw] aw0] & Hf & _).
  assert (∀ l aw aw0 am st, (∀ x, x ∈ l → x < n) →
    foldM (tag_cell ap g prio thr) l (am, aw0) = Ok st →
    ∃ aw', foldM (tag_cell_p pv ap g prio thr) l (am, aw) = Ok (st.1, aw')) as Hgen.
  { clear alt0 mw0 tr0 seeds0 alt mw aw0 Hf Hsafe. induction l as [|i l IH]; intros aw aw0 [alt mw] st Hl Hok.
    - injection Hok as <-. by exists aw.
    - cbn [foldM] in Hok |- *. apply bind_Ok_inv in Hok as ([am1 aw1] & H1 & Hok).
      destruct (tag_cell_p_total pv ap alt mw aw aw0 i _ (Hl i (elem_of_list_here _ _)) H1) as [aw2 ->].
      rewrite bind_ok. simpl. eapply IH; [|done]. intros x Hx. apply Hl. by right. }
  destruct (Hgen _ [] _ _ _ (λ x Hx, Hcompl x (proj1 (elem_of_hset _ _ _) Hx)) Hf) as [aw Haw].
  assert (okp (foldM (tag_cell_p pv ap g prio thr) (hset s_tag (g_compl g))
    ((if ap_mindist ap then replicate (length val) w0 else []), replicate n w0, []))
    (λ st : tag_state, ∀ x, x ∈ map fst st.2 → x < n)) as HI.
  { apply (okp_foldM _ (λ _ (st : tag_state), ∀ x, x ∈ map fst st.2 → x < n)).
    { intros x Hx. by apply elem_of_nil in Hx. }
    intros pre i post [[alt1 mw1] aw1] Heq HI. simpl in HI.
    assert (i < n) as Hi. { apply Hcompl, (elem_of_hset s_tag). rewrite Heq. set_solver. }
    unfold tag_cell_p. apply okp_bind.
    assert (okp (p ← vget prio i; Ok (pset_insert (i, p) aw1))
      (λ aw' : list (nat * W), ∀ x, x ∈ map fst aw' → x < n)) as Hins.
    { apply okp_bind, okp_vget. intros w _. simpl. intros x. rewrite pset_insert_fst. naive_solver. }
    eapply (okp_mono _ (λ aw' : list (nat * W), ∀ x, x ∈ map fst aw' → x < n)).
    { destruct (wlt thr w0); [done|]. apply okp_bind, okp_eq. intros mm _. apply okp_bind, okp_eq. intros k _.
      destruct (wle _ _); [|done]. apply okp_bind, okp_eq. intros [] _; done. }
    intros aw' Haw'. destruct (ap_mindist ap); apply okp_bind, okp_eq; intros r _; apply okp_bind, okp_eq; done. }
  unfold tag_anisotropic_cells_p. rewrite Haw in HI |- *. rewrite bind_ok. simpl in HI |- *.
  assert (∃ ia, foldM (λ v i, vset v i true) (map fst aw) (replicate n false) = Ok ia) as [ia ->].
  { assert (∀ l (v : list bool), (∀ x, x ∈ l → x < length v) → ∃ ia, foldM (λ v i, vset v i true) l v = Ok ia) as Hg.
    { clear. induction l as [|x l IH]; intros v Hl; [by eexists|]. simpl.
      unfold vset. rewrite decide_True by (apply Hl; left). rewrite bind_ok. apply IH.
      intros y Hy. rewrite insert_length. apply Hl. by right. }
    apply Hg. intros x Hx. rewrite replicate_length. by apply HI. }
  rewrite bind_ok. by do 4 eexists.
Qed.

Section build.
Context (ap : aniso_params) (ws mw : list W).
Notation coup := (couplings row col val cen (ap_mindist ap)).
Notation maxc := (max_coupling row col val cen (ap_mindist ap) thr0).
Notation hcoup := (high_coupled row col val cen (ap_mindist ap) thr0).
Notation cont := (continued row col val cen (ap_mindist ap) thr0 (ap_force ap)).
Notation prol := (prolonged row col val cen (ap_mindist ap) thr0 (ap_force ap)).
Context (Hwl : length ws = length val) (Hml : length mw = n).
Context (Hws : ∀ x, x ∈ g_compl g → nbrs_ref g ws x = Ok (coup x)).
Context (Hmw : ∀ x, x ∈ g_compl g → ∃ m, mw !! x = Some m ∧ maxc x m).
Context (Ndist : ap_mindist ap = true → dists_in).
Context (Npos : ap_force ap = true → ∀ c, wlt w0 c = true → N c).
Implicit Types (F : gset nat) (tr : list bool).

Definition frees tr F : Prop := ∀ x, tr !! x = Some true ↔ x ∈ F.

Lemma coup_in x y w : x < n → (y, w) ∈ coup x → N w.
Proof using Nval Ndist.
  clear Hcompl Hws Hmw. intros Hx. unfold couplings. destruct (ap_mindist ap).
  - intros Hy. apply elem_of_list_fmap in Hy as (z & [= -> ->] & Hz). by apply Ndist.
  - apply entries_in.
Qed.
Lemma coup_in2 x w : x < n → w ∈ (coup x).*2 → N w.
Proof using Nval Ndist.
  clear Hcompl Hws Hmw. intros Hx Hw. apply elem_of_list_fmap in Hw as ([y v] & -> & Hw). by eapply coup_in.
Qed.
Lemma maxc_uniq x m m' : x < n → maxc x m → maxc x m' → m = m'.
Proof using HT N0 Nval Ndist.
  clear Hcompl Hws Hmw. intros Hx. pose proof (λ w, coup_in2 x w Hx) as HN.
  unfold max_coupling. destruct (ap_mindist ap); [|destruct (wlt thr w0)]; apply greatest_uniq.
  - intros w [->|Hw]; auto.
  - auto.
  - intros w [->|Hw]; [done|]. by eapply faces_in.
Qed.
Lemma high_iff x y w m : x < n → maxc x m → hcoup x y w ↔ (y, w) ∈ coup x ∧ is_high_coupling w m = true.
Proof using HT N0 Nval Ndist.
  intros Hx Hm. unfold high_coupled, is_high_coupling. split.
  - intros [H1 (m' & Hm' & H2)]. by rewrite (maxc_uniq x m m').
  - intros [H1 H2]. eauto.
Qed.
Lemma coup_fst x y : x < n → y ∈ nb_list row col x ↔ ∃ w, (y, w) ∈ coup x.
Proof using WF.
  clear Hcompl Hws Hmw Ndist Npos. intros Hx. unfold couplings. destruct (ap_mindist ap).
  - setoid_rewrite elem_of_list_fmap. split.
    + intros Hy. eexists. exists y. done.
    + intros (w & z & Heq & Hz). by simplify_eq.
  - rewrite (entries_adj g). change (nb_list row col x) with (adj g x).
    rewrite <- (fst_zip (adj g x) (adjw g x)) at 1 by (by rewrite adjw_length).
    rewrite elem_of_list_fmap. split.
    + intros ([y' w] & -> & Hin). eauto.
    + intros [w Hin]. by exists (y, w).
Qed.

Lemma cand_max_spec seed tr F : seed ∈ g_compl g → seed < n → frees tr F →
  okp (cand_max_weight g seed tr ws mw) (top (λ y w, y ∈ F ∧ hcoup seed y w)).
Proof using WO HT Hws Hmw N0 Nval Ndist.
  clear Hcompl. intros Hs Hsn HF. unfold cand_max_weight. rewrite (Hws _ Hs), bind_ok.
  destruct (Hmw _ Hs) as (m & Hm & Hmx).
  eapply okp_mono; [apply (okp_foldM _ (λ pre s, top (λ y w, (y, w) ∈ pre ∧ y ∈ F ∧ is_high_coupling w m = true) s))|].
  - simpl. intros y w [Hy _]. by apply elem_of_nil in Hy.
  - intros pre [y w] post s Heq HI. apply okp_bind, okp_vget. intros [] Ht.
    + rewrite (vget_ok _ _ _ Hm), bind_ok. simpl. destruct (is_high_coupling w m) eqn:Hh.
      * eapply top_ext; [|apply (top_insert WO); [| |done]].
        -- intros y' w'. simpl. rewrite elem_of_app, elem_of_list_singleton. apply HF in Ht. naive_solver.
        -- apply (coup_in seed y); [done|]. rewrite Heq. apply elem_of_app. right. left.
        -- simpl. intros y' w' [Hin _]. apply (coup_in seed y'); [done|]. rewrite Heq. apply elem_of_app. by left.
      * eapply top_ext; [|done]. intros y' w'. simpl.
        rewrite elem_of_app, elem_of_list_singleton. naive_solver congruence.
    + simpl. eapply top_ext; [|done]. intros y' w'. simpl. rewrite elem_of_app, elem_of_list_singleton.
      split; [naive_solver|]. intros ([Hin|Heq'] & H1 & H2); [done|]. simplify_eq. apply HF in H1. congruence.
  - intros cs. apply top_ext. intros y w. rewrite (high_iff seed y w m Hsn Hmx). naive_solver.
Qed.

Lemma cand_dir_spec seed tr F dir check : seed ∈ g_compl g → seed < n → frees tr F → length dir = dimc →
  (∀ x, x ∈ F → x < n) → ap_force ap = true →
  okp (cand_direction g seed tr ws mw dir check) (top (λ y c, y ∈ F ∧
    (if check then ∃ w, hcoup seed y w else y ∈ nb_list row col seed) ∧ aligned cen seed dir y c)).
Proof using WF WD Hdim WO HT Hws Hmw N0 Nval Ndist Npos.
  clear Hcompl Hwl Hml. intros Hs Hsn HF Hdir HFn Hforce. unfold cand_direction. rewrite (Hws _ Hs), bind_ok.
  destruct (Hmw _ Hs) as (m & Hm & Hmx).
  destruct (cen_ctr 0) as [-> Hc0]; [lia|]. rewrite bind_ok.
  eapply okp_mono; [apply (okp_foldM _ (λ pre s, top (λ y c, y ∈ F ∧
    (∃ w, (y, w) ∈ pre ∧ (check = true → is_high_coupling w m = true)) ∧ aligned cen seed dir y c) s))|].
  - simpl. intros y c (_ & (w & Hy & _) & _). by apply elem_of_nil in Hy.
  - intros pre [y w] post s Heq HI. apply okp_bind, okp_vget. intros [] Ht.
    + apply HF in Ht. assert (okp (if check then m0 ← vget mw seed; Ok (is_high_coupling w m0) else Ok true)
        (λ b, b = true ↔ (check = true → is_high_coupling w m = true))) as Hb.
      { destruct check; [|done]. rewrite (vget_ok _ _ _ Hm), bind_ok. simpl. naive_solver. }
      apply okp_bind. eapply okp_mono; [apply Hb|]. intros [] Hb'.
      * destruct (cen_ctr y) as [-> Hcy]; [by apply HFn|]. rewrite bind_ok.
        destruct (cen_ctr seed) as [-> Hcs]; [done|]. rewrite bind_ok.
        rewrite get_direction_unit by (rewrite ?replicate_length; lia). rewrite bind_ok.
        rewrite dot_scalar by (rewrite unit_vec_length; lia). rewrite bind_ok. simpl.
        set (dt := scalar dir (unit_vec (ctr y) (ctr seed))).
        destruct (wlt w0 dt && negb (dot_deviate dt)) eqn:Hd.
        -- eapply top_ext; [|apply (top_insert WO); [| |done]].
           2: { apply Npos; [done|]. by apply andb_true_iff in Hd as [Hd1 _]. }
           2: { simpl. intros y' c' (_ & _ & _ & Hc' & _). by apply Npos. }
           intros y' c'. simpl. apply andb_true_iff in Hd as [Hd1 Hd2]. apply negb_true_iff in Hd2. unfold dot_deviate in Hd2.
           setoid_rewrite elem_of_app. setoid_rewrite elem_of_list_singleton. split.
           ++ intros [(H1 & (w' & H2 & H3) & H4)|[-> ->]]; [naive_solver|].
              split_and!; [done|exists w; naive_solver|done].
           ++ intros (H1 & (w' & [H2|H2] & H3) & H4); [naive_solver|]. simplify_eq. right. split; [done|].
              destruct H4 as [-> _]. done.
        -- eapply top_ext; [|done]. intros y' c'. simpl.
           setoid_rewrite elem_of_app. setoid_rewrite elem_of_list_singleton. split; [naive_solver|].
           intros (H1 & (w' & [H2|H2] & H3) & H4); [naive_solver|]. simplify_eq.
           destruct H4 as (-> & H5 & H6). fold dt in H5, H6. unfold dot_deviate in Hd. rewrite H5, H6 in Hd. done.
      * eapply top_ext; [|done]. intros y' c'. simpl.
        setoid_rewrite elem_of_app. setoid_rewrite elem_of_list_singleton. split; [naive_solver|].
        intros (H1 & (w' & [H2|H2] & H3) & H4); [naive_solver|]. simplify_eq. by apply Hb' in H3.
    + simpl. eapply top_ext; [|done]. intros y' w'. simpl.
      setoid_rewrite elem_of_app. setoid_rewrite elem_of_list_singleton. split; [naive_solver|].
      intros (H1 & (w1 & [H2|H2] & H3) & H4); [naive_solver|]. simplify_eq. apply HF in H1. congruence.
  - intros cs. apply top_ext. intros y c. destruct check.
    + setoid_rewrite (λ w, high_iff seed y w m Hsn Hmx). naive_solver.
    + rewrite coup_fst by done. naive_solver.
Qed.

Definition dir_of (s : line_st) : option (list W) := if ls_empty s then None else Some (ls_dir s).

Lemma line_step_spec primal s F o : ls_seed s ∈ g_compl g → ls_seed s < n → frees (ls_tt s) F →
  length (ls_dir s) = dimc → (∀ x, x ∈ F → x < n) →
  line_step ap g ws mw primal s = Ok o →
  (∃ y s', cont F (ls_seed s) (dir_of s) y ∧ line_add g s y = Ok s' ∧ o = Some s') ∨
  (∀ y, ¬ cont F (ls_seed s) (dir_of s) y) ∧ line_turn primal s = Ok o.
Proof using WF WD Hdim WO HT Hws Hmw N0 Nval Ndist Npos.
  clear Hcompl Hwl Hml. intros Hs Hsn HF Hdir HFn Hst. unfold line_step in Hst. unfold continued, dir_of.
  pose proof (cand_max_spec (ls_seed s) _ F Hs Hsn HF) as Hmax.
  pose proof (cand_dir_spec (ls_seed s) _ F (ls_dir s) true Hs Hsn HF Hdir HFn) as Hd1.
  pose proof (cand_dir_spec (ls_seed s) _ F (ls_dir s) false Hs Hsn HF Hdir HFn) as Hd2.
  apply bind_Ok_inv in Hst as (cs & Hcs & Hst).
  destruct (ls_empty s) eqn:He.
  { rewrite orb_true_r in Hcs. rewrite Hcs in Hmax. simpl in Hmax. apply (top_preferred) in Hmax.
    rewrite andb_false_r in Hst. destruct cs as [|[c w] cs].
    - right. split; [|done]. destruct (ap_force ap); done.
    - left. apply bind_Ok_inv in Hst as (s' & Hs' & [= <-]). exists c, s'. split; [|done].
      destruct (ap_force ap); done. }
  rewrite orb_false_r, andb_true_r in *. destruct (ap_force ap); simpl in Hcs.
  - specialize (Hd1 eq_refl). specialize (Hd2 eq_refl). rewrite Hcs in Hd1. simpl in Hd1. destruct cs as [|[c w] cs].
    + apply bind_Ok_inv in Hst as (cs2 & Hcs2 & Hst). rewrite Hcs2 in Hd2. simpl in Hd2. apply top_preferred in Hd2.
      destruct cs2 as [|[c w] cs2].
      * right. split; [|done]. intros y [(c & Hc & _)|[_ Hp]]; [by apply (Hd1 y c)|by apply (Hd2 y)].
      * left. apply bind_Ok_inv in Hst as (s' & Hs' & [= <-]). exists c, s'. split; [|done]. right. done.
    + left. apply top_preferred in Hd1. apply bind_Ok_inv in Hst as (s' & Hs' & [= <-]). exists c, s'.
      split; [|done]. by left.
  - rewrite Hcs in Hmax. simpl in Hmax. apply top_preferred in Hmax. destruct cs as [|[c w] cs].
    + right. done.
    + left. apply bind_Ok_inv in Hst as (s' & Hs' & [= <-]). by exists c, s'.
Qed.

Lemma line_add_spec s y s' F : ls_seed s < n → y < n → length (ls_dir s) = dimc → frees (ls_tt s) F →
  line_add g s y = Ok s' →
  let u := unit_vec (ctr y) (ctr (ls_seed s)) in
  ls_seed s' = y ∧ ls_line s' = (if ls_opp s then y :: ls_line s else ls_line s ++ [y]) ∧
  frees (ls_tt s') (F ∖ {[y]}) ∧ ls_opp s' = ls_opp s ∧ ls_dir s' = u ∧
  ls_primal s' = Some (default u (ls_primal s)) ∧ ls_empty s' = false.
Proof using WD Hdim.
  clear Hcompl Hwl Hml Ndist Npos. intros Hs Hy Hdir HF. unfold line_add.
  destruct (cen_ctr y Hy) as [Hcy Hly], (cen_ctr (ls_seed s) Hs) as [Hcs Hls]. rewrite Hcy, Hcs.
  intros Hok. apply bind_Ok_inv in Hok as (tr & Htr & Hok). rewrite !bind_ok in Hok.
  rewrite get_direction_unit, bind_ok in Hok by lia. injection Hok as <-. simpl.
  apply vset_inv in Htr as [Htl ->]. split_and!; try done.
  - intros x. rewrite elem_of_difference, elem_of_singleton, <- (HF x).
    destruct (decide (x = y)) as [->|Hne]; [rewrite list_lookup_insert by done|rewrite list_lookup_insert_ne by done].
    + split; [done|]. tauto.
    + tauto.
  - by destruct (ls_primal s).
Qed.

Section one.
Context (tr0 : list bool) (primal : nat) (Htr0 : length tr0 = n) (Hpr : tr0 !! primal = Some true).
Context (Htc : ∀ x, tr0 !! x = Some true → x ∈ g_compl g).
Notation linv := (line_inv g dimc tr0 primal).

Lemma inv_seed s : linv s → ls_seed s ∈ g_compl g ∧ ls_seed s < n.
Proof using Htr0 Htc Hwl Hml Hws Hmw Ndist Npos.
  intros HI. split; [|by eapply line_seed_lt].
  apply Htc, (li_sub _ _ _ _ _ HI). pose proof (li_end _ _ _ _ _ HI) as He. destruct (ls_opp s).
  - destruct (ls_line s); simpl in *; simplify_eq. left.
  - destruct He as [He _]. by apply last_Some_elem_of.
Qed.
Lemma inv_free s F : linv s → frees (ls_tt s) F → ∀ x, x ∈ F → x < n.
Proof using Htr0 Hwl Hml Hws Hmw Ndist Npos.
  intros HI HF x Hx. apply HF, (li_tt _ _ _ _ _ HI) in Hx as [Hx _]. apply lookup_lt_Some in Hx. lia.
Qed.
Lemma inv_step s o s' : linv s → line_step ap g ws mw primal s = Ok o → o = Some s' → linv s'.
Proof using WF WD Hdim Hwl Hml Htr0 Hpr Hcompl Hws Hmw Ndist Npos.
  intros HI Hst ->.
  pose proof (line_step_ok g prio WF WD Hcompl dimc Hdim ap ws mw Hwl Hml tr0 primal Htr0 Hpr s HI) as Hw.
  rewrite Hst in Hw. simpl in Hw. by apply (Hw s' eq_refl).
Qed.
Lemma cont_in F x dir y : cont F x dir y → y ∈ F.
Proof using.
  clear. unfold continued. destruct dir as [d|], (ap_force ap); unfold preferred; naive_solver.
Qed.

Lemma loop_back fuel s s' F : linv s → ls_opp s = true → ls_empty s = false → frees (ls_tt s) F →
  line_loop fuel ap g ws mw primal s = Ok s' →
  ∃ bwd, prol F (ls_seed s) (Some (ls_dir s)) bwd ∧ ls_line s' = reverse bwd ++ ls_line s ∧
    frees (ls_tt s') (F ∖ list_to_set bwd).
Proof using WF WD Hdim WO HT N0 Nval Ndist Npos Hws Hmw Hwl Hml Htr0 Hpr Htc Hcompl.
  revert s F. induction fuel as [|fuel IH]; intros s F HI Hop Hem HF Hl; [done|]. simpl in Hl.
  apply bind_Ok_inv in Hl as (o & Hst & Hl). destruct (inv_seed s HI) as [Hsc Hsn].
  pose proof (inv_free s F HI HF) as HFn.
  destruct (line_step_spec primal s F o Hsc Hsn HF (li_dir _ _ _ _ _ HI) HFn Hst) as [(y & s1 & Hc & Ha & ->)|[Hn Ht]].
  - pose proof (inv_step _ _ _ HI Hst eq_refl) as HI1. pose proof (cont_in _ _ _ _ Hc) as Hy.
    destruct (line_add_spec s y s1 F Hsn (HFn y Hy) (li_dir _ _ _ _ _ HI) HF Ha) as (E1 & E2 & E3 & E4 & E5 & E6 & E7).
    rewrite Hop in E2, E4. destruct (IH s1 _ HI1 E4 E7 E3 Hl) as (bwd & Hb1 & Hb2 & Hb3).
    exists (y :: bwd). split_and!.
    + unfold dir_of in Hc. rewrite Hem in Hc. econstructor; [done|]. by rewrite E1, E5 in Hb1.
    + rewrite Hb2, E2, reverse_cons, <- app_assoc. done.
    + by rewrite <- diff_cons.
  - unfold line_turn in Ht. rewrite Hop in Ht. simpl in Ht. injection Ht as <-. injection Hl as <-.
    unfold dir_of in Hn. rewrite Hem in Hn. exists []. split_and!.
    + by constructor.
    + done.
    + simpl. by rewrite difference_empty_L.
Qed.

Lemma loop_fwd fuel s s' F : linv s → ls_opp s = false → frees (ls_tt s) F →
  (ls_empty s = true ↔ ls_seed s = primal) → (ls_empty s = true ↔ ls_primal s = None) →
  line_loop fuel ap g ws mw primal s = Ok s' →
  ∃ fwd bwd, prol F (ls_seed s) (dir_of s) fwd ∧ ls_line s' = reverse bwd ++ ls_line s ++ fwd ∧
    frees (ls_tt s') (F ∖ list_to_set fwd ∖ list_to_set bwd) ∧
    match ls_primal s, fwd with
    | None, [] => bwd = []
    | None, y :: _ => prol (F ∖ list_to_set fwd) primal (Some (opposite (unit_vec (ctr y) (ctr primal)))) bwd
    | Some d, _ => prol (F ∖ list_to_set fwd) primal (Some (opposite d)) bwd
    end.
Proof using WF WD Hdim WO HT N0 Nval Ndist Npos Hws Hmw Hwl Hml Htr0 Hpr Htc Hcompl.
  revert s F. induction fuel as [|fuel IH]; intros s F HI Hop HF Hem Hpm Hl; [done|]. simpl in Hl.
  apply bind_Ok_inv in Hl as (o & Hst & Hl). destruct (inv_seed s HI) as [Hsc Hsn].
  pose proof (inv_free s F HI HF) as HFn. pose proof (li_dir _ _ _ _ _ HI) as Hdl.
  destruct (line_step_spec primal s F o Hsc Hsn HF Hdl HFn Hst) as [(y & s1 & Hc & Ha & ->)|[Hn Ht]].
  - pose proof (inv_step _ _ _ HI Hst eq_refl) as HI1. pose proof (cont_in _ _ _ _ Hc) as Hy.
    destruct (line_add_spec s y s1 F Hsn (HFn y Hy) Hdl HF Ha) as (E1 & E2 & E3 & E4 & E5 & E6 & E7).
    rewrite Hop in E2, E4.
    assert (y ≠ primal) as Hyp.
    { intros ->. apply HF, (li_tt _ _ _ _ _ HI) in Hy as [_ Hy]. apply Hy.
      pose proof (li_end _ _ _ _ _ HI) as He. rewrite Hop in He. destruct He as [_ He].
      destruct (ls_line s); simpl in *; simplify_eq. left. }
    destruct (IH s1 _ HI1 E4 E3) as (fwd & bwd & Hb1 & Hb2 & Hb3 & Hb4); [by rewrite E7, E1|by rewrite E7, E6|done|].
    exists (y :: fwd), bwd. split_and!.
    + econstructor; [done|]. unfold dir_of in Hb1. by rewrite E7, E1, E5 in Hb1.
    + rewrite Hb2, E2, <- app_assoc. done.
    + by rewrite <- diff_cons.
    + rewrite E6 in Hb4. rewrite <- diff_cons.
      destruct (ls_primal s) as [d|]; simpl in Hb4; [done|].
      assert (ls_seed s = primal) as <- by (by apply Hem, Hpm). done.
  - exists []. unfold line_turn in Ht. rewrite Hop in Ht. cbn [negb andb] in Ht.
    case_bool_decide as Hsp.
    + destruct (ls_primal s) as [d|] eqn:Hpd; [|exfalso; naive_solver]. simpl in Ht.
      pose proof (li_pdir _ _ _ _ _ HI _ Hpd) as Hd2. rewrite decide_True in Ht by lia. injection Ht as <-.
      pose proof (inv_step _ _ _ HI Hst eq_refl) as HI1.
      assert (ls_empty s = false) as He0 by (destruct (ls_empty s); naive_solver).
      destruct (loop_back fuel _ s' F HI1 eq_refl He0 HF Hl) as (bwd & Hb1 & Hb2 & Hb3).
      simpl in Hb1, Hb2. exists bwd. split_and!.
      * by constructor.
      * by rewrite app_nil_r.
      * simpl. by rewrite difference_empty_L.
      * simpl. rewrite difference_empty_L. rewrite take_ge in Hb1 by lia. done.
    + injection Ht as <-. injection Hl as <-. exists [].
      assert (ls_primal s = None) as -> by (by apply Hpm, Hem).
      split_and!.
      * by constructor.
      * by rewrite app_nil_r.
      * simpl. by rewrite !difference_empty_L.
      * done.
Qed.
End one.

Notation built := (built_from row col val cen (ap_mindist ap) thr0 (ap_force ap)).
Notation abuilt := (all_built row col val cen (ap_mindist ap) thr0 (ap_force ap)).

Lemma build_line_spec tr lines i tr' lines' F : lines_inv g tr lines → frees tr F →
  build_line ap g ws mw dimc (tr, lines) i = Ok (tr', lines') →
  i ∉ F ∧ tr' = tr ∧ lines' = lines ∨
  i ∈ F ∧ ∃ l, built F i l ∧ frees tr' (F ∖ list_to_set l) ∧
    lines' = if bool_decide (1 < length l) then lines ++ [l] else lines.
Proof using WF WD Hdim WO HT N0 Nval Ndist Npos Hws Hmw Hwl Hml Hcompl.
  intros HI HF. unfold build_line. intros Hok. apply bind_Ok_inv in Hok as (b & Hb & Hok). apply vget_inv in Hb.
  destruct b; [|injection Hok as <- <-; left; split_and!; [|done..]].
  2: { intros Hi. apply HF in Hi. congruence. }
  right. assert (i ∈ F) as HiF by by apply HF. split; [done|].
  apply bind_Ok_inv in Hok as (tr1 & Htr1 & Hok). apply vset_inv in Htr1 as [Hil ->].
  apply bind_Ok_inv in Hok as (s' & Hs' & [= <- <-]).
  assert (line_inv g dimc tr i (LineSt i [i] (<[i:=false]> tr) false (replicate dimc w0) None true)) as HL.
  { split; simpl.
    + by rewrite insert_length, (lb_len _ _ _ HI).
    + intros x. rewrite elem_of_list_singleton. destruct (decide (x = i)) as [->|Hne].
      * rewrite list_lookup_insert by done. naive_solver.
      * rewrite list_lookup_insert_ne by done. naive_solver.
    + intros x Hx. apply elem_of_list_singleton in Hx as ->. done.
    + apply NoDup_singleton.
    + apply path_single.
    + done.
    + by rewrite replicate_length.
    + done.
    + done. }
  destruct (loop_fwd tr i (lb_len _ _ _ HI) Hb (lb_tr _ _ _ HI)
    (length (<[i:=false]> tr) + 3) _ s' (F ∖ {[i]}) HL)
    as (fwd & bwd & H1 & H2 & H3 & H4); simpl; [done| |done|done|exact Hs'|].
  { intros x. simpl. rewrite elem_of_difference, elem_of_singleton, <- (HF x).
    destruct (decide (x = i)) as [->|Hne].
    - rewrite list_lookup_insert by done. naive_solver.
    - rewrite list_lookup_insert_ne by done. naive_solver. }
  simpl in H1, H2, H4. exists (ls_line s'). split_and!; [|..|done].
  - exists fwd, bwd. split_and!; [done| |done]. by destruct fwd.
  - rewrite H2. intros x. rewrite (H3 x), !elem_of_difference, !elem_of_list_to_set, elem_of_app, elem_of_reverse,
      elem_of_cons, elem_of_singleton. tauto.
Qed.

Lemma build_lines_spec seeds tr lines tr' lines' F : lines_inv g tr lines → frees tr F →
  (∀ x, x ∈ seeds → x < n) →
  foldM (build_line ap g ws mw dimc) seeds (tr, lines) = Ok (tr', lines') →
  ∃ ls, abuilt F seeds ls ∧ lines' = lines ++ ls.
Proof using WF WD Hdim WO HT N0 Nval Ndist Npos Hws Hmw Hwl Hml Hcompl.
  revert tr lines F. induction seeds as [|i seeds IH]; intros tr lines F HI HF Hse Hok.
  { injection Hok as <- <-. exists []. split; [constructor|by rewrite app_nil_r]. }
  cbn [foldM] in Hok. apply bind_Ok_inv in Hok as ([tr1 lines1] & Hst & Hok).
  assert (lines_inv g tr1 lines1) as HI1.
  { pose proof (build_line_ok g prio WF WD Hcompl dimc Hdim ap ws mw Hwl Hml tr lines i HI) as Hw.
    rewrite Hst in Hw. apply Hw. apply Hse. left. }
  destruct (build_line_spec _ _ _ _ _ _ HI HF Hst) as [(Hi & -> & ->)|(Hi & l & Hl & HF1 & ->)].
  - destruct (IH _ _ _ HI1 HF) as (ls & Hls & ->); [intros x Hx; apply Hse; by right|done|]. exists ls. split; [by apply ab_used|done].
  - destruct (IH _ _ _ HI1 HF1) as (ls & Hls & ->); [intros x Hx; apply Hse; by right|done|].
    case_bool_decide as Hlen.
    + exists (l :: ls). split; [by eapply ab_line|by rewrite <- app_assoc].
    + exists ls. split; [|done].
      assert (l = [i]) as ->.
      { destruct Hl as (fwd & bwd & H1 & H2 & ->). rewrite app_length, reverse_length in Hlen. simpl in Hlen.
        destruct fwd; [|simpl in Hlen; lia]. destruct bwd; [|simpl in Hlen; lia]. done. }
      apply ab_alone; [exact Hi|exact Hl|].
      assert (F ∖ list_to_set [i] = F ∖ {[i]}) as <-; [|exact Hls]. apply set_eq. intros x.
      by rewrite !elem_of_difference, elem_of_list_to_set, elem_of_list_singleton, elem_of_singleton.
Qed.
End build.

Lemma lines_built ap lines : (ap_mindist ap = true → dists_in) →
  (ap_force ap = true → ∀ c, wlt w0 c = true → N c) → tag_safe g ap thr → build_anisotropic_lines ap g prio thr = Ok lines →
  ∃ seeds F, prio_sorted prio seeds ∧ NoDup seeds ∧
    (∀ x, x ∈ seeds ↔ x ∈ g_compl g ∧ tagged x) ∧ (∀ x, x ∈ F ↔ x ∈ seeds) ∧
    all_built row col val cen (ap_mindist ap) thr0 (ap_force ap) F seeds lines.
Proof using WF WD Hdim WO HT Hcompl N0 Nmax Nval.
  intros Ndist Npos Hsafe Hok. unfold build_anisotropic_lines in Hok.
  apply bind_Ok_inv in Hok as ([[[alt mw] tr] seeds] & Ht & Hok).
  pose proof (tag_anisotropic_ok g prio WF WD Hcompl dimc Hdim ap thr Hsafe) as Hw. rewrite Ht in Hw. simpl in Hw.
  destruct Hw as (Halt & Hml & Htl & Htr & Hsc).
  rewrite <- (tag_p_0 0) in Ht by done. destruct (tag_spec 0 ap alt mw tr seeds Ndist Ht) as [T1 T2 T3 T4 T5 _ _ _].
  assert (∀ x, x ∈ seeds ↔ x ∈ g_compl g ∧ tagged x) as T6.
  { intros x. rewrite T5. split; [tauto|]. intros [? ?]. split_and!; [done..|]. right. by intros ?. }
  exists seeds, (list_to_set seeds : gset nat). split_and!; [done..| |].
  { intros x. apply elem_of_list_to_set. }
  destruct seeds as [|i0 seeds0] eqn:Hse.
  { injection Hok as <-. constructor. }
  rewrite <- Hse in *. assert (0 < n) as Hn.
  { assert (i0 < n); [|lia]. apply Hcompl, Hsc. rewrite Hse. left. }
  assert (lines_inv g tr []) as HI.
  { split; simpl.
    - done.
    - intros x Hx. by apply Hsc, Htr.
    - intros l Hl. by apply elem_of_nil in Hl.
    - intros l Hl. by apply elem_of_nil in Hl.
    - constructor.
    - intros l Hl. by apply elem_of_nil in Hl. }
  clear Hse i0 seeds0. destruct (cen_ctr 0 Hn) as [Hc0 Hl0]. rewrite Hc0, bind_ok, Hl0 in Hok.
  apply bind_Ok_inv in Hok as ([tr' lines'] & Hf & [= <-]). simpl in *.
  destruct (build_lines_spec ap (if ap_mindist ap then alt else val) mw) with seeds tr (@nil (list nat)) tr' lines'
    (list_to_set seeds : gset nat) as (ls & Hls & ->); try done.
  - destruct (ap_mindist ap); auto.
  - intros x. by rewrite (Htr x), elem_of_list_to_set.
  - intros x Hx. by apply Hcompl, Hsc.
Qed.
End tag.

(** ** There is one way to build the lines *)

Section uniq.
Context {A : Arith} {N : W → Prop} (WO : weak_order (@wlt A) N).
Lemma sorted_uniq (prio : list W) l l' : weak_order (@wlt A) (λ w, w ∈ prio) →
  NoDup l → NoDup l' → prio_sorted prio l → prio_sorted prio l' →
  (∀ x, x ∈ l → x < length prio) → (∀ x, x ∈ l ↔ x ∈ l') → l = l'.
Proof.
  clear. intros WO.
  revert l'. induction l as [|x l IH]; intros l' Hn Hn' Hs Hs' Hp He.
  { destruct l' as [|y l']; [done|]. assert (y ∈ @nil nat) as Hy by (apply He; left). by apply elem_of_nil in Hy. }
  destruct l' as [|y l'].
  { assert (x ∈ @nil nat) as Hx by (apply He; left). by apply elem_of_nil in Hx. }
  assert (x = y) as <-.
  { destruct (decide (x = y)) as [|Hne]; [done|exfalso].
    assert (x ∈ y :: l') as Hx by (apply He; left). assert (y ∈ x :: l) as Hy by (apply He; left).
    destruct (lookup_lt_is_Some_2 prio x) as [wx Hwx]; [apply Hp; left|].
    destruct (lookup_lt_is_Some_2 prio y) as [wy Hwy]; [by apply Hp|].
    apply elem_of_cons in Hx as [?|Hx]; [done|]. apply elem_of_cons in Hy as [?|Hy]; [done|].
    apply elem_of_list_lookup in Hx as [i Hi], Hy as [j Hj].
    destruct (Hs 0 (S j) x y wx wy) as [H1|[H1 H2]]; [lia|done..| |].
    - destruct (Hs' 0 (S i) y x wy wx) as [H3|[H3 H4]]; [lia|done..| |].
      + apply (wlt_asym WO) in H1; [congruence|by eapply elem_of_list_lookup_2..].
      + congruence.
    - destruct (Hs' 0 (S i) y x wy wx) as [H3|[H3 H4]]; [lia|done..| |].
      + congruence.
      + lia. }
  apply NoDup_cons in Hn as [Hx Hn], Hn' as [Hx' Hn']. f_equal. apply IH; try done.
  - intros i j a b wa wb Hij Ha Hb. apply (Hs (S i) (S j)); [lia|done..].
  - intros i j a b wa wb Hij Ha Hb. apply (Hs' (S i) (S j)); [lia|done..].
  - intros z Hz. apply Hp. by right.
  - intros z. specialize (He z). rewrite !elem_of_cons in He. split; intros Hz.
    + destruct (proj1 He) as [->|]; [by right|done|done].
    + destruct (proj2 He) as [->|]; [by right|done|done].
Qed.
Lemma preferred_uniq (P : nat → W → Prop) y z : (∀ x w, P x w → N w) → preferred P y → preferred P z → y = z.
Proof using WO.
  intros NP (w & Hy & Hmy) (v & Hz & Hmz).
  pose proof (NP _ _ Hy) as Nw. pose proof (NP _ _ Hz) as Nv. destruct (Hmy z v Hz) as [H1|[H1 H2]], (Hmz y w Hy) as [H3|[H3 H4]].
  - apply (wlt_asym WO) in H1; [congruence|done..].
  - congruence.
  - congruence.
  - lia.
Qed.

Context (row col : list nat) (val : list W) (cen : list (list W)) (md : bool) (thr : W) (force : bool).
Context (n : nat) (Hrow : length row ≤ S n).
Context (Nval : ∀ w, w ∈ val → N w).
Context (Ndist : md = true → ∀ x y, x < n → y ∈ nb_list row col x → N (wdiv w1 (sqd (centre cen x) (centre cen y)))).
Context (Npos : force = true → ∀ c, wlt w0 c = true → N c).

Lemma coupled_in x y w : (y, w) ∈ couplings row col val cen md x → N w.
Proof using Hrow Nval Ndist.
  clear Npos. unfold couplings. destruct md.
  - intros Hy. apply elem_of_list_fmap in Hy as (z & [= -> ->] & Hz). apply Ndist; [done| |done].
    unfold nb_list in Hz. destruct (row !! x) as [a|]; [|by apply elem_of_nil in Hz].
    destruct (row !! S x) as [b|] eqn:Hb; [|by apply elem_of_nil in Hz]. apply lookup_lt_Some in Hb. lia.
  - unfold entries. destruct (row !! x) as [a|]; [|by intros Hx%elem_of_nil].
    destruct (row !! S x) as [b|]; [|by intros Hx%elem_of_nil].
    intros Hx. assert ((y, w) ∈ zip col val) as Hz.
    { rewrite <- (take_drop a (zip col val)), <- (take_drop (b - a) (drop a (zip col val))).
      apply elem_of_app. right. apply elem_of_app. by left. }
    by apply Nval, (elem_of_zip_r y w col).
Qed.

Lemma continued_uniq F x dir y z : continued row col val cen md thr force F x dir y →
  continued row col val cen md thr force F x dir z → y = z.
Proof using WO Hrow Nval Ndist Npos.
  assert (∀ y w, y ∈ F ∧ high_coupled row col val cen md thr x y w → N w) as NH.
  { intros y' w [_ [Hw _]]. by eapply coupled_in. }
  unfold continued. destruct dir as [d|]; [destruct force|]; [|by apply preferred_uniq..].
  assert (∀ (Q : nat → Prop) y c, y ∈ F ∧ Q y ∧ aligned cen x d y c → N c) as NA.
  { intros Q y' c (_ & _ & _ & Hc & _). by apply Npos. }
  intros [Hy|[Hny Hy]] [Hz|[Hnz Hz]].
  - by eapply preferred_uniq, Hz; [|apply Hy]; apply (NA (λ y, ∃ w, high_coupled row col val cen md thr x y w)).
  - destruct Hy as (w & Hy & _). by destruct (Hnz _ _ Hy).
  - destruct Hz as (w & Hz & _). by destruct (Hny _ _ Hz).
  - by eapply preferred_uniq, Hz; [|apply Hy]; apply (NA (λ y, y ∈ nb_list row col x)).
Qed.
Lemma prolonged_uniq F x dir l l' : prolonged row col val cen md thr force F x dir l →
  prolonged row col val cen md thr force F x dir l' → l = l'.
Proof using WO Hrow Nval Ndist Npos.
  intros Hl. revert l'. induction Hl as [F x dir Hn|F x dir y l Hy _ IH]; intros l' Hl'.
  - inversion Hl' as [|???? l0 Hc]; subst; [done|]. by destruct (Hn _ Hc).
  - inversion Hl' as [??? Hn|???? l0 Hc Hl0]; subst; [by destruct (Hn _ Hy)|].
    rewrite <- (continued_uniq _ _ _ _ _ Hy Hc) in *. f_equal. by apply IH.
Qed.
Lemma built_from_uniq F s l l' : built_from row col val cen md thr force F s l →
  built_from row col val cen md thr force F s l' → l = l'.
Proof using WO Hrow Nval Ndist Npos.
  intros (f & b & Hf & Hb & ->) (f' & b' & Hf' & Hb' & ->).
  rewrite <- (prolonged_uniq _ _ _ _ _ Hf Hf') in *. do 2 f_equal.
  destruct f as [|y f]; [congruence|]. by eapply prolonged_uniq.
Qed.
Lemma all_built_uniq F ss ls ls' : all_built row col val cen md thr force F ss ls →
  all_built row col val cen md thr force F ss ls' → ls = ls'.
Proof using WO Hrow Nval Ndist Npos.
  intros Hl. revert ls'. induction Hl as [F|F s ss ls Hs _ IH|F s ss l ls Hs Hb Hlen _ IH|F s ss ls Hs Hb _ IH];
    intros ls' Hl'.
  - by inversion Hl'.
  - inversion Hl'; subst; [by apply IH|done|done].
  - inversion Hl' as [|?????|????? Hs' Hb' Hlen' Hr'|???? Hs' Hb' Hr']; subst; [done| |].
    + rewrite <- (built_from_uniq _ _ _ _ Hb Hb') in *. f_equal. by apply IH.
    + rewrite (built_from_uniq _ _ _ _ Hb Hb') in Hlen. simpl in Hlen. lia.
  - inversion Hl' as [|?????|????? Hs' Hb' Hlen' Hr'|???? Hs' Hb' Hr']; subst; [done| |].
    + rewrite (built_from_uniq _ _ _ _ Hb' Hb) in Hlen'. simpl in Hlen'. lia.
    + by apply IH.
Qed.

End uniq.

(** ** Calls of the library *)

Section run.
Context {A : Arith} {H : HashOrder}.
Implicit Types (i : input) (o r : outs).

Lemma total_line_order i : total_order A → line_order (λ _, True) i.
Proof. by intros [WO HT]; split; auto. Qed.

Lemma lines_uniq N i lines lines' : line_order N i → wf_mesh i →
  built_lines i lines → built_lines i lines' → lines = lines'.
Proof.
  intros [WO _ _ _ Nv Nd Nc] WM (ss & F & Hn & Hs & Hi & HF & Hb) (ss' & F' & Hn' & Hs' & Hi' & HF' & Hb').
  assert (ss = ss') as <-.
  { apply (sorted_uniq (in_prio i)); [apply WM|done..| |].
    - intros x Hx. apply Hi in Hx as [Hx _]. rewrite (wf_prio _ WM). by apply (wf_compl _ WM).
    - intros x. by rewrite Hi, Hi'. }
  assert (F = F') as <-. { apply set_eq. intros x. by rewrite HF, HF'. }
  eapply (all_built_uniq WO); [|done| |done|done|done].
  - by rewrite (csr_len _ _ _ (wf_csr _ WM)).
  - intros Hmd%bool_decide_eq_true x y Hx Hy. apply Nd; [done|]. by apply (elem_of_adj (graph_of i)).
Qed.
Lemma built_lines_uniq i lines lines' : total_order A → wf_mesh i →
  built_lines i lines → built_lines i lines' → lines = lines'.
Proof. intros HO. apply (lines_uniq (λ _, True)). by apply total_line_order. Qed.

Lemma tag_safe_of i : wf_mesh i → buildable i → tag_safe (graph_of i) (aniso_params_of i) (ratio_limit (in_thr i)).
Proof.
  intros WM Hb Hmd Hneg c Hc. apply elem_of_list_to_set in Hc. simpl in Hmd. apply bool_decide_eq_false in Hmd.
  destruct Hb as [?|[Hall|[H1 H2]]]; [done| |].
  - destruct (Hall c Hc) as [j Hj]. apply (elem_of_adj (graph_of i)) in Hj. intros He. rewrite He in Hj.
    by apply elem_of_nil in Hj.
  - exfalso. unfold ratio_limit in Hneg. destruct (wlt w1 (in_thr i)) eqn:H3; simpl in Hneg; [congruence|].
    rewrite H1 in Hneg. destruct H2; congruence.
Qed.

Lemma tagged_anisotropic i x : x ∈ g_compl (graph_of i) ∧ tagged (graph_of i) (in_thr i) x ↔
  anisotropic (in_row i) (in_col i) (in_val i) (bool_decide (in_dim i = 2%Z)) (in_compl i) (in_thr i) x.
Proof. unfold anisotropic. simpl. by rewrite elem_of_list_to_set. Qed.

Lemma kept_fixed i pv x : (0 < in_dim i)%Z →
  kept (in_row i) (in_col i) (fixed_bnd i) pv x ↔ kept (in_row i) (in_col i) (in_bnd i) pv x.
Proof.
  intros Hd. unfold kept, layer_faces. cbn zeta.
  assert ((0 < default 0 (fixed_bnd i !! x))%Z ↔ (0 < default 0 (in_bnd i !! x))%Z) as ->; [|done].
  unfold fixed_bnd. rewrite list_lookup_fmap. destruct (in_bnd i !! x) as [b|]; [|done]. simpl.
  case_bool_decide; lia.
Qed.

Lemma dists_of N i : line_order N i → ap_mindist (aniso_params_of i) = true → dists_in (N := N) (graph_of i).
Proof.
  intros LO Hmd x y Hx Hy. simpl in Hmd. apply bool_decide_eq_true in Hmd. apply (lo_dist _ _ LO); [done|]. by apply (elem_of_adj (graph_of i)).
Qed.

Lemma C43_numbers_lem (N : W → Prop) i pv : line_order N i → wf_mesh i → in_dim i = 2%Z ∨ in_dim i = 3%Z → buildable i →
  ∃ alt mw tags seeds,
    tag_anisotropic_cells_p pv (aniso_params_of i) (graph_of i) (in_prio i) (ratio_limit (in_thr i))
      = Ok (alt, mw, tags, seeds) ∧
    (∀ x, x ∈ seeds ↔
       anisotropic (in_row i) (in_col i) (in_val i) (bool_decide (in_dim i = 2%Z)) (in_compl i) (in_thr i) x ∧
       (wlt (ratio_limit (in_thr i)) w0 = true ∨ kept (in_row i) (in_col i) (in_bnd i) pv x)) ∧
    NoDup seeds ∧ prio_sorted (in_prio i) seeds ∧
    length tags = in_n i ∧ (∀ x, tags !! x = Some true ↔ x ∈ seeds) ∧
    (∀ x, x ∈ in_compl i → ∃ m, mw !! x = Some m ∧
       max_coupling (in_row i) (in_col i) (in_val i) (in_cen i) (bool_decide (in_coupling i = 1%Z)) (in_thr i) x m) ∧
    (in_coupling i = 1%Z → ∀ x off k y w, x ∈ in_compl i → in_row i !! x = Some off →
       couplings (in_row i) (in_col i) (in_val i) (in_cen i) true x !! k = Some (y, w) →
       alt !! (off + k) = Some w) ∧
    (pv = 0%Z →
     tag_anisotropic_cells (aniso_params_of i) (graph_of i) (in_prio i) (ratio_limit (in_thr i))
       = Ok (alt, mw, tags, seeds)).
Proof.
  intros LO WM Hd Hb. pose proof LO as [WO HT N0 Nm Nv _ _].
  pose proof (mesh_wfg i WM) as WF. pose proof (mesh_wfd i WM Hd) as WD.
  pose proof (tag_safe_of i WM Hb) as Hsafe. destruct (wf_dim _ WM) as [d Hdim].
  assert (∀ c, c ∈ g_compl (graph_of i) → c < g_n (graph_of i)) as Hc.
  { intros c Hc. apply elem_of_list_to_set in Hc. by apply (wf_compl _ WM). }
  destruct (tag_p_total WO (graph_of i) (in_prio i) WF WD Hc d Hdim N0 Nm Nv HT (in_thr i) pv _ Hsafe)
    as (alt & mw & tr & seeds & Hok).
  exists alt, mw, tr, seeds. split; [done|].
  destruct (tag_spec WO (graph_of i) (in_prio i) WF WD Hc d Hdim N0 Nm Nv HT (in_thr i) _ _ _ _ _ _ (dists_of N i LO) Hok)
    as [T1 T2 T3 T4 T5 T6 T7 T8].
  split_and!; try done.
  - intros x. rewrite T5, <- tagged_anisotropic. unfold stays. simpl.
    rewrite kept_fixed by lia. tauto.
  - intros x Hx. apply T2. by apply elem_of_list_to_set.
  - intros Hcp x off k y w Hx Hoff Hk. destruct T8 as [_ T8]; [simpl; by apply bool_decide_eq_true|].
    apply list_lookup_fmap_Some in Hk as (y' & Hk & [= -> ->]).
    apply (T8 x); [by apply elem_of_list_to_set|done|done].
  - intros ->. by rewrite <- (tag_p_0 (graph_of i) (in_prio i) WF Hc (in_thr i) 0).
Qed.

Lemma C43_lem i pv : total_order A → wf_mesh i → in_dim i = 2%Z ∨ in_dim i = 3%Z → buildable i →
  ∃ alt mw tags seeds,
    tag_anisotropic_cells_p pv (aniso_params_of i) (graph_of i) (in_prio i) (ratio_limit (in_thr i))
      = Ok (alt, mw, tags, seeds) ∧
    (∀ x, x ∈ seeds ↔
       anisotropic (in_row i) (in_col i) (in_val i) (bool_decide (in_dim i = 2%Z)) (in_compl i) (in_thr i) x ∧
       (wlt (ratio_limit (in_thr i)) w0 = true ∨ kept (in_row i) (in_col i) (in_bnd i) pv x)) ∧
    NoDup seeds ∧ prio_sorted (in_prio i) seeds ∧
    length tags = in_n i ∧ (∀ x, tags !! x = Some true ↔ x ∈ seeds) ∧
    (∀ x, x ∈ in_compl i → ∃ m, mw !! x = Some m ∧
       max_coupling (in_row i) (in_col i) (in_val i) (in_cen i) (bool_decide (in_coupling i = 1%Z)) (in_thr i) x m) ∧
    (in_coupling i = 1%Z → ∀ x off k y w, x ∈ in_compl i → in_row i !! x = Some off →
       couplings (in_row i) (in_col i) (in_val i) (in_cen i) true x !! k = Some (y, w) →
       alt !! (off + k) = Some w) ∧
    (pv = 0%Z →
     tag_anisotropic_cells (aniso_params_of i) (graph_of i) (in_prio i) (ratio_limit (in_thr i))
       = Ok (alt, mw, tags, seeds)).
Proof. intros HO. apply (C43_numbers_lem (λ _, True)). by apply total_line_order. Qed.

Lemma C44_numbers_lem (N : W → Prop) i o : line_order N i → good_call i o → aniso_on i o → in_build i = true →
  ∃ lines, call_lines i o = Ok lines ∧ built_lines i lines ∧
    ∀ lines', built_lines i lines' → lines' = lines.
Proof.
  intros HO HG Hon Hb. pose proof HG as [WM HA _ Hbd _]. destruct (Hbd Hon Hb) as [Hbuild _].
  pose proof (mesh_wfg i WM) as WF. pose proof (mesh_wfd i WM (ac_dim _ HA)) as WD.
  pose proof (tag_safe_of i WM Hbuild) as Hsafe. destruct (wf_dim _ WM) as [d Hdim].
  assert (∀ c, c ∈ g_compl (graph_of i) → c < g_n (graph_of i)) as Hc.
  { intros c Hc. apply elem_of_list_to_set in Hc. by apply (wf_compl _ WM). }
  pose proof (lines_of_ok i o HG Hon) as Hlo. apply wp_eq in Hlo as (lines & Hlo & _).
  exists lines. split; [done|].
  assert (built_lines i lines) as Hbl.
  { unfold lines_of in Hlo. rewrite Hb in Hlo. pose proof HO as [WO HT N0 Nm Nv _ Nc].
    destruct (lines_built WO (graph_of i) (in_prio i) WF WD Hc d Hdim N0 Nm Nv HT (in_thr i) _ lines
      (dists_of N i HO) Nc Hsafe Hlo)
      as (seeds & F & H1 & H2 & H3 & H4 & H5).
    exists seeds, F. split_and!; [done..| |done|done].
    intros x. by rewrite H3, tagged_anisotropic. }
  split; [done|]. intros lines' Hl'. by eapply lines_uniq.
Qed.
Lemma C44_lem i o : total_order A → good_call i o → aniso_on i o → in_build i = true →
  ∃ lines, call_lines i o = Ok lines ∧ built_lines i lines ∧
    ∀ lines', built_lines i lines' → lines' = lines.
Proof. intros HO. apply (C44_numbers_lem (λ _, True)). by apply total_line_order. Qed.

Lemma C42_lem i o r e : good_call i o → aniso_on i o → agglomerate_one_level i o = (r, e) →
  ∃ lines, call_lines i o = Ok lines ∧
    Forall2 (λ line ids, ∃ l parts rest, oriented i line l ∧ l = concat parts ++ rest ∧
      (∀ p, p ∈ parts → 2 ≤ length p ≤ 3) ∧
      Forall2 (λ p id, ∀ x, o_fc2cc r !! x = Some id ↔ x ∈ p) parts ids)
      lines (split_lines (o_idx r) (o_lines r)).
Proof.
  intros HG Hon He. destruct (lines_run i o r e HG Hon He) as (lines & Hlo & _ & _ & HF & _).
  exists lines. split; [done|]. eapply Forall2_impl; [done|]. intros line ids Hcut.
  destruct (line_cut_spec _ _ _ _ Hcut) as (l & parts & rest & Hol & HC & HP).
  exists l, parts, (rest ++ drop (eff (max_line i) (length line)) l). split_and!; try done.
  - rewrite app_assoc, (cs_concat _ _ _ _ HC). by rewrite take_drop.
  - intros p Hp. apply elem_of_list_lookup in Hp as [k Hk]. pose proof (lookup_lt_Some _ _ _ Hk) as Hlt.
    destruct (decide (S k < length parts)) as [Hs|Hs].
    + rewrite (cs_two _ _ _ _ HC k p Hk Hs). lia.
    + rewrite (cs_last _ _ _ _ HC p); [destruct (_ && _); lia|]. rewrite last_lookup.
      by replace (pred (length parts)) with k by lia.
Qed.
End run.
