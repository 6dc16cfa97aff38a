(** * ToolsC: the coarse graphs of the Python helpers (C73) *)

From Verif Require Import Lib Spec SpecCoarse SpecTools UtilM ToolsM CoarseT CoarseU ToolsT.

Lemma contiguous_down (l : list nat) : contiguous l → ∀ c d, c ∈ l → d ≤ c → d ∈ l.
Proof.
  intros [k Hk] c d Hc Hd. apply elem_of_list_lookup in Hc. apply Hk in Hc. apply elem_of_list_lookup. apply Hk. lia.
Qed.
Lemma contiguous_up (l : list nat) m : m ∈ l → (∀ c, c ∈ l → c ≤ m) → (∀ d, d ≤ m → d ∈ l) → contiguous l.
Proof.
  intros Hm Hall Hd. exists (S m). intros c. rewrite <- elem_of_list_lookup. split; [intros ?; apply Hd; lia|]. intros ?%Hall. lia.
Qed.

Lemma pfold_ok {S T} (f : S → T → pyres S) (I : list T → S → Prop) l s : I [] s →
  (∀ pre x post s, l = pre ++ x :: post → I pre s → ∃ s', f s x = POk s' ∧ I (pre ++ [x]) s') →
  ∃ s', pfold f l s = POk s' ∧ I l s'.
Proof.
  intros HI Hs. assert (∀ post pre s, l = pre ++ post → I pre s → ∃ s', pfold f post s = POk s' ∧ I l s') as Hg.
  { induction post as [|x post IH]; intros pre s' Hl Hp.
    - exists s'. rewrite app_nil_r in Hl. subst. done.
    - destruct (Hs pre x post s' Hl Hp) as (s2 & H2 & Hp2). simpl. rewrite H2. simpl.
      apply (IH (pre ++ [x])); [|done]. by rewrite <- app_assoc. }
  by apply (Hg l []).
Qed.

Section coarse.
Context {A : Arith}.

(** ** Dictionaries *)

Lemma py_add_keys k (w : W) d : (py_add k w d).*1 = if decide (k ∈ d.*1) then d.*1 else d.*1 ++ [k].
Proof.
  induction d as [|[k' v] d IH]; [done|]. cbn [py_add]. rewrite (fmap_cons fst). case_bool_decide as Hk.
  - subst. rewrite decide_True by left. done.
  - rewrite (fmap_cons fst), IH. cbn [fst]. destruct (decide (k ∈ d.*1)) as [Hd|Hd].
    + rewrite decide_True by (by right). done.
    + rewrite decide_False; [done|]. intros [?|?]%elem_of_cons; done.
Qed.
Lemma py_add_elem k (w : W) d k' v : NoDup d.*1 → (k', v) ∈ py_add k w d →
  (k' ≠ k ∧ (k', v) ∈ d) ∨ (k' = k ∧ ((∃ u, (k, u) ∈ d ∧ v = wadd u w) ∨ (k ∉ d.*1 ∧ v = wadd w0 w))).
Proof.
  induction d as [|[k1 v1] d IH]; intros Hnd Hin; cbn [py_add] in Hin; rewrite ?(fmap_cons fst) in *.
  - apply elem_of_list_singleton in Hin. simplify_eq. right. split; [done|]. right. split; [|done]. apply not_elem_of_nil.
  - apply NoDup_cons in Hnd as [Hk1 Hnd]. case_bool_decide as Hk.
    + subst k1. apply elem_of_cons in Hin as [?|Hin].
      * simplify_eq. right. split; [done|]. left. exists v1. split; [left|done].
      * left. split; [|by right]. intros ->. apply Hk1. apply elem_of_list_fmap. by exists (k, v).
    + apply elem_of_cons in Hin as [?|Hin].
      * simplify_eq. left. split; [done|left].
      * destruct (IH Hnd Hin) as [[? ?]|(-> & [(u & Hu & ->)|[Hn ->]])].
        -- left. split; [done|by right].
        -- right. split; [done|]. left. exists u. split; [by right|done].
        -- right. split; [done|]. right. split; [|done]. intros [?|?]%elem_of_cons; done.
Qed.

(** The dictionary of coarse cell [a] after the faces [fs b] with the cells [b],
    the weights being read by [rd]. *)
Record dspec (rd : nat → option W) (a : nat) (fs : nat → list nat) (d : list (Z * W)) : Prop := {
  ds_nd : NoDup d.*1;
  ds_key : ∀ z, z ∈ d.*1 ↔ ∃ b, z = Z.of_nat b ∧ b ≠ a ∧ fs b ≠ [];
  ds_val : ∀ b v, (Z.of_nat b, v) ∈ d → v = wsum_l (omap rd (fs b));
}.
Lemma dspec_same rd a fs fs' d : dspec rd a fs d → (∀ b, b ≠ a → fs' b = fs b) → dspec rd a fs' d.
Proof.
  intros [H1 H2 H3] He. split; [done| |].
  - intros z. rewrite H2. split; intros (b & -> & Hb & Hf); exists b; split_and!; try done; [by rewrite He|by rewrite <- He].
  - intros b v Hb. rewrite He; [by apply H3|]. intros ->. assert (Z.of_nat a ∈ d.*1) as Hk by (apply elem_of_list_fmap; by exists (Z.of_nat a, v)).
    apply H2 in Hk as (b & ? & ? & _). lia.
Qed.
Lemma dspec_add rd a fs d cn k w : dspec rd a fs d → cn ≠ a → rd k = Some w →
  dspec rd a (λ b, fs b ++ if decide (b = cn) then [k] else []) (py_add (Z.of_nat cn) w d).
Proof.
  intros [H1 H2 H3] Hca Hr. split.
  - rewrite py_add_keys. destruct (decide _) as [|Hn]; [done|]. apply NoDup_app. split_and!; [done| |apply NoDup_singleton].
    intros z Hz ->%elem_of_list_singleton. done.
  - intros z. rewrite py_add_keys. transitivity (z ∈ d.*1 ∨ z = Z.of_nat cn).
    + destruct (decide _) as [Hd|Hd].
      * split; [by left|]. intros [?| ->]; done.
      * rewrite elem_of_app, elem_of_list_singleton. done.
    + rewrite H2. split.
      * intros [(b & -> & Hb & Hf)| ->].
        -- exists b. split_and!; [done|done|]. intros ?%app_eq_nil. naive_solver.
        -- exists cn. split_and!; [done|done|]. rewrite decide_True by done. intros ?%app_eq_nil. naive_solver.
      * intros (b & -> & Hb & Hf). destruct (decide (b = cn)) as [->|Hne]; [by right|]. left. exists b.
        split_and!; [done|done|]. by rewrite app_nil_r in Hf.
  - intros b v Hin. apply py_add_elem in Hin as [[Hne Hin]|(Hbc & Hin)]; [| |done].
    + rewrite decide_False by (intros ->; done). rewrite app_nil_r. by apply H3.
    + apply Nat2Z.inj in Hbc as ->. rewrite decide_True by done. rewrite (omap_snoc _ _ _ _ Hr), wsum_l_snoc.
      destruct Hin as [(u & Hu & ->)|[Hn ->]]; [by rewrite (H3 _ _ Hu)|].
      destruct (fs cn) as [|k0 l] eqn:Hfs; [done|]. exfalso. apply Hn, H2. exists cn. rewrite Hfs. done.
Qed.

(** ** One coarse cell *)

Context (f : fgraph) (f2c : list nat) (HF : fine_ok f f2c).
Notation n := (length f2c).

Lemma zs_lookup (l : list nat) x c : zs l !! x = Some (Z.of_nat c) ↔ l !! x = Some c.
Proof.
  rewrite list_lookup_fmap. destruct (l !! x) as [y|]; simpl; [|done]. split; [intros [= ?%Nat2Z.inj]|intros [= ->]]; congruence.
Qed.
Lemma elem_of_zs (l : list nat) x : Z.of_nat x ∈ zs l ↔ x ∈ l.
Proof. rewrite elem_of_list_fmap. split; [intros (y & ?%Nat2Z.inj & ?); by subst|eauto]. Qed.
Lemma py_fcs_of c : py_fcs (zs f2c) (Z.of_nat c) = fine_of f2c c.
Proof. unfold py_fcs, fine_of. rewrite fmap_length. apply list_filter_iff. intros x. apply zs_lookup. Qed.
Lemma py_mask_of {T} (l : list T) c : length l = n → py_mask (zs f2c) l (Z.of_nat c) = POk (omap (λ x, l !! x) (fine_of f2c c)).
Proof. intros Hl. unfold py_mask. rewrite fmap_length, bool_decide_true by done. by rewrite py_fcs_of. Qed.

Lemma py_neigh_ok a x p q fs d : f2c !! x = Some a → fg_idx f !! x = Some p → fg_idx f !! S x = Some q →
  dspec (face_read f) a fs d →
  ∃ d', pfold (py_neigh (zs f2c) (fg_wgt f) (fine_of f2c a)) (zs (slice (fg_adj f) p q)) d = POk d' ∧
    dspec (face_read f) a (λ b, fs b ++ row_faces f f2c x b) d'.
Proof using HF.
  intros Hx Hp Hq Hd. destruct (row_bounds f f2c HF _ _ _ Hp Hq) as [Hpq Hql].
  pose proof (slice_length (fg_adj f) p q Hql) as Hsl.
  assert (∀ b, row_faces f f2c x b = filter (λ k, (fg_adj f !! k) ≫= (λ y, f2c !! y) = Some b)
    (seq p (length (zs (slice (fg_adj f) p q))))) as Hrow.
  { intros b. unfold row_faces. by rewrite Hp, Hq, fmap_length, Hsl. }
  destruct (pfold_ok (py_neigh (zs f2c) (fg_wgt f) (fine_of f2c a)) (λ pre, dspec (face_read f) a (λ b, fs b ++
    filter (λ k, (fg_adj f !! k) ≫= (λ y, f2c !! y) = Some b) (seq p (length pre)))) (zs (slice (fg_adj f) p q)) d) as (d' & Hd' & HI).
  - eapply dspec_same; [done|]. intros b _. simpl. by rewrite filter_nil, app_nil_r.
  - intros pre z post d' Heq Hm'.
    assert (zs (slice (fg_adj f) p q) !! length pre = Some z) as Hz by (rewrite Heq; by rewrite list_lookup_middle).
    rewrite list_lookup_fmap in Hz. apply fmap_Some in Hz as (y & Hy & ->).
    assert (length pre < q - p) as Hlt by (apply lookup_lt_Some in Hy; by rewrite Hsl in Hy).
    rewrite slice_lookup in Hy by done.
    assert (edge (fg_idx f) (fg_adj f) x y) as Hxy by (exists p, q, (p + length pre); split_and!; [done..|lia|lia|done]).
    assert (y < n) as Hyn by by eapply (csr_col _ _ _ (ff_csr _ _ HF)).
    destruct (lookup_lt_is_Some_2 f2c y Hyn) as [cn Hcn].
    assert (∀ b, filter (λ k, (fg_adj f !! k) ≫= (λ y, f2c !! y) = Some b) (seq p (length (pre ++ [Z.of_nat y]))) =
      filter (λ k, (fg_adj f !! k) ≫= (λ y, f2c !! y) = Some b) (seq p (length pre)) ++
      if decide (b = cn) then [p + length pre] else []) as Hsnoc.
    { intros b. rewrite app_length. simpl. rewrite Nat.add_1_r, seq_S, filter_app. f_equal.
      rewrite filter_cons, filter_nil, Hy. simpl. rewrite Hcn.
      destruct (decide (b = cn)) as [->|]; [by rewrite decide_True|rewrite decide_False by congruence; done]. }
    unfold py_neigh. case_bool_decide as Hin.
    + apply elem_of_zs, elem_of_fine_of in Hin. assert (cn = a) as -> by congruence. exists d'. split; [done|].
      eapply dspec_same; [done|]. intros b Hb. rewrite Hsnoc, decide_False by done. by rewrite app_nil_r.
    + assert (cn ≠ a) as Hca by (intros ->; by apply Hin, elem_of_zs, elem_of_fine_of).
      destruct (lookup_lt_is_Some_2 (fg_wgt f) y) as [w Hw]; [eapply (ff_wgt _ _ HF); [done|congruence]|].
      rewrite (pget_zs _ _ _ Hcn), (pget_nat _ _ _ Hw). cbn [pbind]. eexists. split; [done|].
      assert (face_read f (p + length pre) = Some w) as Hr by (unfold face_read; by rewrite Hy).
      eapply dspec_same; [exact (dspec_add _ _ _ _ cn _ w Hm' Hca Hr)|]. intros b Hb. by rewrite Hsnoc, app_assoc.
  - exists d'. split; [done|]. eapply dspec_same; [done|]. intros b _. by rewrite Hrow.
Qed.

Lemma py_cells_ok a : ∃ d, pfold (py_cell (zs f2c) (zs (fg_idx f)) (zs (fg_adj f)) (fg_wgt f) (fine_of f2c a)) (fine_of f2c a) [] = POk d ∧
  dspec (face_read f) a (faces f f2c a) d.
Proof using HF.
  destruct (pfold_ok (py_cell (zs f2c) (zs (fg_idx f)) (zs (fg_adj f)) (fg_wgt f) (fine_of f2c a))
    (λ pre d, dspec (face_read f) a (faces_in f f2c pre) d) (fine_of f2c a) []) as (d & Hd & HI); [| |by exists d].
  - split; simpl; [constructor| |by intros b v ?%elem_of_nil].
    intros z. split; [by intros ?%elem_of_nil|]. intros (b & _ & _ & Hf). done.
  - intros pre x post d Heq Hd. assert (f2c !! x = Some a) as Hx.
    { apply elem_of_fine_of. rewrite Heq. apply elem_of_app. right. left. }
    pose proof (ff_csr _ _ HF) as HC. apply lookup_lt_Some in Hx as Hxn.
    destruct (lookup_lt_is_Some_2 (fg_idx f) x) as [p Hp]; [rewrite (csr_len _ _ _ HC); lia|].
    destruct (lookup_lt_is_Some_2 (fg_idx f) (S x)) as [q Hq]; [rewrite (csr_len _ _ _ HC); lia|].
    destruct (row_bounds f f2c HF _ _ _ Hp Hq) as [Hpq Hql].
    unfold py_cell. rewrite (pget_zs _ _ _ Hp), (pget_zs_S _ _ _ Hq). cbn [pbind].
    rewrite pslice_nat by (rewrite fmap_length; lia). rewrite slice_fmap.
    destruct (py_neigh_ok a x p q _ d Hx Hp Hq Hd) as (d' & Hd' & HI). exists d'. split; [done|].
    eapply dspec_same; [done|]. intros b _. by rewrite faces_in_snoc.
Qed.

(** Averages and maxima. *)
Lemma average_ok c dim : weq (cell_vol f f2c c) w0 = false →
  py_average dim (omap (λ x, fg_cen f !! x) (fine_of f2c c)) (omap (λ x, fg_vol f !! x) (fine_of f2c c)) =
  POk (map (λ k, wdiv (cell_moment f f2c c k) (cell_vol f f2c c)) (seq 0 dim)).
Proof using HF.
  intros Hz. unfold py_average. change (py_sum (omap (λ x, fg_vol f !! x) (fine_of f2c c))) with (cell_vol f f2c c). rewrite Hz.
  f_equal. apply map_ext. intros k. f_equal. unfold cell_moment. change py_sum with (@wsum_l A). f_equal.
  assert (∀ x, x ∈ fine_of f2c c → x < n) as Hlt by (intros x Hx%elem_of_fine_of; by eapply lookup_lt_Some).
  induction (fine_of f2c c) as [|x l IH]; [done|]. cbn [omap list_omap].
  destruct (lookup_lt_is_Some_2 (fg_cen f) x) as [cx Hcx]; [rewrite (ff_cen _ _ HF); apply Hlt; left|].
  destruct (lookup_lt_is_Some_2 (fg_vol f) x) as [v Hv]; [rewrite (ff_vol _ _ HF); apply Hlt; left|].
  rewrite Hcx, Hv. cbn [zip zip_with omap list_omap mbind option_bind fst snd].
  assert (∀ y, y ∈ l → y < n) as Hlt' by (intros y Hy; apply Hlt; by right). specialize (IH Hlt').
  destruct (cx !! k); cbn [mbind option_bind]; [f_equal|]; apply IH.
Qed.
Lemma zmax_ok (b : Z) l : foldl Z.max b l ∈ b :: l ∧ ∀ x, x ∈ b :: l → (x <= foldl Z.max b l)%Z.
Proof.
  revert b. induction l as [|y l IH]; intros b; simpl.
  - split; [left|]. intros x ->%elem_of_list_singleton. lia.
  - destruct (IH (Z.max b y)) as [H1 H2]. split.
    + apply elem_of_cons in H1 as [->|?]; [|right; by right]. destruct (Z.max_spec b y) as [[_ ->]|[_ ->]]; [right; left|left].
    + assert (Z.max b y <= foldl Z.max (Z.max b y) l)%Z by (apply H2; left).
      intros x [->|[->|Hx]%elem_of_cons]%elem_of_cons; [lia|lia|]. apply H2. by right.
Qed.
Definition bnd_of (c : nat) : Z :=
  let bs := omap (λ x, fg_bnd f !! x) (fine_of f2c c) in foldl Z.max (default 0%Z (head bs)) bs.
Lemma bnd_of_ok c : c ∈ f2c →
  (∃ x, f2c !! x = Some c ∧ fg_bnd f !! x = Some (bnd_of c)) ∧
  ∀ x b, f2c !! x = Some c → fg_bnd f !! x = Some b → (b <= bnd_of c)%Z.
Proof using HF.
  intros Hc. unfold bnd_of. set (bs := omap _ _).
  assert (∀ b, b ∈ bs ↔ ∃ x, f2c !! x = Some c ∧ fg_bnd f !! x = Some b) as Hbs by (intros b; apply elem_of_fine_vals).
  apply elem_of_list_lookup in Hc as [x Hx]. apply lookup_lt_Some in Hx as Hlt.
  destruct (lookup_lt_is_Some_2 (fg_bnd f) x) as [b Hb]; [by rewrite (ff_bnd _ _ HF)|].
  assert (b ∈ bs) as Hin by (apply Hbs; eauto). destruct bs as [|b0 bs']; [by apply elem_of_nil in Hin|].
  simpl. rewrite Z.max_id. destruct (zmax_ok b0 bs') as [H1 H2]. split; [by apply Hbs|].
  intros y b' Hy Hb'. apply H2, Hbs. eauto.
Qed.

(** ** The whole graph *)

Record pinv (m : nat) (ds : list (list (Z * W))) (g : pgraph) : Prop := {
  pi_len : length ds = m;
  pi_dict : ∀ a d, ds !! a = Some d → dspec (face_read f) a (faces f f2c a) d;
  pi_row_len : length (pg_row g) = S m;
  pi_row : ∀ i, i ≤ m → pg_row g !! i = Some (Z.of_nat (row_ptr ds i));
  pi_col : pg_col g = concat (map (fmap fst) ds);
  pi_val : pg_val g = concat (map (fmap snd) ds);
  pi_vol : pg_vol g = map (cell_vol f f2c) (seq 0 m);
  pi_bnd : pg_bnd g = map bnd_of (seq 0 m);
  pi_cen : pg_cen g = map (λ c, map (λ k, wdiv (cell_moment f f2c c k) (cell_vol f f2c c)) (seq 0 (default 0 (length <$> head (fg_cen f))))) (seq 0 m);
}.

Lemma zmax_zs x (l : list nat) : foldl Z.max (Z.of_nat x) (zs l) = Z.of_nat (foldl max x l).
Proof. revert x. induction l as [|y l IH]; intros x; [done|]. cbn [fmap list_fmap foldl]. rewrite <- Nat2Z.inj_max. apply IH. Qed.

Lemma py_build_unfold (z2c row col : list Z) (val vol : list W) (bnd : list Z) (cen : list (list W)) x l : z2c = x :: l →
  Forall (λ c, length c = default 0 (length <$> head cen)) cen → (0 <= foldl Z.max x l)%Z →
  py_build_coarse z2c row col val vol bnd cen =
  pfold (py_coarse z2c row col val vol bnd cen (default 0 (length <$> head cen))) (seq 0 (Z.to_nat (foldl Z.max x l + 1)))
    (PGraph [0%Z] [] [] [] [] []).
Proof. intros -> Hd Hx. unfold py_build_coarse. rewrite bool_decide_true by done. by rewrite bool_decide_false by lia. Qed.

Lemma row_ptr_snoc {T} (ds : list (list T)) d : row_ptr (ds ++ [d]) (S (length ds)) = row_ptr ds (length ds) + length d.
Proof.
  rewrite (row_ptr_S _ _ d) by (by rewrite list_lookup_middle). f_equal. by rewrite row_ptr_app.
Qed.

#[local] Notation step := (py_coarse (zs f2c) (zs (fg_idx f)) (zs (fg_adj f)) (fg_wgt f) (fg_vol f) (fg_bnd f) (fg_cen f)
  (default 0 (length <$> head (fg_cen f)))).
Lemma py_step_ok c ds g : c ∈ f2c → weq (cell_vol f f2c c) w0 = false → pinv c ds g →
  ∃ g', step g c = POk g' ∧ ∃ ds', pinv (S c) ds' g'.
Proof using HF.
  intros Hcin Hvz [I1 I2 I3 I4 I5 I6 I7 I8 I9]. set (dim := default 0 (length <$> head (fg_cen f))).
  unfold py_coarse. rewrite py_fcs_of. rewrite bool_decide_false.
  2:{ apply elem_of_list_lookup in Hcin as [x Hx]. apply elem_of_fine_of in Hx. intros Hn. rewrite Hn in Hx. by apply elem_of_nil in Hx. }
  rewrite !py_mask_of by apply HF. cbn [pbind]. rewrite (average_ok c dim) by auto. cbn [pbind].
  destruct (py_cells_ok c) as (d & Hd & HD). rewrite Hd. cbn [pbind]. eexists. split; [done|].
  exists (ds ++ [d]).
  assert (∀ {T} (h : nat → T), map h (seq 0 (S c)) = map h (seq 0 c) ++ [h c]) as Hseq by (intros T h; by rewrite seq_S, map_app).
  split; cbn [pg_row pg_col pg_val pg_vol pg_bnd pg_cen].
  + rewrite app_length. simpl. lia.
  + intros a d' Ha. apply lookup_app_Some in Ha as [Ha|[Hge Ha]]; [auto|]. rewrite I1 in *.
    apply list_lookup_singleton_Some in Ha as [Hz <-]. replace a with c by lia. done.
  + rewrite app_length, I3. simpl. lia.
  + intros i Hi. destruct (decide (i ≤ c)) as [Hic|Hic].
    * rewrite lookup_app_l by lia. rewrite (I4 i Hic). do 2 f_equal. symmetry. apply row_ptr_app. lia.
    * replace i with (S c) by lia. rewrite lookup_app_r by lia. rewrite I3, Nat.sub_diag. simpl. f_equal.
      assert (last (pg_row g) = Some (Z.of_nat (row_ptr ds c))) as ->.
      { rewrite last_lookup, I3. simpl. by apply I4. }
      simpl. rewrite <- I1. rewrite row_ptr_snoc. lia.
  + by rewrite I5, map_app, concat_app, <- (app_nil_r (d.*1)).
  + by rewrite I6, map_app, concat_app, <- (app_nil_r (d.*2)).
  + rewrite I7, Hseq. done.
  + rewrite I8, Hseq. done.
  + rewrite I9, Hseq. done.
Qed.
Lemma pinv_0 : pinv 0 [] (PGraph [0%Z] [] [] [] [] []).
Proof. split; try done. intros i Hi. simpl in Hi. replace i with 0 by lia. done. Qed.

Lemma py_coarse_unfold : ∃ m, m ∈ f2c ∧ (∀ c, c ∈ f2c → c ≤ m) ∧
  py_coarse_of f f2c = pfold step (seq 0 (S m)) (PGraph [0%Z] [] [] [] [] []).
Proof using HF.
  unfold py_coarse_of. pose proof (ff_pos _ _ HF) as Hpos.
  assert (∃ c0 l0, f2c = c0 :: l0) as (c0 & l0 & Hf2c) by (clear -Hpos; destruct f2c; [simpl in Hpos; lia|eauto]).
  pose proof (list_max_elt_ok (c0 :: l0)) as Hw. cbn [list_max_elt] in Hw. specialize (Hw ltac:(done)). simpl in Hw.
  rewrite <- Hf2c in Hw.
  erewrite (py_build_unfold (zs f2c) _ _ _ _ _ _ (Z.of_nat c0) (zs l0)).
  2:{ rewrite Hf2c. done. }
  2:{ apply Forall_forall. intros c Hc. apply elem_of_list_lookup in Hc as [x Hx].
      pose proof (ff_cen _ _ HF) as Hcl. destruct (lookup_lt_is_Some_2 (fg_cen f) 0) as [cc Hcc]; [lia|].
      rewrite head_lookup, Hcc. simpl. by eapply (ff_dim _ _ HF x). }
  2:{ rewrite zmax_zs. lia. }
  rewrite zmax_zs. set (m := foldl max c0 l0) in *. destruct Hw as [Hm Hall].
  replace (Z.to_nat (Z.of_nat m + 1)) with (S m) by lia.
  exists m. done.
Qed.
Lemma py_steps_ok k : (∀ c, c < k → c ∈ f2c) → (∀ c, c ∈ f2c → weq (cell_vol f f2c c) w0 = false) →
  ∃ g ds, pfold step (seq 0 k) (PGraph [0%Z] [] [] [] [] []) = POk g ∧ pinv k ds g.
Proof using HF.
  intros Hk Hvz. destruct (pfold_ok step (λ pre g, ∃ ds, pinv (length pre) ds g) (seq 0 k) (PGraph [0%Z] [] [] [] [] [])) as (g & Hg & ds & HI).
  - exists []. apply pinv_0.
  - intros pre c post g Heq [ds HI]. apply seq_split in Heq as (Hc & Hpre & Hcm). rewrite <- Hc in HI.
    destruct (py_step_ok c ds g) as (g' & Hg' & ds' & HI'); [by apply Hk|by apply Hvz, Hk|done|].
    exists g'. split; [done|]. exists ds'. rewrite app_length. cbn [length]. by rewrite Nat.add_1_r, <- Hc.
  - rewrite seq_length in HI. eauto.
Qed.

Lemma py_build_ok : contiguous f2c → (∀ c, c ∈ f2c → weq (cell_vol f f2c c) w0 = false) →
  ∃ g m ds, py_coarse_of f f2c = POk g ∧ m ∈ f2c ∧ (∀ c, c ∈ f2c → c ≤ m) ∧ pinv (S m) ds g.
Proof using HF.
  intros Hct Hvz. destruct py_coarse_unfold as (m & Hm & Hall & ->).
  destruct (py_steps_ok (S m)) as (g & ds & Hg & HI); [|done|exists g, m, ds; done]. intros c Hc. apply (contiguous_down f2c Hct m); [done|lia].
Qed.

Lemma pfold_app {S T} (h : S → T → pyres S) l k s : pfold h (l ++ k) s = (s <~ pfold h l s; pfold h k s).
Proof. revert s. induction l as [|x l IH]; intros s; [done|]. simpl. destruct (h s x); [apply IH|done]. Qed.

(** The first number left out. *)
Lemma py_build_hole : ¬ contiguous f2c → (∀ c, c ∈ f2c → weq (cell_vol f f2c c) w0 = false) →
  py_coarse_of f f2c = PRaise AssertionError.
Proof using HF.
  intros Hct Hvz. destruct py_coarse_unfold as (m & Hm & Hall & ->).
  assert (∃ c, c < S m ∧ c ∉ f2c ∧ ∀ d, d < c → d ∈ f2c) as (c & Hcm & Hc & Hd).
  { destruct (decide (Exists (λ c, c ∉ f2c) (seq 0 (S m)))) as [He|He].
    - apply Exists_exists in He as (c & Hc%elem_of_seq & Hn). destruct Hc as [_ Hc]. simpl in Hc. clear -Hn Hc.
      induction (lt_wf c) as [c _ IH]. destruct (decide (Exists (λ d, d ∉ f2c) (seq 0 c))) as [He|He].
      + apply Exists_exists in He as (d & Hd%elem_of_seq & Hdn). apply (IH d); first [lia|done].
      + exists c. split_and!; [done..|]. intros d Hd. destruct (decide (d ∈ f2c)) as [?|Hdn]; [done|].
        destruct He. apply Exists_exists. exists d. split; [apply elem_of_seq; lia|done].
    - destruct Hct. apply (contiguous_up f2c m Hm Hall). intros d Hdc. destruct (decide (d ∈ f2c)) as [?|Hdn]; [done|]. destruct He.
      apply Exists_exists. exists d. split; [|done]. apply elem_of_seq. lia. }
  destruct (py_steps_ok c Hd Hvz) as (g & ds & Hg & _).
  replace (S m) with (c + S (m - c)) by lia. rewrite seq_app, pfold_app, Hg. cbn [pbind seq pfold].
  replace (py_coarse (zs f2c) (zs (fg_idx f)) (zs (fg_adj f)) (fg_wgt f) (fg_vol f) (fg_bnd f) (fg_cen f)
    (default 0 (length <$> head (fg_cen f))) g (0 + c)) with (PRaise (T := pgraph) AssertionError); [done|].
  unfold py_coarse. rewrite py_fcs_of, bool_decide_true; [done|].
  destruct (fine_of f2c (0 + c)) as [|x l] eqn:He; [done|]. destruct Hc.
  assert (x ∈ fine_of f2c (0 + c)) as Hx by (rewrite He; left). apply elem_of_fine_of in Hx. by eapply elem_of_list_lookup_2.
Qed.

(** The coarse graph as lists of natural numbers. *)
Record pbuilt (g : pgraph) (m : nat) (idx adj : list nat) : Prop := {
  pb_row : pg_row g = zs idx;
  pb_col : pg_col g = zs adj;
  pb_csr : csr (S m) idx adj;
  pb_nodup : ∀ a, NoDup (nb_list idx adj a);
  pb_edge : ∀ a b, edge idx adj a b ↔ coarse_edge f f2c a b;
  pb_val_len : length (pg_val g) = length adj;
  pb_val : ∀ k a b p q, idx !! a = Some p → idx !! S a = Some q → p ≤ k < q → adj !! k = Some b →
    pg_val g !! k = Some (wsum_l (omap (face_read f) (faces f f2c a b)));
}.
Lemma pinv_built m ds g : (∀ c, c ∈ f2c → c ≤ m) → pinv (S m) ds g → ∃ idx adj, pbuilt g m idx adj.
Proof.
  intros Hall [I1 I2 I3 I4 I5 I6 I7 I8 I9].
  set (rows := map (λ d : list (Z * W), map (λ zw, Z.to_nat zw.1) d) ds).
  set (idx := map (row_ptr ds) (seq 0 (S (S m)))).
  assert (length rows = S m) as Hrl by (unfold rows; by rewrite map_length).
  assert (∀ i, row_ptr ds i = row_ptr rows i) as Hrp.
  { intros i. apply row_ptr_len. unfold rows. rewrite map_map. apply map_ext. intros d. by rewrite map_length. }
  assert (length idx = S (length rows)) as Hil by (unfold idx; rewrite map_length, seq_length; lia).
  assert (∀ i, i ≤ length rows → idx !! i = Some (row_ptr rows i)) as Hidx.
  { intros i Hi. unfold idx. change (map (row_ptr ds)) with (fmap (M := list) (row_ptr ds)). rewrite list_lookup_fmap, lookup_seq_lt by lia.
    simpl. by rewrite Hrp. }
  assert (∀ a r, rows !! a = Some r → ∃ d, ds !! a = Some d ∧ r = map (λ zw, Z.to_nat zw.1) d) as Hrow.
  { intros a r Hr. unfold rows in Hr. change (((λ d : list (Z * W), map (λ zw, Z.to_nat zw.1) d) <$> ds) !! a = Some r) in Hr.
    rewrite list_lookup_fmap in Hr. destruct (ds !! a) as [d|]; simpl in Hr; naive_solver. }
  assert (∀ a d, ds !! a = Some d → d.*1 = zs (map (λ zw, Z.to_nat zw.1) d)) as Hkey.
  { intros a d Ha. destruct (I2 a d Ha) as [_ Hk _]. assert (∀ z, z ∈ d.*1 → (0 <= z)%Z) as Hp by (intros z (b & -> & _)%Hk; lia).
    clear -Hp. induction d as [|[z w] d IH]; [done|]. cbn [fmap list_fmap map fst] in *. f_equal.
    - rewrite Z2Nat.id; [done|]. apply Hp. left.
    - apply IH. intros y Hy. apply Hp. by right. }
  assert (∀ a d b, ds !! a = Some d → b ∈ map (λ zw, Z.to_nat zw.1) d ↔ coarse_edge f f2c a b) as Hmem.
  { intros a d b Ha. rewrite <- elem_of_zs, <- (Hkey a d Ha). destruct (I2 a d Ha) as [_ Hk _]. rewrite Hk. split.
    - intros (b' & ?%Nat2Z.inj & Hb & Hf). subst b'. by apply faces_nil.
    - intros He. pose proof He as [Hab _]. exists b. split_and!; [done|done|]. by apply faces_nil. }
  assert (∀ a b, edge idx (concat rows) a b ↔ coarse_edge f f2c a b) as Hedge.
  { intros a b. rewrite (rows_edge rows) by done. split.
    - intros (r & Hr & Hb). destruct (Hrow a r Hr) as (d & Ha & ->). by eapply Hmem.
    - intros He. assert (a < S m) as Ha.
      { destruct He as (_ & x & _ & Hx & _). apply elem_of_list_lookup_2, Hall in Hx. lia. }
      destruct (lookup_lt_is_Some_2 ds a) as [d Hd]; [lia|]. exists (map (λ zw, Z.to_nat zw.1) d). split; [|by eapply Hmem].
      unfold rows. change (((λ d : list (Z * W), map (λ zw, Z.to_nat zw.1) d) <$> ds) !! a = Some (map (λ zw, Z.to_nat zw.1) d)).
      by rewrite list_lookup_fmap, Hd. }
  exists idx, (concat rows). split.
  - apply list_eq. intros i. destruct (decide (i < S (S m))) as [Hi|Hi].
    + rewrite I4 by lia. rewrite list_lookup_fmap, Hidx by lia. simpl. by rewrite Hrp.
    + rewrite !lookup_ge_None_2; [done|rewrite fmap_length; lia|lia].
  - rewrite I5. unfold rows. clear -Hkey. assert (∀ d, d ∈ ds → d.*1 = zs (map (λ zw, Z.to_nat zw.1) d)) as Hk.
    { intros d [a Ha]%elem_of_list_lookup. by eapply Hkey. }
    clear Hkey. induction ds as [|d l IH]; [done|]. cbn [map concat]. rewrite fmap_app, <- Hk by left. f_equal.
    apply IH. intros d' Hd'. apply Hk. by right.
  - rewrite <- Hrl. apply rows_csr; [done|done|]. intros a r b Hr Hb. destruct (Hrow a r Hr) as (d & Ha & ->).
    apply (Hmem a d b Ha) in Hb as (_ & _ & y & _ & Hy & _). apply elem_of_list_lookup_2, Hall in Hy. lia.
  - intros a. destruct (decide (a < S m)) as [Ha|Ha].
    + destruct (lookup_lt_is_Some_2 rows a) as [r Hr]; [lia|]. rewrite (rows_nb_list _ _ _ _ Hil Hidx Hr).
      destruct (Hrow a r Hr) as (d & Hd & ->). eapply (NoDup_fmap_1 Z.of_nat). rewrite <- (Hkey a d Hd). by apply (I2 a).
    + unfold nb_list. rewrite (lookup_ge_None_2 _ (S a)) by lia. destruct (_ !! a); constructor.
  - done.
  - rewrite I6. unfold rows. clear. induction ds as [|d l IH]; [done|]. cbn [map concat]. by rewrite !app_length, IH, fmap_length, map_length.
  - intros k a b p q Hp Hq Hk Hkb. apply lookup_lt_Some in Hq as Hlt. rewrite Hil in Hlt. rewrite Hidx in Hp, Hq by lia. simplify_eq.
    destruct (lookup_lt_is_Some_2 ds a) as [d Hd]; [lia|].
    assert (rows !! a = Some (map (λ zw, Z.to_nat zw.1) d)) as Hr.
    { unfold rows. change (((λ d : list (Z * W), map (λ zw, Z.to_nat zw.1) d) <$> ds) !! a = Some (map (λ zw, Z.to_nat zw.1) d)).
      by rewrite list_lookup_fmap, Hd. }
    assert (map (fmap snd) ds !! a = Some (d.*2)) as Hr2.
    { change ((((fmap snd) : list (Z * W) → list W) <$> ds) !! a = Some (d.*2)). by rewrite list_lookup_fmap, Hd. }
    destruct (row_of_pos _ _ _ _ Hr Hk) as (j & -> & Hj & Heq). rewrite Heq in Hkb. rewrite map_length in Hj.
    rewrite <- Hrp, (row_ptr_len ds (map (fmap snd) ds)).
    2:{ rewrite map_map. apply map_ext. intros x. by rewrite fmap_length. }
    rewrite I6, (concat_lookup _ _ _ _ Hr2) by (by rewrite fmap_length).
    rewrite list_lookup_fmap. assert (∃ z w, d !! j = Some (z, w) ∧ b = Z.to_nat z) as (z & w & Hdj & ->).
    { destruct (lookup_lt_is_Some_2 d j) as [[z w] Hz]; [done|]. exists z, w. split; [done|].
      pose proof (list_lookup_fmap (λ zw : Z * W, Z.to_nat zw.1) d j) as E. rewrite Hz in E.
      change (map (λ zw : Z * W, Z.to_nat zw.1) d !! j = Some (Z.to_nat z)) in E. congruence. }
    rewrite Hdj. simpl.
    f_equal. destruct (I2 a d Hd) as [_ Hkk Hvv]. apply Hvv.
    assert (z ∈ d.*1) as Hz by (apply elem_of_list_fmap; exists (z, w); split; [done|by eapply elem_of_list_lookup_2]).
    apply Hkk in Hz as (b & -> & _). rewrite Nat2Z.id. by eapply elem_of_list_lookup_2.
Qed.
End coarse.
