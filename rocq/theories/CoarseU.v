(** * CoarseU: the properties of coarse graphs (C20-C24) *)

From Verif Require Import Lib Spec SpecCoarse UtilM CorrectP CoarseT.

(** ** Sums *)

Section sums.
Context {A : Arith}.
Context (Hass : ∀ a b c, wadd a (wadd b c) = wadd (wadd a b) c).
Context (Hcomm : ∀ a b, wadd a b = wadd b a) (Hid : ∀ a, wadd w0 a = a).

Lemma wsum_l_acc a (l : list W) : foldl wadd a l = wadd a (wsum_l l).
Proof using Hass Hcomm Hid.
  unfold wsum_l. revert a. induction l as [|x l IH]; intros a; simpl; [by rewrite Hcomm, Hid|].
  rewrite IH, (IH (wadd w0 x)), Hid. symmetry. apply Hass.
Qed.
Lemma wsum_l_cons x (l : list W) : wsum_l (x :: l) = wadd x (wsum_l l).
Proof using Hass Hcomm Hid. unfold wsum_l at 1. simpl. by rewrite wsum_l_acc, Hid. Qed.
Lemma wsum_l_app (l k : list W) : wsum_l (l ++ k) = wadd (wsum_l l) (wsum_l k).
Proof using Hass Hcomm Hid. unfold wsum_l at 1. rewrite foldl_app. apply wsum_l_acc. Qed.
Lemma wsum_l_perm (l k : list W) : l ≡ₚ k → wsum_l l = wsum_l k.
Proof using Hass Hcomm Hid.
  induction 1 as [| |x y l|]; [done| | |congruence].
  - rewrite !wsum_l_cons. congruence.
  - rewrite !wsum_l_cons. rewrite !Hass. by rewrite (Hcomm y x).
Qed.
Lemma wsum_l_concat (ls : list (list W)) : wsum_l (map wsum_l ls) = wsum_l (concat ls).
Proof using Hass Hcomm Hid.
  induction ls as [|l ls IH]; [done|]. simpl. rewrite wsum_l_cons, wsum_l_app. by rewrite IH.
Qed.
End sums.

(** ** The coarse cells partition the fine ones *)

Lemma fine_of_perm (f2c : list nat) m : (∀ c, c ∈ f2c → c ≤ m) →
  concat (map (fine_of f2c) (seq 0 (S m))) ≡ₚ seq 0 (length f2c).
Proof.
  intros Hm. apply NoDup_Permutation; [|apply NoDup_seq|].
  - assert (∀ l, NoDup l → NoDup (concat (map (fine_of f2c) l))) as Hg; [|apply Hg, NoDup_seq].
    induction 1 as [|c l Hc Hnd IH]; simpl; [constructor|]. apply NoDup_app. split_and!; [apply fine_of_NoDup| |done].
    intros x Hx%elem_of_fine_of Hin. apply elem_of_list_In, in_concat in Hin as (r & Hr & Hxr%elem_of_list_In).
    apply in_map_iff in Hr as (c' & <- & Hc'%elem_of_list_In). apply elem_of_fine_of in Hxr. congruence.
  - intros x. rewrite elem_of_list_In, in_concat, elem_of_seq. split.
    + intros (r & Hr & Hx%elem_of_list_In). apply in_map_iff in Hr as (c & <- & _).
      apply elem_of_fine_of, lookup_lt_Some in Hx. lia.
    + intros [_ Hx]. simpl in Hx. destruct (lookup_lt_is_Some_2 _ _ Hx) as [c Hc].
      exists (fine_of f2c c). split; [|by apply elem_of_list_In, elem_of_fine_of].
      apply in_map, elem_of_list_In, elem_of_seq. apply elem_of_list_lookup_2, Hm in Hc. lia.
Qed.

Section coarse.
Context {A : Arith}.
Implicit Types (f : fgraph) (f2c : list nat) (g : cgraph).

Lemma elem_of_faces f f2c a b k : k ∈ faces f f2c a b ↔
  ∃ x p q y, f2c !! x = Some a ∧ fg_idx f !! x = Some p ∧ fg_idx f !! S x = Some q ∧ p ≤ k < q ∧
    fg_adj f !! k = Some y ∧ f2c !! y = Some b.
Proof.
  unfold faces. rewrite elem_of_list_bind. setoid_rewrite elem_of_fine_of. split.
  - intros (x & Hk & Hx). destruct (fg_idx f !! x) as [p|] eqn:Hp; [|by apply elem_of_nil in Hk].
    destruct (fg_idx f !! S x) as [q|] eqn:Hq; [|by apply elem_of_nil in Hk].
    apply elem_of_list_filter in Hk as [Hb Hk]. apply elem_of_seq in Hk.
    destruct (fg_adj f !! k) as [y|] eqn:Hy; [|done]. simpl in Hb. exists x, p, q, y. split_and!; [done..|lia|lia|done|done].
  - intros (x & p & q & y & Hx & Hp & Hq & Hk & Hy & Hb). exists x. split; [|done]. rewrite Hp, Hq.
    apply elem_of_list_filter. rewrite Hy. split; [done|]. apply elem_of_seq. lia.
Qed.
Lemma faces_nil f f2c a b : a ≠ b → faces f f2c a b ≠ [] ↔ coarse_edge f f2c a b.
Proof.
  intros Hab. split.
  - destruct (faces f f2c a b) as [|k l] eqn:He; [done|]. intros _. split; [done|].
    assert (k ∈ faces f f2c a b) as Hk by (rewrite He; left).
    apply elem_of_faces in Hk as (x & p & q & y & Hx & Hp & Hq & Hk & Hy & Hb). exists x, y. split_and!; [done..|].
    exists p, q, k. done.
  - intros (_ & x & y & Hx & Hy & p & q & k & Hp & Hq & Hk & Hky) Hn.
    assert (k ∈ faces f f2c a b) as Hin; [|rewrite Hn in Hin; by apply elem_of_nil in Hin].
    apply elem_of_faces. exists x, p, q, y. done.
Qed.

Record built f f2c g (m : nat) : Prop := {
  bu_csr : csr (S m) (cg_idx g) (cg_adj g);
  bu_sorted : ∀ a, StronglySorted lt (nb_list (cg_idx g) (cg_adj g) a);
  bu_edge : ∀ a b, edge (cg_idx g) (cg_adj g) a b ↔ coarse_edge f f2c a b;
  bu_wgt_len : length (cg_wgt g) = length (cg_adj g);
  bu_wgt : ∀ k a b, coarse_pos g k a b →
    cg_wgt g !! k = Some (wsum_l (omap (λ k, y ← fg_adj f !! k; fg_wgt f !! y) (faces f f2c a b)));
  bu_vol_len : length (cg_vol g) = S m;
  bu_vol : ∀ c, c ≤ m → cg_vol g !! c = Some (wsum_l (omap (λ x, fg_vol f !! x) (fine_of f2c c)));
  bu_cen_len : length (cg_cen g) = S m;
  bu_cen : ∀ c c0, c ≤ m → fg_cen f !! 0 = Some c0 →
    ∃ x, cg_cen g !! c = Some x ∧ length x = length c0 ∧ ∀ k, k < length c0 → x !! k = Some (cen_of f f2c c k);
  bu_prio_len : length (cg_prio g) = S m;
  bu_prio : ∀ c, c ≤ m → cg_prio g !! c = Some (wmax_from wminv (omap (λ x, fg_prio f !! x) (fine_of f2c c)));
  bu_bnd_len : length (cg_bnd g) = S m;
  bu_bnd : ∀ c, c ≤ m → cg_bnd g !! c = Some (zmax_from int_min (omap (λ x, fg_bnd f !! x) (fine_of f2c c)));
}.

Lemma elem_of_skeys {V} (m : gmap nat V) b : b ∈ skeys m ↔ is_Some (m !! b).
Proof. unfold skeys. by rewrite elem_of_sset, elem_of_dom. Qed.

Lemma build_built f f2c : fine_ok f f2c →
  ∃ g m, build_coarse_graph f f2c = Ok g ∧ m ∈ f2c ∧ (∀ c, c ∈ f2c → c ≤ m) ∧ built f f2c g m.
Proof.
  intros HF. destruct (build_ok f f2c HF) as (m & c0 & g & ms & vol & cen0 & Hc0 & Hm & Hall & Hb & HI & Hvl & Hv).
  exists g, m. split_and!; [done..|].
  destruct HI as [J1 J2 J3 J4 J5 J6 J7 J8 J9 J10 J11 J12 J13 J14].
  assert (length (map skeys ms) = S m) as Hml by by rewrite map_length.
  assert (∀ a r, map skeys ms !! a = Some r → ∃ mm, ms !! a = Some mm ∧ r = skeys mm) as Hrow.
  { intros a r Hr. change ((skeys <$> ms) !! a = Some r) in Hr. rewrite list_lookup_fmap in Hr.
    destruct (ms !! a) as [mm|]; simpl in Hr; naive_solver. }
  assert (∀ a mm b, ms !! a = Some mm → is_Some (mm !! b) ↔ coarse_edge f f2c a b) as Hmm.
  { intros a mm b Ha. rewrite (J2 _ _ Ha b). destruct (decide (b = a)) as [->|Hne].
    - rewrite decide_True by (by left). split; [by intros [? ?]|]. intros [? _]. done.
    - rewrite <- faces_nil by done. change (faces_in f f2c (fine_of f2c a) b) with (faces f f2c a b).
      destruct (decide _) as [[?|Hn]|Hn]; [done| |].
      + rewrite Hn. split; [by intros [? ?]|done].
      + split; [|by eauto]. intros _ Hf. apply Hn. by right. }
  assert (∀ a b, edge (cg_idx g) (cg_adj g) a b ↔ coarse_edge f f2c a b) as Hedge.
  { intros a b. rewrite J5. rewrite (rows_edge (map skeys ms)) by (rewrite ?Hml; done). split.
    - intros (r & Hr & Hin). destruct (Hrow _ _ Hr) as (mm & Ha & ->). apply (Hmm a mm); [done|].
      by apply elem_of_skeys.
    - intros He. assert (a < S m) as Ha.
      { destruct He as (_ & x & _ & Hx & _). apply elem_of_list_lookup_2, Hall in Hx. lia. }
      destruct (lookup_lt_is_Some_2 ms a) as [mm Hma]; [lia|]. exists (skeys mm). split.
      + change ((skeys <$> ms) !! a = Some (skeys mm)). by rewrite list_lookup_fmap, Hma.
      + apply elem_of_skeys. by apply (Hmm a). }
  split; try done; try congruence.
  - rewrite J5. rewrite <- Hml. apply rows_csr; [by rewrite Hml| |].
    { intros i. rewrite Hml. apply J4. }
    intros a r b Hr Hin. destruct (Hrow _ _ Hr) as (mm & Ha & ->).
    apply elem_of_skeys, (Hmm a mm) in Hin as (_ & _ & y & _ & Hy & _); [|done].
    apply elem_of_list_lookup_2, Hall in Hy. lia.
  - intros a. destruct (decide (a < S m)) as [Ha|Ha].
    + destruct (lookup_lt_is_Some_2 (map skeys ms) a) as [r Hr]; [lia|].
      rewrite J5, (rows_nb_list _ _ _ _ ltac:(by rewrite Hml) ltac:(by rewrite Hml) Hr).
      destruct (Hrow _ _ Hr) as (mm & _ & ->). apply sset_sorted.
    + unfold nb_list. rewrite (lookup_ge_None_2 _ (S a)) by lia. destruct (_ !! a); constructor.
  - rewrite J5, J6. clear. induction ms as [|x ms IH]; [done|]. simpl. rewrite !app_length, IH.
    f_equal. unfold vals. by rewrite map_length.
  - intros k a b (p & q & Hp & Hq & Hk & Hkb). apply lookup_lt_Some in Hq as Hlt. rewrite J3 in Hlt.
    rewrite J4 in Hp, Hq by lia. simplify_eq.
    destruct (lookup_lt_is_Some_2 ms a) as [mm Hma]; [lia|].
    assert (map skeys ms !! a = Some (skeys mm)) as Hr.
    { change ((skeys <$> ms) !! a = Some (skeys mm)). by rewrite list_lookup_fmap, Hma. }
    assert (map vals ms !! a = Some (vals mm)) as Hr'.
    { change ((vals <$> ms) !! a = Some (vals mm)). by rewrite list_lookup_fmap, Hma. }
    destruct (row_of_pos _ _ _ _ Hr Hk) as (j & -> & Hj & Heq). rewrite J5, Heq in Hkb.
    rewrite (row_ptr_len (map skeys ms) (map vals ms)).
    2:{ rewrite !map_map. apply map_ext. intros x. unfold vals. by rewrite map_length. }
    rewrite J6, (concat_lookup _ _ _ _ Hr') by (unfold vals; by rewrite map_length).
    change (((λ k, default w0 (mm !! k)) <$> skeys mm) !! j = Some (wsum_l (omap (face_read f) (faces f f2c a b)))).
    rewrite list_lookup_fmap, Hkb. simpl. f_equal. rewrite (J2 _ _ Hma b).
    assert (coarse_edge f f2c a b) as Hce.
    { apply (Hmm a mm); [done|]. apply elem_of_skeys. by eapply elem_of_list_lookup_2. }
    pose proof Hce as [Hab _]. apply faces_nil in Hce; [|done].
    rewrite decide_False; [done|]. intros [?|?]; done.
  - intros c Hc. rewrite J7. by apply Hv.
  - intros c c0' Hc Hc0'. simplify_eq. apply J10. lia.
  - intros c Hc. apply J12. lia.
  - intros c Hc. apply J14. lia.
Qed.

Lemma C20_lem f f2c : fine_ok f f2c →
  ∃ g m, build_coarse_graph f f2c = Ok g ∧ m ∈ f2c ∧ (∀ c, c ∈ f2c → c ≤ m) ∧
    csr (S m) (cg_idx g) (cg_adj g) ∧ simple_csr (cg_idx g) (cg_adj g) ∧
    (∀ a b, edge (cg_idx g) (cg_adj g) a b ↔ coarse_edge f f2c a b) ∧
    (csr_sym (fg_idx f) (fg_adj f) → csr_sym (cg_idx g) (cg_adj g)) ∧
    length (cg_wgt g) = length (cg_adj g) ∧
    length (cg_vol g) = S m ∧ length (cg_cen g) = S m ∧
    length (cg_prio g) = S m ∧ length (cg_bnd g) = S m.
Proof.
  intros HF. destruct (build_built f f2c HF) as (g & m & Hb & Hm & Hall & []).
  exists g, m. split_and!; try done.
  - intros a. split.
    + assert (∀ l, StronglySorted lt l → NoDup l) as Hnd; [|apply Hnd, bu_sorted0].
      clear. induction 1 as [|x l Hs IH Hx]; constructor; [|done]. intros Hin.
      rewrite Forall_forall in Hx. specialize (Hx _ Hin). lia.
    + rewrite bu_edge0. intros [? _]. done.
  - intros Hs a b. rewrite !bu_edge0. intros (Hab & x & y & Hx & Hy & He). split; [done|].
    exists y, x. split_and!; [done..|]. by apply Hs.
Qed.

(** Enough weights: each cell has a neighbour. *)
Lemma no_isolated_len n idx adj : csr n idx adj → (∀ x, x < n → ∃ y, edge idx adj x y) → n ≤ length adj.
Proof.
  intros HC Hn.
  assert (∀ i z, i ≤ n → idx !! i = Some z → i ≤ z) as Hi.
  { induction i as [|i IH]; intros z Hi Hz; [lia|].
    destruct (Hn i ltac:(lia)) as (y & p & q & k & Hp & Hq & Hk & _). simplify_eq.
    specialize (IH p ltac:(lia) Hp). lia. }
  apply (Hi n); [done|apply HC].
Qed.
Lemma C20_isolated_lem f f2c : let n := length f2c in
  0 < n → csr n (fg_idx f) (fg_adj f) → length (fg_wgt f) = length (fg_adj f) →
  length (fg_vol f) = n → length (fg_cen f) = n →
  (∀ x c0 c, fg_cen f !! 0 = Some c0 → fg_cen f !! x = Some c → length c = length c0) →
  length (fg_prio f) = n → length (fg_bnd f) = n →
  (∀ x, x < n → ∃ y, edge (fg_idx f) (fg_adj f) x y) → fine_ok f f2c.
Proof.
  intros n ? HC Hw ? ? ? ? ? Hn. split; try done. intros x y He _. rewrite Hw.
  pose proof (no_isolated_len _ _ _ HC Hn). destruct He as (p & q & k & _ & _ & _ & Hk).
  apply (csr_col _ _ _ HC) in Hk. unfold n in *. lia.
Qed.

(** C21 needs nothing but a normal return. *)
Lemma step1_vol f f2c dim nc : okp (foldM (cg_step1 f dim) (imap (λ fc cc, (fc, cc)) f2c)
    (replicate nc ∅, replicate nc w0, replicate nc (replicate dim w0))) (λ st, length st.1.2 = nc ∧
      ∀ c, c < nc → st.1.2 !! c = Some (wsum_l (omap (λ x, fg_vol f !! x) (fine_of f2c c)))).
Proof.
  eapply okp_mono; [apply (okp_foldM _ (λ pre st, length st.1.2 = nc ∧ ∀ c, c < nc →
    st.1.2 !! c = Some (wsum_l (omap (λ x, fg_vol f !! x) (fine_upto f2c (length pre) c)))))|].
  - simpl. rewrite replicate_length. split; [done|]. intros c Hc. by rewrite lookup_replicate_2.
  - intros pre [fc cc] post [[c2f vol] cen] Heq [Hl Hv].
    assert (fc = length pre ∧ f2c !! length pre = Some cc) as [-> Hcc].
    { assert (imap (λ fc cc, (fc, cc)) f2c !! length pre = Some (fc, cc)) as Hk.
      { rewrite Heq. by rewrite list_lookup_middle. }
      rewrite list_lookup_imap in Hk. destruct (f2c !! length pre); simpl in Hk; naive_solver. }
    simpl in Hl, Hv. unfold cg_step1.
    wstep. apply okp_True. intros s. wstep. apply okp_True. intros c2f'.
    wstep. apply okp_eq. intros v Hvc%vget_inv. wstep. apply okp_eq. intros fv Hfv%vget_inv.
    wstep. apply okp_eq. intros vol' [Hlt ->]%vset_inv. do 3 (wstep; apply okp_True; intros ?).
    simpl. rewrite insert_length. split; [done|]. intros c Hc. rewrite app_length. simpl.
    rewrite Nat.add_1_r, fine_upto_S. destruct (decide (c = cc)) as [->|Hne].
    + rewrite list_lookup_insert by lia. rewrite decide_True by done.
      rewrite (omap_snoc (λ x, fg_vol f !! x) _ _ _ Hfv), wsum_l_snoc.
      rewrite Hv in Hvc by done. by simplify_eq.
    + rewrite list_lookup_insert_ne by done. rewrite decide_False by congruence. rewrite app_nil_r. auto.
  - intros st. by rewrite imap_length.
Qed.
Lemma step2_vol f f2c dim c2f l g : okp (foldM (cg_step2 f f2c dim c2f) l g) (λ g', cg_vol g' = cg_vol g).
Proof.
  apply okp_foldM_inv; [done|]. intros cc g' _ Hg. unfold cg_step2.
  do 4 (wstep; apply okp_True; intros ?). destruct a2 as [[bnd prio] m].
  do 3 (wstep; apply okp_True; intros ?). simpl. done.
Qed.
Lemma C21_lem f f2c g : build_coarse_graph f f2c = Ok g →
  ∃ m, m ∈ f2c ∧ (∀ c, c ∈ f2c → c ≤ m) ∧ length (cg_vol g) = S m ∧
    (∀ c, c ≤ m → cg_vol g !! c = Some (wsum_l (omap (λ x, fg_vol f !! x) (fine_of f2c c)))) ∧
    (length (fg_vol f) = length f2c →
     (∀ a b c, wadd a (wadd b c) = wadd (wadd a b) c) → (∀ a b, wadd a b = wadd b a) →
     (∀ a, wadd w0 a = a) → wsum_l (cg_vol g) = wsum_l (fg_vol f)).
Proof.
  intros Hb. assert (f2c ≠ []) as Hne by (intros ->; done).
  pose proof (list_max_elt_ok f2c Hne) as Hw. apply wp_eq in Hw as (m & Hme & Hm & Hall).
  assert (length (cg_vol g) = S m ∧
    ∀ c, c < S m → cg_vol g !! c = Some (wsum_l (omap (λ x, fg_vol f !! x) (fine_of f2c c)))) as [Hlen Hv].
  { revert g Hb. apply okp_eq. unfold build_coarse_graph. rewrite Hme, bind_ok.
    wstep. apply okp_True. intros c0. wstep. eapply okp_mono; [apply step1_vol|].
    intros [[c2f vol] cen] [Hl Hv]. eapply okp_mono; [apply step2_vol|]. simpl in *. by intros g ->. }
  exists m. split_and!; try done; [intros c Hc; apply Hv; lia|]. intros Hvl Hass Hcomm Hid.
  assert (cg_vol g = map wsum_l (map (λ c, omap (λ x, fg_vol f !! x) (fine_of f2c c)) (seq 0 (S m)))) as ->.
  { apply list_eq. intros c. rewrite map_map.
    change (cg_vol g !! c = ((λ c, wsum_l (omap (λ x, fg_vol f !! x) (fine_of f2c c))) <$> seq 0 (S m)) !! c).
    rewrite list_lookup_fmap. destruct (decide (c < S m)) as [Hc|Hc].
    - rewrite lookup_seq_lt by done. simpl. by apply Hv.
    - rewrite (lookup_ge_None_2 (seq 0 (S m))) by (rewrite seq_length; lia). apply lookup_ge_None_2. lia. }
  rewrite wsum_l_concat by done. apply wsum_l_perm; try done.
  assert (∀ l, concat (map (λ c, omap (λ x, fg_vol f !! x) (fine_of f2c c)) l) =
    omap (λ x, fg_vol f !! x) (concat (map (fine_of f2c) l))) as ->.
  { induction l as [|c l IH]; [done|]. cbn [map concat]. by rewrite omap_app, IH. }
  rewrite (fine_of_perm f2c m Hall). rewrite <- Hvl.
  assert (∀ l : list W, omap (λ x, l !! x) (seq 0 (length l)) = l) as Hg; [|by rewrite Hg].
  clear. intros l. induction l as [|x l IH] using rev_ind; [done|].
  rewrite app_length. simpl. rewrite Nat.add_1_r, seq_S, omap_app. simpl.
  rewrite list_lookup_middle by done. f_equal. rewrite <- IH at 2.
  apply list_omap_ext, Forall_Forall2_diag, Forall_forall. intros y Hy%elem_of_seq. by rewrite lookup_app_l by lia.
Qed.

(** C22: the weights added are those found at the index of the neighbour, not
    at the position of the face; the two sums are the same for constant weights. *)
Lemma C22_lem f f2c : fine_ok f f2c →
  ∃ g, build_coarse_graph f f2c = Ok g ∧ length (cg_wgt g) = length (cg_adj g) ∧
    ∀ k a b, coarse_pos g k a b →
      cg_wgt g !! k = Some (wsum_l (omap (λ k, y ← fg_adj f !! k; fg_wgt f !! y) (faces f f2c a b))) ∧
      ∀ w, length (fg_wgt f) = length (fg_adj f) → (∀ w', w' ∈ fg_wgt f → w' = w) →
        cg_wgt g !! k = Some (wsum_l (omap (λ k, fg_wgt f !! k) (faces f f2c a b))).
Proof.
  intros HF. destruct (build_built f f2c HF) as (g & m & Hb & Hm & Hall & []).
  exists g. split_and!; try done. intros k a b Hk. split; [by apply bu_wgt0|]. intros w Hlen Hw'.
  assert (∀ j, j < length (fg_wgt f) → fg_wgt f !! j = Some w) as Hw.
  { intros j Hj. destruct (lookup_lt_is_Some_2 _ _ Hj) as [w' Hj']. rewrite Hj'. f_equal.
    by eapply Hw', elem_of_list_lookup_2. }
  rewrite (bu_wgt0 _ _ _ Hk). f_equal. f_equal.
  apply list_omap_ext, Forall_Forall2_diag, Forall_forall. intros j Hj.
  apply elem_of_faces in Hj as (x & p & q & y & Hx & Hp & Hq & Hj & Hy & Hby). rewrite Hy. simpl.
  apply lookup_lt_Some in Hy as Hjl. rewrite <- Hlen in Hjl. rewrite (Hw j Hjl).
  assert (coarse_edge f f2c a b) as [Hab _].
  { apply bu_edge0. destruct Hk as (p' & q' & ? & ? & ? & ?). exists p', q', k. done. }
  apply Hw. eapply (ff_wgt _ _ HF x); [|congruence]. exists p, q, j. done.
Qed.

(** C23: the volume-weighted sum is divided by the number of cells.  It is the
    volume-weighted average if the volumes of the cell add up to that number. *)
Lemma C23_lem f f2c : fine_ok f f2c →
  ∃ g m, build_coarse_graph f f2c = Ok g ∧ (∀ c, c ∈ f2c → c ≤ m) ∧ length (cg_cen g) = S m ∧
    ∀ c c0, c ≤ m → fg_cen f !! 0 = Some c0 →
      ∃ x, cg_cen g !! c = Some x ∧ length x = length c0 ∧
        ∀ k, k < length c0 → ∃ z, x !! k = Some z ∧
          let N := wofZ (Z.of_nat (length (fine_of f2c c))) in
          let vols := wsum_l (omap (λ y, fg_vol f !! y) (fine_of f2c c)) in
          let moment := wsum_l (omap (λ y, v ← fg_vol f !! y; cy ← fg_cen f !! y; t ← cy !! k; Some (wmul v t))
                                  (fine_of f2c c)) in
          z = wmul moment (wdiv w1 N) ∧
          ((∀ a, wmul (wmul a (wdiv w1 N)) N = a) → vols = N → wmul z vols = moment).
Proof.
  intros HF. destruct (build_built f f2c HF) as (g & m & Hb & Hm & Hall & []).
  exists g, m. split_and!; try done. intros c c0 Hc Hc0. destruct (bu_cen0 c c0 Hc Hc0) as (x & Hx & Hl & Hk).
  exists x. split_and!; [done..|]. intros k Hlt. exists (cen_of f f2c c k). split; [by apply Hk|].
  intros N vols moment. split; [done|]. intros Hdiv ->. apply Hdiv.
Qed.

Lemma wmax_from_spec (P : W → Prop) (l : list W) p : weak_order wlt P → P p → (∀ w, w ∈ l → P w) →
  (wmax_from p l = p ∨ wmax_from p l ∈ l) ∧ wlt (wmax_from p l) p = false ∧
  (∀ w, w ∈ l → wlt (wmax_from p l) w = false) ∧
  ((∃ w, w ∈ l ∧ wlt p w = true) → wmax_from p l ∈ l).
Proof.
  intros HO. revert p. induction l as [|x l IH]; intros p Hp Hl.
  - split_and!; [by left|by apply (wo_irr _ _ HO)| |].
    + intros w Hw. by apply elem_of_nil in Hw.
    + intros (w & Hw & _). by apply elem_of_nil in Hw.
  - assert (P x) as Hx by (apply Hl; left).
    assert (∀ w, w ∈ l → P w) as Hl' by (intros w Hw; apply Hl; by right).
    unfold wmax_from. simpl. fold (wmax_from (if wlt p x then x else p) l).
    set (p' := if wlt p x then x else p).
    assert (P p') as Hp' by (unfold p'; by destruct (wlt p x)).
    destruct (IH p' Hp' Hl') as (H1 & H2 & H3 & H4). set (M := wmax_from p' l) in *.
    assert (P M) as HM by (destruct H1 as [->|?]; auto).
    assert (wlt M p = false ∧ wlt M x = false) as [HMp HMx].
    { unfold p' in H2. destruct (wlt p x) eqn:Hpx.
      - split; [|done]. destruct (wlt M p) eqn:HMp; [|done].
        rewrite (wo_tr _ _ HO M p x) in H2 by done. done.
      - split; [done|]. destruct (wlt M x) eqn:HMx; [|done].
        destruct (wo_neg _ _ HO M p x) as [?|?]; congruence. }
    split_and!.
    + destruct H1 as [->|?]; [|right; by right]. unfold p'. destruct (wlt p x); [right; left|by left].
    + done.
    + intros w [->|Hw]%elem_of_cons; [done|auto].
    + intros (w & Hw & Hpw). destruct H1 as [HM'|?]; [|by right].
      unfold p' in HM'. destruct (wlt p x) eqn:Hpx; [rewrite HM'; left|].
      apply elem_of_cons in Hw as [->|Hw]; [congruence|]. specialize (H3 w Hw). rewrite HM' in H3. congruence.
Qed.
Lemma zmax_from_spec b (l : list Z) :
  (zmax_from b l = b ∨ zmax_from b l ∈ l) ∧ (b <= zmax_from b l)%Z ∧ ∀ x, x ∈ l → (x <= zmax_from b l)%Z.
Proof.
  revert b. induction l as [|x l IH]; intros b.
  - split_and!; [by left|done|]. intros x Hx. by apply elem_of_nil in Hx.
  - unfold zmax_from. simpl. fold (zmax_from (if bool_decide (b < x)%Z then x else b) l).
    destruct (IH (if bool_decide (b < x)%Z then x else b)) as (H1 & H2 & H3).
    case_bool_decide; split_and!; try lia.
    + destruct H1 as [->|?]; [right; left|right; by right].
    + intros y [->|Hy]%elem_of_cons; [lia|auto].
    + destruct H1 as [->|?]; [by left|right; by right].
    + intros y [->|Hy]%elem_of_cons; [lia|auto].
Qed.

Lemma elem_of_fine_vals {T} (l : list T) f2c c v :
  v ∈ omap (λ x, l !! x) (fine_of f2c c) ↔ ∃ x, f2c !! x = Some c ∧ l !! x = Some v.
Proof. rewrite elem_of_list_omap. setoid_rewrite elem_of_fine_of. done. Qed.

(** C24. *)
Lemma C24_lem f f2c : fine_ok f f2c → weak_order wlt (λ w, w ∈ wminv :: fg_prio f) →
  (∀ b, b ∈ fg_bnd f → (int_min <= b)%Z) →
  ∃ g m, build_coarse_graph f f2c = Ok g ∧ (∀ c, c ∈ f2c → c ≤ m) ∧
    length (cg_prio g) = S m ∧ length (cg_bnd g) = S m ∧
    ∀ c, c ∈ f2c → ∃ p b, cg_prio g !! c = Some p ∧ cg_bnd g !! c = Some b ∧
      (∃ x, f2c !! x = Some c ∧ fg_bnd f !! x = Some b) ∧
      (∀ x b', f2c !! x = Some c → fg_bnd f !! x = Some b' → (b' <= b)%Z) ∧
      (∀ x w, f2c !! x = Some c → fg_prio f !! x = Some w → wlt p w = false) ∧
      ((∃ x w, f2c !! x = Some c ∧ fg_prio f !! x = Some w ∧ wlt wminv w = true) ∧
         (∃ x, f2c !! x = Some c ∧ fg_prio f !! x = Some p) ∨
       (∀ x w, f2c !! x = Some c → fg_prio f !! x = Some w → wlt wminv w = false) ∧ p = wminv).
Proof.
  intros HF HO Hmin. destruct (build_built f f2c HF) as (g & m & Hb & Hm & Hall & []).
  exists g, m. split_and!; try done. intros c Hc.
  set (ps := omap (λ x, fg_prio f !! x) (fine_of f2c c)). set (bs := omap (λ x, fg_bnd f !! x) (fine_of f2c c)).
  exists (wmax_from wminv ps), (zmax_from int_min bs).
  split_and!; [by apply bu_prio0, Hall|by apply bu_bnd0, Hall|..].
  - destruct (zmax_from_spec int_min bs) as ([He|Hin] & H2 & H3); [|by apply elem_of_fine_vals in Hin].
    apply elem_of_list_lookup in Hc as [x Hx]. apply lookup_lt_Some in Hx as Hlt.
    rewrite <- (ff_bnd _ _ HF) in Hlt. destruct (lookup_lt_is_Some_2 _ _ Hlt) as [b Hbx].
    exists x. split; [done|]. rewrite Hbx. f_equal. apply Z.le_antisymm.
    + apply H3, elem_of_fine_vals. eauto.
    + rewrite He. by eapply Hmin, elem_of_list_lookup_2.
  - intros x b' Hx Hb'. apply zmax_from_spec, elem_of_fine_vals. eauto.
  - intros x w Hx Hw. destruct (wmax_from_spec _ ps wminv HO) as (_ & _ & H3 & _); [left| |].
    + intros w' (y & _ & Hy)%elem_of_fine_vals. right. by eapply elem_of_list_lookup_2.
    + apply H3, elem_of_fine_vals. eauto.
  - destruct (wmax_from_spec _ ps wminv HO) as (H1 & H2 & H3 & H4); [left| |].
    { intros w' (y & _ & Hy)%elem_of_fine_vals. right. by eapply elem_of_list_lookup_2. }
    destruct (decide (Exists (λ w, wlt wminv w = true) ps)) as [He|He].
    + left. apply Exists_exists in He as (w & Hw & Hlt). split.
      * apply elem_of_fine_vals in Hw as (x & ? & ?). eauto.
      * apply elem_of_fine_vals, H4. eauto.
    + right. assert (∀ w, w ∈ ps → wlt wminv w = false) as Hno.
      { intros w Hw. destruct (wlt wminv w) eqn:Hlt; [|done]. exfalso. apply He, Exists_exists. eauto. }
      split; [intros x w Hx Hw; apply Hno, elem_of_fine_vals; eauto|].
      clear -Hno. unfold wmax_from. induction ps as [|x l IH]; [done|]. simpl.
      rewrite Hno by left. apply IH. intros w Hw. apply Hno. by right.
Qed.

End coarse.
