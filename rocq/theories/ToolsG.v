(** * ToolsG: the coarse graphs of test_util.h (C74) *)

From Verif Require Import Lib Spec SpecCoarse SpecTools UtilM CorrectP ToolsM CoarseT CoarseU ToolsT ToolsC.

Section coarse.
Context {A : Arith}.

Lemma tu_sets_ok (f2c : list nat) c : (∀ x, x ∈ default ∅ (tu_sets f2c !! c) ↔ f2c !! x = Some c) ∧
  (is_Some (tu_sets f2c !! c) ↔ c ∈ f2c).
Proof.
  unfold tu_sets. induction f2c as [|d l IH] using rev_ind.
  - simpl. rewrite lookup_empty. split; [set_solver|]. split; [by intros [? ?]|by intros ?%elem_of_nil].
  - rewrite imap_app, foldl_app. simpl. set (M := foldl _ ∅ (imap pair l)) in *. destruct IH as [IH1 IH2]. rewrite Nat.add_0_r.
    assert (∀ x, (l ++ [d]) !! x = Some c ↔ l !! x = Some c ∨ (x = length l ∧ d = c)) as Hl.
    { intros x. rewrite lookup_app_Some, list_lookup_singleton_Some. split; [intros [?|[? [? ?]]]; [by left|right; split; [lia|done]]|].
      intros [?|[-> ->]]; [by left|right]. split_and!; [lia|lia|done]. }
    destruct (decide (c = d)) as [->|Hne].
    + rewrite lookup_insert. simpl. split.
      * intros x. rewrite Hl, elem_of_union, elem_of_singleton, IH1. naive_solver.
      * split; [|by eauto]. intros _. apply elem_of_app. right. by left.
    + rewrite lookup_insert_ne by done. split.
      * intros x. rewrite Hl, IH1. naive_solver.
      * rewrite IH2, elem_of_app, elem_of_list_singleton. naive_solver.
Qed.

Context (f : fgraph) (f2c : list nat) (HF : fine_data f f2c).
Notation n := (length f2c).

Lemma tu_sset c : sset (default ∅ (tu_sets f2c !! c)) = fine_of f2c c.
Proof. apply sset_eq; [apply fine_of_sorted|]. intros x. by rewrite elem_of_fine_of, (proj1 (tu_sets_ok f2c c)). Qed.

Definition tspec (a : nat) (fs : nat → list nat) (m : gmap nat W) : Prop :=
  ∀ b, m !! b = if decide (b = a ∨ fs b = []) then None else Some (wsum_l (omap (λ k, fg_wgt f !! k) (fs b))).

Lemma fd_bounds x p q : fg_idx f !! x = Some p → fg_idx f !! S x = Some q → p ≤ q ∧ q ≤ length (fg_adj f).
Proof using HF.
  intros Hp Hq. pose proof (fd_csr _ _ HF) as HC. split; [by eapply (csr_mono _ _ _ HC)|].
  apply (idx_le n (fg_idx f) (fg_adj f) HC (S x)); [|done]. apply lookup_lt_Some in Hq. rewrite (csr_len _ _ _ HC) in Hq. lia.
Qed.

Lemma tu_faces_ok a fcs x p q fs m :
  (∀ y, y ∈ fcs ↔ f2c !! y = Some a) → f2c !! x = Some a →
  fg_idx f !! x = Some p → fg_idx f !! S x = Some q → tspec a fs m →
  wp (foldM (tu_face f2c fcs) (zip (slice (fg_adj f) p q) (slice (fg_wgt f) p q)) m) (tspec a (λ b, fs b ++ row_faces f f2c x b)).
Proof using HF.
  intros Hfcs Hx Hp Hq Hm. destruct (fd_bounds _ _ _ Hp Hq) as [Hpq Hql]. pose proof (fd_wgt _ _ HF) as Hwl.
  pose proof (slice_length (fg_adj f) p q Hql) as Hsl. pose proof (slice_length (fg_wgt f) p q ltac:(lia)) as Hsw.
  set (L := zip _ _). assert (length L = q - p) as HL by (unfold L; rewrite zip_with_length; lia).
  assert (∀ b, row_faces f f2c x b = filter (λ k, (fg_adj f !! k) ≫= (λ y, f2c !! y) = Some b) (seq p (length L))) as Hrow.
  { intros b. unfold row_faces. by rewrite Hp, Hq, HL. }
  eapply wp_mono; [apply (wp_foldM _ (λ pre, tspec a (λ b, fs b ++
    filter (λ k, (fg_adj f !! k) ≫= (λ y, f2c !! y) = Some b) (seq p (length pre)))))|].
  - intros b. simpl. rewrite filter_nil, app_nil_r. apply Hm.
  - intros pre [y w] post m' Heq Hm'.
    assert (p + length pre < q) as Hlt.
    { apply (f_equal length) in Heq. rewrite app_length in Heq. simpl in Heq. lia. }
    assert (L !! length pre = Some (y, w)) as Hat by (rewrite Heq; by rewrite list_lookup_middle).
    unfold L in Hat. apply lookup_zip_with_Some in Hat as (y' & w' & [= <- <-] & Hy & Hw).
    rewrite slice_lookup in Hy by lia. rewrite slice_lookup in Hw by lia.
    assert (edge (fg_idx f) (fg_adj f) x y) as Hxy.
    { exists p, q, (p + length pre). split_and!; [done..|lia|lia|done]. }
    assert (y < n) as Hyn by by eapply (csr_col _ _ _ (fd_csr _ _ HF)).
    destruct (lookup_lt_is_Some_2 f2c y Hyn) as [cn Hcn].
    assert (∀ b, filter (λ k, (fg_adj f !! k) ≫= (λ y, f2c !! y) = Some b) (seq p (length (pre ++ [(y, w)]))) =
      filter (λ k, (fg_adj f !! k) ≫= (λ y, f2c !! y) = Some b) (seq p (length pre)) ++
      if decide (b = cn) then [p + length pre] else []) as Hsnoc.
    { intros b. rewrite app_length. simpl. rewrite Nat.add_1_r, seq_S, filter_app. f_equal.
      rewrite filter_cons, filter_nil, Hy. simpl. rewrite Hcn.
      destruct (decide (b = cn)) as [->|]; [by rewrite decide_True|rewrite decide_False by congruence; done]. }
    unfold tu_face. cbn [fst snd]. case_bool_decide as Hin.
    + apply Hfcs in Hin. assert (cn = a) as -> by congruence. apply wp_ok. intros b. rewrite Hsnoc.
      destruct (decide (b = a)) as [->|Hne]; [|rewrite app_nil_r; apply Hm'].
      rewrite Hm'. rewrite !decide_True by (by left). done.
    + assert (cn ≠ a) as Hca by (intros ->; by apply Hin, Hfcs).
      wstep. unfold vget at 1. rewrite Hcn. simpl. apply wp_ok.
      intros b. rewrite Hsnoc. destruct (decide (b = cn)) as [->|Hne].
      * rewrite lookup_insert, Hm'. rewrite app_assoc.
        set (K := fs cn ++ _). rewrite (decide_False (P := cn = a ∨ K ++ _ = [])).
        2:{ intros [?|?%app_eq_nil]; [done|naive_solver]. }
        rewrite (omap_snoc (λ k, fg_wgt f !! k) _ _ _ Hw), wsum_l_snoc. f_equal. f_equal.
        destruct (decide _) as [[?|HK]|]; [done| |done]. by rewrite HK.
      * rewrite lookup_insert_ne by done. rewrite app_nil_r. apply Hm'.
  - intros m' Hm' b. rewrite Hrow. apply Hm'.
Qed.

Lemma tu_centre (dim : nat) (x fx : list W) : length x = dim → length fx = dim →
  wp (foldM (λ x k, a ← vget x k; b ← vget fx k; vset x k (wadd a b)) (seq 0 dim) x)
    (λ x', length x' = dim ∧ ∀ k a b, x !! k = Some a → fx !! k = Some b → x' !! k = Some (wadd a b)).
Proof.
  intros Hx Hfx. eapply wp_mono; [apply (wp_foldM _ (λ pre x', length x' = dim ∧
    ∀ k a b, x !! k = Some a → fx !! k = Some b → x' !! k = Some (if decide (k < length pre) then wadd a b else a)))|].
  - split; [done|]. intros k a b Ha Hb. done.
  - intros pre c post x' Heq [Hl Hk]. apply seq_split in Heq as (Hc & _ & Hcd).
    destruct (lookup_lt_is_Some_2 x c) as [a Ha]; [lia|]. destruct (lookup_lt_is_Some_2 fx c) as [b Hb]; [lia|].
    pose proof (Hk c a b Ha Hb) as Hc'. rewrite decide_False in Hc' by lia.
    wstep. unfold vget at 1. rewrite Hc'. simpl. wstep. unfold vget at 1. rewrite Hb. simpl.
    apply wp_vset; [lia|]. split; [by rewrite insert_length|].
    intros k a' b' Ha' Hb'. rewrite app_length. simpl. destruct (decide (k = c)) as [->|Hne].
    + rewrite list_lookup_insert by lia. rewrite decide_True by lia. simplify_eq. done.
    + rewrite list_lookup_insert_ne by done. rewrite (Hk k a' b') by done.
      destruct (decide (k < length pre)); [rewrite decide_True by lia|rewrite decide_False by lia]; done.
  - intros x' [Hl Hk]. split; [done|]. intros k a b Ha Hb. rewrite (Hk k a b Ha Hb). rewrite seq_length.
    rewrite decide_True; [done|]. rewrite <- Hx. by eapply lookup_lt_Some.
Qed.

Definition coordk (k x : nat) : option W := match fg_cen f !! x with Some cx => cx !! k | None => None end.
Lemma tu_cells_ok a dim fcs xs c0 : fg_cen f !! 0 = Some c0 → dim = length c0 →
  (∀ y, y ∈ fcs ↔ f2c !! y = Some a) → (∀ x, x ∈ xs → f2c !! x = Some a) →
  wp (foldM (tu_cell f f2c dim fcs) xs (w0, replicate dim w0, 0%Z, ∅)) (λ r,
    r.1.1.1 = wsum_l (omap (λ x, fg_vol f !! x) xs) ∧
    (length r.1.1.2 = dim ∧ ∀ k, k < dim → r.1.1.2 !! k = Some (wsum_l (omap (coordk k) xs))) ∧
    r.1.2 = zmax_from 0 (omap (λ x, fg_bnd f !! x) xs) ∧
    tspec a (faces_in f f2c xs) r.2).
Proof using HF.
  intros Hc0 Hdim Hfcs Hxs. apply (wp_foldM _ (λ xs r,
    r.1.1.1 = wsum_l (omap (λ x, fg_vol f !! x) xs) ∧
    (length r.1.1.2 = dim ∧ ∀ k, k < dim → r.1.1.2 !! k = Some (wsum_l (omap (coordk k) xs))) ∧
    r.1.2 = zmax_from 0 (omap (λ x, fg_bnd f !! x) xs) ∧
    tspec a (faces_in f f2c xs) r.2)).
  - cbn [fst snd]. split_and!; [done|by rewrite replicate_length| |done|].
    + intros k Hk. by rewrite lookup_replicate_2.
    + intros b. simpl. rewrite decide_True; [done|by right].
  - intros pre x post [[[vol cen] bnd] m] Heq (Hv & (Hcl & Hc) & Hb & Hm). cbn [fst snd] in Hv, Hcl, Hc, Hb, Hm.
    assert (f2c !! x = Some a) as Hx by (apply Hxs; rewrite Heq; set_solver).
    apply lookup_lt_Some in Hx as Hlt. pose proof (fd_csr _ _ HF) as HC.
    destruct (lookup_lt_is_Some_2 (fg_cen f) x) as [fx Hfx]; [by rewrite (fd_cen _ _ HF)|].
    pose proof (fd_dim _ _ HF x c0 fx Hc0 Hfx) as Hfl.
    unfold tu_cell.
    wstep. apply wp_vget; [by rewrite (fd_vol _ _ HF)|]. intros v Hvx.
    wstep. apply wp_vget; [by rewrite (fd_bnd _ _ HF)|]. intros b Hbx.
    wstep. apply (wp_mono _ (λ cen' : list W, length cen' = dim ∧ ∀ k, k < dim → cen' !! k =
      Some (wsum_l (omap (coordk k) (pre ++ [x]))))).
    { case_bool_decide as Hd; [apply wp_ok; split; [done|lia]|].
      wstep. unfold vget at 1. rewrite Hfx. simpl.
      eapply wp_mono; [apply tu_centre; [done|lia]|]. intros cen' [Hl' Hk']. split; [done|]. intros k Hk.
      destruct (lookup_lt_is_Some_2 fx k) as [t Ht]; [lia|].
      rewrite (Hk' k _ _ (Hc k Hk) Ht).
      rewrite (omap_snoc (coordk k) _ _ t) by (unfold coordk; by rewrite Hfx).
      by rewrite wsum_l_snoc. }
    intros cen' [Hcl' Hc'].
    wstep. apply wp_vget; [rewrite (csr_len _ _ _ HC); lia|]. intros p Hpx.
    wstep. apply wp_vget; [rewrite (csr_len _ _ _ HC); lia|]. intros q Hq.
    destruct (fd_bounds _ _ _ Hpx Hq) as [Hpq Hql]. pose proof (fd_wgt _ _ HF) as Hwl.
    wstep. rewrite vrange_ok by done. simpl.
    wstep. rewrite vrange_ok by lia. simpl.
    wstep. eapply wp_mono; [by eapply tu_faces_ok|]. intros m' Hm'. apply wp_ok. cbn [fst snd]. split_and!.
    + rewrite (omap_snoc (λ x, fg_vol f !! x) _ _ _ Hvx), wsum_l_snoc. by rewrite <- Hv.
    + done.
    + done.
    + rewrite (omap_snoc (λ x, fg_bnd f !! x) _ _ _ Hbx). unfold zmax_from in *. by rewrite foldl_app, <- Hb.
    + intros c. rewrite faces_in_snoc. apply Hm'.
Qed.

Record tinv (nc dim c : nat) (ms : list (gmap nat W)) (g : cgraph) : Prop := {
  ti_len : length ms = c;
  ti_m : ∀ a m, ms !! a = Some m → tspec a (faces f f2c a) m;
  ti_idx_len : length (cg_idx g) = S nc;
  ti_idx : ∀ i, i ≤ c → cg_idx g !! i = Some (row_ptr (map skeys ms) i);
  ti_adj : cg_adj g = concat (map skeys ms);
  ti_wgt : cg_wgt g = concat (map vals ms);
  ti_vol_len : length (cg_vol g) = nc;
  ti_vol : ∀ a, a < c → cg_vol g !! a = Some (cell_vol f f2c a);
  ti_cen_len : length (cg_cen g) = nc;
  ti_cen : ∀ a, a < c → ∃ x, cg_cen g !! a = Some x ∧ length x = dim ∧
    ∀ k, k < dim → x !! k = Some (wdiv (cell_coord f f2c a k) (wofZ (Z.of_nat (length (fine_of f2c a)))));
  ti_bnd_len : length (cg_bnd g) = nc;
  ti_bnd : ∀ a, a < c → cg_bnd g !! a = Some (zmax_from 0 (omap (λ x, fg_bnd f !! x) (fine_of f2c a)));
}.

Lemma coord_omap k xs : wsum_l (omap (coordk k) xs) = wsum_l (omap (λ x, cx ← fg_cen f !! x; cx !! k) xs).
Proof. f_equal. Qed.

Lemma tu_coarse_ok nc dim c0 c ms g : fg_cen f !! 0 = Some c0 → dim = length c0 → c < nc → tinv nc dim c ms g →
  wp (tu_coarse f f2c dim (tu_sets f2c) g c) (λ g', ∃ ms', tinv nc dim (S c) ms' g').
Proof using HF.
  intros Hc0 Hdim Hc [T1 T2 T3 T4 T5 T6 T7 T8 T9 T10 T11 T12]. unfold tu_coarse. rewrite tu_sset.
  destruct (tu_sets_ok f2c c) as [Hset _]. set (fcs := default ∅ (tu_sets f2c !! c)) in *.
  assert (size fcs = length (fine_of f2c c)) as Hsize.
  { rewrite <- tu_sset. fold fcs. unfold sset. by rewrite merge_sort_Permutation. }
  wstep. eapply wp_mono.
  { apply (tu_cells_ok c dim fcs (fine_of f2c c) c0); [done..|]. intros x. by rewrite elem_of_fine_of. }
  intros [[[vol cen] bnd] m] (Hv & (Hcl & Hcen) & Hb & Hm). cbn [fst snd] in Hv, Hcl, Hcen, Hb, Hm.
  wstep. unfold vget at 1. rewrite T4 by done. simpl.
  wstep. apply wp_vset; [lia|]. wstep. apply wp_vset; [lia|]. wstep. apply wp_vset; [lia|]. wstep. apply wp_vset; [lia|].
  apply wp_ok. exists (ms ++ [m]). split; cbn [cg_idx cg_adj cg_wgt cg_vol cg_cen cg_bnd].
  - rewrite app_length. simpl. lia.
  - intros a m' Ha. apply lookup_app_Some in Ha as [Ha|[Hge Ha]]; [auto|]. rewrite T1 in *.
    apply list_lookup_singleton_Some in Ha as [Hz <-]. replace a with c by lia. done.
  - by rewrite insert_length.
  - intros i Hi. rewrite map_app. destruct (decide (i = S c)) as [->|Hne].
    + rewrite list_lookup_insert by lia. f_equal. pose proof (row_ptr_snoc (map skeys ms) (skeys m)) as Hs.
      rewrite map_length, T1 in Hs. simpl. rewrite Hs, skeys_length. done.
    + rewrite list_lookup_insert_ne by done. rewrite T4 by lia. f_equal. symmetry. apply row_ptr_app. rewrite map_length. lia.
  - rewrite map_app, concat_app, T5. simpl. by rewrite app_nil_r.
  - rewrite map_app, concat_app, T6. simpl. by rewrite app_nil_r.
  - by rewrite insert_length.
  - intros a Ha. destruct (decide (a = c)) as [->|Hne].
    + rewrite list_lookup_insert by lia. by rewrite Hv.
    + rewrite list_lookup_insert_ne by done. apply T8. lia.
  - by rewrite insert_length.
  - intros a Ha. destruct (decide (a = c)) as [->|Hne].
    + rewrite list_lookup_insert by lia. eexists. split; [done|]. rewrite map_length. split; [done|].
      intros k Hk. change (((λ t, wdiv t (wofZ (Z.of_nat (size fcs)))) <$> cen) !! k =
        Some (wdiv (cell_coord f f2c c k) (wofZ (Z.of_nat (length (fine_of f2c c)))))).
      rewrite list_lookup_fmap, (Hcen k Hk), Hsize. done.
    + rewrite list_lookup_insert_ne by done. apply T10. lia.
  - by rewrite insert_length.
  - intros a Ha. destruct (decide (a = c)) as [->|Hne].
    + rewrite list_lookup_insert by lia. by rewrite Hb.
    + rewrite list_lookup_insert_ne by done. apply T12. lia.
Qed.

Lemma resize_head (l : list nat) k : length (<[0 := 0]> (resize (S k) 0 l)) = S k ∧ <[0 := 0]> (resize (S k) 0 l) !! 0 = Some 0.
Proof. rewrite insert_length, resize_length. split; [done|]. apply list_lookup_insert. rewrite resize_length. lia. Qed.

Lemma tu_build_ok g0 : contiguous f2c → cg_adj g0 = [] → cg_wgt g0 = [] →
  ∃ m c0 g ms, fg_cen f !! 0 = Some c0 ∧ tu_build f f2c g0 = Ok g ∧ m ∈ f2c ∧ (∀ c, c ∈ f2c → c ≤ m) ∧
    tinv (S m) (length c0) (S m) ms g.
Proof using HF.
  intros Hct Ha Hw. pose proof (fd_pos _ _ HF) as Hpos.
  destruct (lookup_lt_is_Some_2 (fg_cen f) 0) as [c0 Hc0]; [rewrite (fd_cen _ _ HF); lia|].
  assert (∃ d l, f2c = d :: l) as (d & l & Hf2c) by (clear -Hpos; destruct f2c; [simpl in Hpos; lia|eauto]).
  pose proof (list_max_elt_ok (d :: l)) as Hx. cbn [list_max_elt] in Hx. specialize (Hx ltac:(done)). simpl in Hx.
  rewrite <- Hf2c in Hx. destruct Hx as [Hm Hall]. set (m := foldl max d l) in *.
  assert (foldl max 0 f2c = m) as Hmax by (rewrite Hf2c; unfold m; simpl; done).
  assert (skeys (tu_sets f2c) = seq 0 (S m)) as Hkeys.
  { unfold skeys. apply sset_eq; [apply seq_sorted|]. intros c. rewrite elem_of_dom, (proj2 (tu_sets_ok f2c c)), elem_of_seq.
    split; [intros ?%Hall; lia|]. intros [_ Hc]. apply (contiguous_down f2c Hct m); [done|]. simpl in Hc. lia. }
  assert (wp (tu_build f f2c g0) (λ g, ∃ ms, tinv (S m) (length c0) (S m) ms g)) as Hwp.
  { unfold tu_build. wstep. unfold vget at 1. rewrite Hc0. simpl. rewrite Hmax, Hkeys.
    eapply wp_mono; [apply (wp_foldM _ (λ pre g, ∃ ms, tinv (S m) (length c0) (length pre) ms g))|].
    - exists []. destruct (resize_head (cg_idx g0) (S m)) as [R1 R2]. split; cbn [cg_idx cg_adj cg_wgt cg_vol cg_cen cg_bnd length].
      + done.
      + intros a mm Hk. by rewrite lookup_nil in Hk.
      + apply R1.
      + intros i Hi. assert (i = 0) as -> by lia. apply R2.
      + done.
      + done.
      + apply resize_length.
      + lia.
      + apply resize_length.
      + lia.
      + apply resize_length.
      + lia.
    - intros pre c post g Heq [ms HI]. apply seq_split in Heq as (Hc & _ & Hcm). rewrite <- Hc in HI.
      rewrite app_length. cbn [length]. rewrite Nat.add_1_r, <- Hc. by eapply tu_coarse_ok.
    - intros g [ms HI]. rewrite seq_length in HI. eauto. }
  apply wp_eq in Hwp as (g & Hg & ms & HI). exists m, c0, g, ms. done.
Qed.
End coarse.

Section final.
Context {A : Arith}.
Implicit Types (f : fgraph) (f2c : list nat) (g : cgraph).

(** C74 *)
Lemma C74_lem f f2c g0 : fine_data f f2c → contiguous f2c → cg_adj g0 = [] → cg_wgt g0 = [] →
  ∃ g m, tu_build f f2c g0 = Ok g ∧ m ∈ f2c ∧ (∀ c, c ∈ f2c → c ≤ m) ∧
    csr (S m) (cg_idx g) (cg_adj g) ∧ simple_csr (cg_idx g) (cg_adj g) ∧
    (∀ a b, edge (cg_idx g) (cg_adj g) a b ↔ coarse_edge f f2c a b) ∧
    (csr_sym (fg_idx f) (fg_adj f) → csr_sym (cg_idx g) (cg_adj g)) ∧
    length (cg_wgt g) = length (cg_adj g) ∧
    ∀ k a b, coarse_pos g k a b → cg_wgt g !! k = Some (wsum_l (omap (λ k, fg_wgt f !! k) (faces f f2c a b))).
Proof.
  intros HF Hct Ha0 Hw0. destruct (tu_build_ok f f2c HF g0 Hct Ha0 Hw0) as (m & c0 & g & ms & Hc0 & Hb & Hm & Hall & HI).
  destruct HI as [J1 J2 J3 J4 J5 J6 _ _ _ _ _ _].
  assert (length (map skeys ms) = S m) as Hml by by rewrite map_length.
  assert (∀ a r, map skeys ms !! a = Some r → ∃ mm, ms !! a = Some mm ∧ r = skeys mm) as Hrow.
  { intros a r Hr. change ((skeys <$> ms) !! a = Some r) in Hr. rewrite list_lookup_fmap in Hr.
    destruct (ms !! a) as [mm|]; simpl in Hr; naive_solver. }
  assert (∀ a mm b, ms !! a = Some mm → is_Some (mm !! b) ↔ coarse_edge f f2c a b) as Hmm.
  { intros a mm b Ha. rewrite (J2 _ _ Ha b). destruct (decide (b = a)) as [->|Hne].
    - rewrite decide_True by (by left). split; [by intros [? ?]|]. intros [? _]. done.
    - rewrite <- faces_nil by done.
      destruct (decide _) as [[?|Hn]|Hn]; [done| |].
      + rewrite Hn. split; [by intros [? ?]|done].
      + split; [|by eauto]. intros _ Hf. apply Hn. by right. }
  assert (∀ a b, edge (cg_idx g) (cg_adj g) a b ↔ coarse_edge f f2c a b) as Hedge.
  { intros a b. rewrite J5. rewrite (rows_edge (map skeys ms)) by (rewrite ?Hml; done). split.
    - intros (r & Hr & Hin). destruct (Hrow _ _ Hr) as (mm & Ha & ->). apply (Hmm a mm); [done|].
      by apply elem_of_skeys.
    - intros He. assert (a < S m) as Ha.
      { destruct He as (_ & x & _ & Hx & _). apply elem_of_list_lookup_2, Hall in Hx. lia. }
      destruct (lookup_lt_is_Some_2 ms a) as [mm Hma]; [lia|]. exists (skeys mm). split.
      + change ((skeys <$> ms) !! a = Some (skeys mm)). by rewrite list_lookup_fmap, Hma.
      + apply elem_of_skeys. by apply (Hmm a). }
  exists g, m. split_and!; try done.
  - rewrite J5. rewrite <- Hml. apply rows_csr; [by rewrite Hml| |].
    { intros i. rewrite Hml. apply J4. }
    intros a r b Hr Hin. destruct (Hrow _ _ Hr) as (mm & Ha & ->).
    apply elem_of_skeys, (Hmm a mm) in Hin as (_ & _ & y & _ & Hy & _); [|done].
    apply elem_of_list_lookup_2, Hall in Hy. lia.
  - intros a. split; [|intros [He _]%Hedge; done].
    assert (∀ l, StronglySorted lt l → NoDup l) as Hnd.
    { induction 1 as [|x l Hs IH Hx]; constructor; [|done]. intros Hin. rewrite Forall_forall in Hx. specialize (Hx _ Hin). lia. }
    apply Hnd. destruct (decide (a < S m)) as [Ha|Ha].
    + destruct (lookup_lt_is_Some_2 (map skeys ms) a) as [r Hr]; [lia|].
      rewrite J5, (rows_nb_list _ _ _ _ ltac:(by rewrite Hml) ltac:(by rewrite Hml) Hr).
      destruct (Hrow _ _ Hr) as (mm & _ & ->). apply sset_sorted.
    + unfold nb_list. rewrite (lookup_ge_None_2 _ (S a)) by lia. destruct (_ !! a); constructor.
  - intros Hs a b. rewrite !Hedge. intros (Hab & x & y & Hx & Hy & He). split; [done|].
    exists y, x. split_and!; [done..|]. by apply Hs.
  - rewrite J5, J6. clear. induction ms as [|x ms IH]; [done|]. simpl. rewrite !app_length, IH.
    f_equal. unfold vals. by rewrite map_length.
  - intros k a b (p & q & Hp & Hq & Hk & Hkb). apply lookup_lt_Some in Hq as Hlt. rewrite J3 in Hlt.
    rewrite J4 in Hp, Hq by lia. injection Hp as <-. injection Hq as <-.
    destruct (lookup_lt_is_Some_2 ms a) as [mm Hma]; [lia|].
    assert (map skeys ms !! a = Some (skeys mm)) as Hr.
    { change ((skeys <$> ms) !! a = Some (skeys mm)). by rewrite list_lookup_fmap, Hma. }
    assert (map vals ms !! a = Some (vals mm)) as Hr'.
    { change ((vals <$> ms) !! a = Some (vals mm)). by rewrite list_lookup_fmap, Hma. }
    destruct (row_of_pos _ _ _ _ Hr Hk) as (j & -> & Hj & Heq). rewrite J5, Heq in Hkb.
    rewrite (row_ptr_len (map skeys ms) (map vals ms)).
    2:{ rewrite !map_map. apply map_ext. intros x. unfold vals. by rewrite map_length. }
    rewrite J6, (concat_lookup _ _ _ _ Hr') by (unfold vals; by rewrite map_length).
    change (((λ k, default w0 (mm !! k)) <$> skeys mm) !! j = Some (wsum_l (omap (λ k, fg_wgt f !! k) (faces f f2c a b)))).
    rewrite list_lookup_fmap, Hkb. simpl. f_equal. rewrite (J2 _ _ Hma b).
    assert (coarse_edge f f2c a b) as Hce.
    { apply (Hmm a mm); [done|]. apply elem_of_skeys. by eapply elem_of_list_lookup_2. }
    pose proof Hce as [Hab _]. apply faces_nil in Hce; [|done].
    rewrite decide_False; [done|]. intros [?|?]; done.
Qed.

Lemma zmax_from_ok (b : Z) l : zmax_from b l ∈ b :: l ∧ ∀ x, x ∈ b :: l → (x <= zmax_from b l)%Z.
Proof.
  assert (zmax_from b l = foldl Z.max b l) as ->; [|apply zmax_ok].
  revert b. induction l as [|x l IH]; intros b; [done|]. simpl. unfold zmax_from in *. simpl. rewrite IH. f_equal.
  case_bool_decide; lia.
Qed.

Lemma C74_data_lem f f2c g0 : fine_data f f2c → contiguous f2c → cg_adj g0 = [] → cg_wgt g0 = [] →
  ∃ g, tu_build f f2c g0 = Ok g ∧
    (∀ c, c < length (cg_vol g) ↔ c ∈ f2c) ∧ length (cg_bnd g) = length (cg_vol g) ∧ length (cg_cen g) = length (cg_vol g) ∧
    ∀ c, c ∈ f2c →
      cg_vol g !! c = Some (cell_vol f f2c c) ∧
      (∃ b, cg_bnd g !! c = Some b ∧ (0 <= b)%Z ∧ (b = 0%Z ∨ ∃ x, f2c !! x = Some c ∧ fg_bnd f !! x = Some b) ∧
        ∀ x b', f2c !! x = Some c → fg_bnd f !! x = Some b' → (b' <= b)%Z) ∧
      ∃ l, cg_cen g !! c = Some l ∧ (∀ c0, fg_cen f !! 0 = Some c0 → length l = length c0) ∧
        ∀ k t, l !! k = Some t → t = wdiv (cell_coord f f2c c k) (wofZ (Z.of_nat (length (fine_of f2c c)))).
Proof.
  intros HF Hct Ha0 Hw0. destruct (tu_build_ok f f2c HF g0 Hct Ha0 Hw0) as (m & c0 & g & ms & Hc0 & Hb & Hm & Hall & HI).
  destruct HI as [J1 J2 J3 J4 J5 J6 J7 J8 J9 J10 J11 J12]. exists g. split; [done|]. rewrite J7, J9, J11. split_and!; [|done|done|].
  - intros c. split; [intros Hc; apply (contiguous_down f2c Hct m); [done|lia]|]. intros ?%Hall. lia.
  - intros c Hc. pose proof (Hall c Hc) as Hle. split_and!; [apply J8; lia| |].
    + eexists. split; [apply J12; lia|]. set (bs := omap _ _).
      assert (∀ b, b ∈ bs ↔ ∃ x, f2c !! x = Some c ∧ fg_bnd f !! x = Some b) as Hbs by (intros b; apply elem_of_fine_vals).
      destruct (zmax_from_ok 0 bs) as [H1 H2]. split_and!.
      * apply H2. left.
      * apply elem_of_cons in H1 as [->|?]; [by left|right]. by apply Hbs.
      * intros x b' Hx Hb'. apply H2. right. apply Hbs. eauto.
    + destruct (J10 c ltac:(lia)) as (x & Hx & Hxl & Hk). exists x. split; [done|]. split; [intros c1 H1; congruence|].
      intros k t Ht. apply lookup_lt_Some in Ht as Hlt. rewrite Hk in Ht by lia. congruence.
Qed.
End final.
