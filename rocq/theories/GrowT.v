(** * GrowT: how an isotropic coarse cell is built (C40) *)

From Verif Require Import SpecSub SpecFeat SpecAR SpecBest SpecGrow FeatT FeatU BestT.
From Verif Require Export IsoP.

(** ** The number of cells kept *)

Section kept.
Implicit Types (K E : nat → Z) (lo hi goal : Z).

Lemma kept_ext K E K' E' lo hi goal k :
  (∀ j, admissible lo hi j → K' j = K j ∧ E' j = E j) → size_kept K E lo hi goal k → size_kept K' E' lo hi goal k.
Proof.
  intros Hj. assert (∀ j, optimal K' E' lo hi j ↔ optimal K E lo hi j) as Ho.
  { intros j. unfold optimal. split; intros [H1 H2]; (split; [done|]); intros j' Hj'; specialize (H2 j' Hj');
      destruct (Hj _ H1), (Hj _ Hj'); lia. }
  intros [H1 H2]. split; [by apply Ho|]. destruct H2 as [?|H2]; [by left|right]. intros j Hj'. apply H2. by apply Ho.
Qed.

Lemma kept_first K E lo goal k : Z.of_nat k = lo → size_kept K E lo lo goal k.
Proof.
  intros Hk. assert (∀ j, admissible lo lo j → j = k) as Hj by (unfold admissible; intros; lia).
  split.
  - split; [unfold admissible; lia|]. intros j Hj'. apply Hj in Hj' as ->. right. lia.
  - destruct (decide (Z.of_nat k = goal)); [by left|right]. intros j [Hj' _]. apply Hj in Hj' as ->. lia.
Qed.

Lemma kept_step K E lo (n k : nat) goal :
  (lo <= Z.of_nat n)%Z → size_kept K E lo (Z.of_nat n) goal k →
  let s := S n in
  size_kept K E lo (Z.of_nat s) goal
    (if bool_decide (K k < K s)%Z then s
     else if bool_decide (K s = K k) then
       if bool_decide (E s < E k)%Z || (bool_decide (E s = E k) && negb (bool_decide (Z.of_nat k = goal))) then s else k
     else k).
Proof.
  intros Hlo [[Hak Hok] Hgo] s.
  assert (∀ j, admissible lo (Z.of_nat s) j ↔ admissible lo (Z.of_nat n) j ∨ j = s) as Had.
  { unfold admissible, s. intros. lia. }
  assert (∀ j, optimal K E lo (Z.of_nat s) j → j = s ∨ optimal K E lo (Z.of_nat n) j) as Hold.
  { intros j [Hj Hj']. apply Had in Hj as [Hj| ->]; [right|by left]. split; [done|].
    intros j' H'. apply Hj'. apply Had. by left. }
  assert (admissible lo (Z.of_nat s) s) as Has by (apply Had; by right).
  assert (admissible lo (Z.of_nat s) k) as Hak' by (apply Had; by left).
  (* the new size is strictly better *)
  assert (((K k < K s)%Z ∨ K s = K k ∧ (E s < E k)%Z) → size_kept K E lo (Z.of_nat s) goal s) as Hnew.
  { intros Hb. split.
    - split; [done|]. intros j Hj. apply Had in Hj as [Hj| ->]; [|lia]. specialize (Hok j Hj). lia.
    - destruct (decide (Z.of_nat s = goal)); [by left|right]. intros j Hj. pose proof (Hold j Hj) as [-> |Hj2]; [lia|].
      exfalso. destruct Hj as [_ Hj]. specialize (Hj s Has). destruct Hj2 as [Hj2 _]. specialize (Hok j Hj2). lia. }
  (* it is strictly worse *)
  assert (((K s < K k)%Z ∨ K s = K k ∧ (E k < E s)%Z) → size_kept K E lo (Z.of_nat s) goal k) as Hkeep.
  { intros Hb. split.
    - split; [done|]. intros j Hj. apply Had in Hj as [Hj| ->]; [|lia]. by apply Hok.
    - destruct Hgo as [?|Hgo]; [by left|right]. intros j Hj. pose proof (Hold j Hj) as [-> |Hj2]; [|by apply Hgo].
      exfalso. destruct Hj as [_ Hj]. specialize (Hj k Hak'). lia. }
  case_bool_decide as H1; [by apply Hnew; left|].
  case_bool_decide as H2; [|apply Hkeep; left; lia].
  case_bool_decide as H3; [by apply Hnew; right|]. cbn [orb].
  case_bool_decide as H4; [|apply Hkeep; right; lia]. cbn [andb].
  assert (optimal K E lo (Z.of_nat s) k ∧ optimal K E lo (Z.of_nat s) s) as [O1 O2].
  { split; (split; [done|]); intros j Hj; apply Had in Hj as [Hj| ->]; try (specialize (Hok j Hj)); lia. }
  case_bool_decide as H5; cbn [negb].
  - split; [done|by left].
  - split; [done|]. destruct (decide (Z.of_nat s = goal)); [by left|right]. intros j Hj.
    pose proof (Hold j Hj) as [-> |Hj2]; [lia|]. destruct Hgo as [?|Hgo]; [done|]. destruct (Hgo j Hj2) as [? _].
    split; [done|]. destruct Hj2 as [Hj2 _]. unfold admissible, s in *. lia.
Qed.
End kept.

(** ** External faces *)

Section ext.
Context (row col : list nat) (Hsym : csr_sym row col) (bnd : list Z).
Implicit Types X : gset nat.

Lemma sumz_perm (l l' : list Z) : l ≡ₚ l' → foldr Z.add 0%Z l = foldr Z.add 0%Z l'.
Proof using. clear. induction 1; simpl; lia. Qed.

Lemma external_faces_one x : external_faces row col bnd {[x]} =
  (default 0 (bnd !! x) + Z.of_nat (length (nb_list row col x)))%Z.
Proof using.
  clear. unfold external_faces. rewrite elements_singleton. cbn [fmap list_fmap foldr]. unfold outer_faces.
  assert (nb_in row col {[x]} (λ y, y ≠ x) x = 0) as ->; [|lia].
  unfold nb_in. apply size_empty_iff, elem_of_equiv_empty. intros y Hy. apply elem_of_filter in Hy as [[Hy _] Hx]. set_solver.
Qed.

Lemma external_faces_add X c : c ∉ X → external_faces row col bnd ({[c]} ∪ X) =
  (external_faces row col bnd X + default 0 (bnd !! c) + Z.of_nat (length (nb_list row col c))
   - 2 * Z.of_nat (nb_in row col X (λ y, y ≠ c) c))%Z.
Proof using Hsym.
  intros Hc. unfold external_faces.
  rewrite (sumz_perm _ (outer_faces row col bnd ({[c]} ∪ X) <$> (c :: elements X))).
  2:{ apply fmap_Permutation. by apply elements_union_singleton. }
  cbn [fmap list_fmap foldr]. rewrite outer_faces_new.
  assert (∀ l : list nat, NoDup l → (∀ x, x ∈ l → x ∈ X) →
    foldr Z.add 0%Z (outer_faces row col bnd ({[c]} ∪ X) <$> l) =
    (foldr Z.add 0%Z (outer_faces row col bnd X <$> l) -
     Z.of_nat (length (filter (λ y, y ≠ c ∧ y ∈ nb_list row col c) l)))%Z) as Hl.
  { induction l as [|x l IH]; intros Hnd Hl; [done|]. apply NoDup_cons in Hnd as [Hx Hnd].
    cbn [fmap list_fmap foldr] in *. rewrite IH by (try done; intros; apply Hl; by right).
    rewrite (outer_faces_add row col Hsym) by (try done; apply Hl; left).
    assert (x ≠ c) as Hxc. { intros ->. apply Hc, Hl. left. }
    rewrite filter_cons. destruct (decide (x ∈ nb_list row col c)).
    - rewrite (decide_True (P := x ≠ c ∧ x ∈ nb_list row col c)) by done. cbn [length]. lia.
    - rewrite (decide_False (P := x ≠ c ∧ x ∈ nb_list row col c)) by tauto. lia. }
  rewrite Hl; [|apply NoDup_elements|intros x Hx; by apply elem_of_elements].
  assert (length (filter (λ y, y ≠ c ∧ y ∈ nb_list row col c) (elements X)) = nb_in row col X (λ y, y ≠ c) c) as ->.
  { unfold nb_in. unfold size, set_size. simpl. apply Permutation_length. apply NoDup_Permutation.
    - apply NoDup_filter, NoDup_elements.
    - apply NoDup_elements.
    - intros x. by rewrite elem_of_list_filter, !elem_of_elements, elem_of_filter. }
  unfold outer_faces. lia.
Qed.
End ext.

(** ** Lists of cells *)

Lemma first_best_ext {A : Arith} (key key' : nat → Z * Z * W) l i :
  (∀ x, x ∈ l → key' x = key x) → first_best key l i → first_best key' l i.
Proof.
  intros Hk (pre & post & -> & H1 & H2). exists pre, post. split_and!; [done|..].
  - intros j Hj. rewrite !Hk by set_solver. auto.
  - intros j Hj. rewrite !Hk by set_solver. auto.
Qed.

Section lists.
Context {A : Arith} {H : HashOrder}.

Lemma add_cells_snoc k g f (X : gset nat) l c :
  add_cells k g f X (l ++ [c]) = (f' ← add_cells k g f X l;
    r ← compute_features k g c f' (list_to_set l ∪ X); Ok r.2).
Proof.
  revert f X. induction l as [|x l IH]; intros f X; cbn [add_cells app].
  - cbn [list_to_set]. rewrite (left_id_L ∅ (∪) X), bind_ok.
    destruct (compute_features k g c f X) as [r|]; [|done]. by rewrite !bind_ok.
  - destruct (compute_features k g x f X) as [r|]; [|done]. rewrite !bind_ok, IH. cbn [list_to_set].
    by replace ({[x]} ∪ list_to_set l ∪ X : gset nat) with (list_to_set l ∪ ({[x]} ∪ X) : gset nat) by set_solver.
Qed.
Lemma features_of_snoc k g seed l c :
  features_of k g seed (l ++ [c]) = (f ← features_of k g seed l;
    r ← compute_features k g c f (list_to_set (seed :: l)); Ok r.2).
Proof.
  unfold features_of. destruct (feats_of_cell g seed) as [f|]; [|done]. rewrite !bind_ok, add_cells_snoc.
  by replace (list_to_set (seed :: l) : gset nat) with (list_to_set l ∪ {[seed]} : gset nat) by set_solver.
Qed.
End lists.

(** ** The loop *)

Section grow.
Context {A : Arith} {H : HashOrder} (WO : weak_order (@wlt A) (λ _, True)).
Context (g : graph) (prio : list W) (WF : wfg g) (WD : wfd g prio).
Context (dimc : nat) (MS : mesh_shape g dimc) (HS : simple_graph g).
Context (seed : nat) (dn0 : gmap nat Z) (Hseed : seed < g_n g) (Hsd : dn0 !! seed = None).
Notation D := (dom dn0 : gset nat).
Context (HD : ∀ x, x ∈ D → x < g_n g).
Context (Hreach : ∀ cc : gset nat, seed ∈ cc → (∃ x, x ∈ D ∧ x ∉ cc) → ∃ y, border g D cc y).
Context (ip : iso_params) (max_ind : Z) (Hmin : (1 < ip_min ip <= max_ind)%Z)
  (Hmax : (max_ind <= Z.of_nat (size dn0) + 1)%Z) (Hd2 : (2 <= ip_dim ip)%Z).
Implicit Types (s : grow) (l : list nat).
Notation Hdim := (ms_dim _ _ MS).
Notation ginv := (grow_inv g prio dimc seed dn0 ip).
Notation upd := (λ h c, l ← nbrs g c; nbh_update prio h c l).
Notation h0 := (nbh_create D (if ip_front ip then Some (ip_dim ip) else None)).

(** The coarse cell of [j] cells. *)
Definition first_k l (j : nat) : gset nat := list_to_set (take j (seed :: l)).
Notation ext_of := (SpecGrow.ext_of g).
Definition ahead_of (m j : nat) : nat :=
  if ip_it ip then Z.to_nat (Z.min (Z.of_nat (m - j)) (ip_iter ip) - 1) else 0.

Record gi2 s l : Prop := {
  g2_inv : ginv s;
  g2_nd : NoDup (seed :: l);
  g2_cc : gw_cc s = list_to_set (seed :: l);
  g2_size : gw_size s = S (length l);
  g2_h : ∃ pre, seed :: l = pre ++ [gw_next s] ∧ foldM upd pre h0 = Ok (gw_h s);
  g2_ft : features_of (ip_ar ip) g seed l = Ok (gw_ft s);
  g2_step : ∀ j c, l !! j = Some c →
    next_cell ip g prio dn0 seed (take j l) (ahead_of (Z.to_nat (max_ind - 1)) j) c;
  g2_ext : gw_ext s = ext_of (gw_cc s);
  g2_dict : ∀ k, (ip_min ip <= Z.of_nat k)%Z → k ≤ gw_size s →
    ∃ c, l !! (k - 2) = Some c ∧ gw_dict s !! k = Some (first_k l k, (c, default 0%Z (dn0 !! c)));
  g2_choice : (Z.of_nat (gw_size s) < ip_min ip)%Z ∨
    ∃ (C : nat → Z) k, (∀ j, admissible (ip_min ip) (Z.of_nat (gw_size s)) j → is_compactness g (first_k l j) (C j)) ∧
      size_kept C (λ j, ext_of (first_k l j)) (ip_min ip) (Z.of_nat (gw_size s)) (ip_goal ip) k ∧
      gw_arg s = Z.of_nat k ∧ gw_maxc s = C k ∧ gw_minext s = ext_of (first_k l k);
}.

Lemma first_k_snoc l c j : j ≤ S (length l) → first_k (l ++ [c]) j = first_k l j.
Proof using. clear. intros Hj. unfold first_k. f_equal. change (seed :: l ++ [c]) with ((seed :: l) ++ [c]).
  rewrite take_app_le; [done|]. simpl. lia. Qed.
Lemma first_k_all l : first_k l (S (length l)) = list_to_set (seed :: l).
Proof using. clear. unfold first_k. f_equal. apply take_ge. simpl. lia. Qed.

Lemma left_dn s l : gi2 s l → gw_dn s = filter (λ e : nat * Z, e.1 ∉ seed :: l) dn0.
Proof using.
  clear. intros HI. apply map_eq. intros x. rewrite (gi_dn _ _ _ _ _ _ _ (g2_inv _ _ HI)), (g2_cc _ _ HI).
  rewrite map_filter_lookup. case_decide as Hx.
  - apply elem_of_list_to_set in Hx. destruct (dn0 !! x) as [v|]; [|done]. cbn [mbind option_bind]. rewrite option_guard_False; [done|].
    cbn [fst]. tauto.
  - rewrite elem_of_list_to_set in Hx. destruct (dn0 !! x) as [v|]; [|done]. cbn [mbind option_bind].
    by rewrite option_guard_True.
Qed.

Lemma front_dim d : (if ip_front ip then Some (ip_dim ip) else None) = Some d → (2 <= d)%Z.
Proof using Hd2. destruct (ip_front ip); [|done]. by intros [= <-]. Qed.

Lemma best_next l f h b m :
  let X : gset nat := list_to_set (seed :: l) in
  let left : gmap nat Z := filter (λ e : nat * Z, e.1 ∉ seed :: l) dn0 in
  let faces x := Z.of_nat (nb_in (g_row g) (g_col g) X (λ y, y ≠ x) x) in
  NoDup (seed :: l) → (∀ x, x ∈ seed :: l → x < g_n g) → (∃ y, border g D X y) →
  features_of (ip_ar ip) g seed l = Ok f → foldM upd (seed :: l) h0 = Ok h →
  compute_best ip g prio h left f X m = Ok b →
  next_cell ip g prio dn0 seed l (if ip_it ip then Z.to_nat (m - 1) else 0) (b_arg b) ∧
  border g D X (b_arg b) ∧ b_faces b = faces (b_arg b) ∧
  ∃ a, compute_features (ip_ar ip) g (b_arg b) f X = Ok (faces (b_arg b), a, b_feats b).
Proof using WO WF WD MS HD Hd2.
  clear HS Hreach Hmin Hmax Hsd Hseed max_ind.
  intros X left faces Hnd Hlt [y0 Hy0] Hf Hh Hb.
  assert (∀ x, x ∈ X ↔ x ∈ seed :: l) as HX by (intros; apply elem_of_list_to_set).
  assert (∀ x, x ∉ X → left !! x = dn0 !! x) as Hleft.
  { intros x Hx. rewrite HX in Hx. unfold left. rewrite map_filter_lookup. destruct (dn0 !! x) as [v|]; [|done].
    cbn [mbind option_bind]. by rewrite option_guard_True. }
  pose proof (nbh_history_ok g prio WF (wd_prio _ _ WD) (wd_ord _ _ WD) D _ (seed :: l) front_dim Hlt) as Hw.
  rewrite Hh in Hw. destruct Hw as (HNI & Hal & Hfc & _).
  assert (∀ x, x ∈ nb_cand h → border g D X x) as Hc.
  { intros x Hx. unfold X. rewrite <- Hal, <- Hfc. by apply (ni_cand _ _ _ _ HNI). }
  assert (∀ x, x ∈ D → x ∉ X → is_Some (left !! x)) as HlD.
  { intros x Hx Hn. rewrite Hleft by done. by apply elem_of_dom in Hx. }
  assert (∀ (key : nat → Z * W) c, first_best (λ x, ((key x).1, default 0%Z (left !! x), (key x).2)) (nb_cand h) c →
    first_best (λ x, ((key x).1, default 0%Z (dn0 !! x), (key x).2)) (nb_cand h) c) as Hfb.
  { intros key c. apply first_best_ext. intros x Hx. rewrite Hleft; [done|]. by apply Hc. }
  assert (∀ key c, first_best key (nb_cand h) c → border g D X c) as Hin.
  { intros key c (p1 & p2 & Hp & _). apply Hc. rewrite Hp. set_solver. }
  assert (nb_cand h ≠ []) as Hne.
  { apply (ni_nonempty _ _ _ _ HNI y0). by rewrite Hal, Hfc. }
  unfold compute_best in Hb. destruct (ip_it ip).
  - destruct (C38_look g prio dimc (ip_ar ip) seed l D (if ip_front ip then Some (ip_dim ip) else None) left (Z.to_nat (m - 1)))
      as (f1 & h1 & b1 & ar & look & E1 & E2 & E3 & H1 & H2 & H3 & H4 & H5); try done.
    + apply WD.
    + intros z Hz. apply elem_of_list_lookup in Hz as [x Hz]. by apply (wd_bnd_pos _ _ WD) in Hz.
    + apply front_dim.
    + intros x Hx. split; [auto|]. intros Hn. apply HlD; [done|]. by rewrite HX.
    + destruct Hy0 as (Hy1 & Hy2 & z & Hz & Hzy). exists y0, z. split_and!; [done|by rewrite <- HX|by apply HX|done].
    + rewrite Hf in E1. rewrite Hh in E2. injection E1 as <-. injection E2 as <-.
      fold X in E3. rewrite Hb in E3. injection E3 as <-. split_and!.
      * exists f, h, ar, look. split_and!; [done|done|done|]. by apply Hfb.
      * by eapply Hin.
      * done.
      * eauto.
  - destruct (C38_best g dimc (ip_ar ip) seed l h left WO MS Hnd Hlt Hne) as (f1 & b1 & ar & E1 & E3 & H1 & H2 & H3 & H4 & H5).
    { intros x Hx. destruct (Hc x Hx) as (H1 & H2 & y & Hy & Hyx). split_and!; [auto|done|by apply HlD|].
      exists y. split; [done|]. change (y ∈ adj g x). by apply adj_sym. }
    rewrite Hf in E1. injection E1 as <-. fold X in E3. rewrite Hb in E3. injection E3 as <-. split_and!.
    + exists f, h, ar, (λ x, (faces x, ar x)). split_and!; [done|done| |].
      * intros x Hx. destruct (H1 x Hx) as [f' Hf']. by exists f'.
      * by apply (Hfb (λ x, (faces x, ar x))).
    + by eapply Hin.
    + done.
    + eauto.
Qed.

Lemma grow_step_2 s l s' :
  gi2 s l → (Z.of_nat (gw_size s) < max_ind)%Z → grow_step ip g prio max_ind s = Ok s' →
  ∃ c, gi2 s' (l ++ [c]).
Proof.
  intros HI Hsz Hs'. pose proof (g2_inv _ _ HI) as HG.
  pose proof (grow_step_ok g prio WF WD dimc Hdim seed dn0 Hseed Hsd HD Hreach ip max_ind Hmin Hmax s HG Hsz) as Hok.
  rewrite Hs' in Hok. destruct Hok as [HG' Hsize].
  pose proof (grow_border g prio WF WD dimc Hdim seed dn0 Hseed Hsd HD Hreach ip max_ind Hmin Hmax s HG Hsz) as Hbord.
  assert (∀ x, x ∈ seed :: l → x < g_n g) as Hlt.
  { intros x Hx. destruct (gr_sub _ _ _ _ (gi_grown _ _ _ _ _ _ _ HG) x) as [-> |?]; [|done|auto]. rewrite (g2_cc _ _ HI). by apply elem_of_list_to_set. }
  pose proof Hs' as Hs0. unfold grow_step in Hs'.
  apply bind_Ok_inv in Hs' as (ln & En & Hs'). apply bind_Ok_inv in Hs' as (h & Eh & Hs'). cbn zeta in Hs'.
  apply bind_Ok_inv in Hs' as (b & Eb & Hs').
  apply bind_Ok_inv in Hs' as (nn & Enn & Hs'). apply bind_Ok_inv in Hs' as (nb & Enb & Hs').
  apply bind_Ok_inv in Hs' as (lc & Elc & Hs'). apply bind_Ok_inv in Hs' as (cur & Ecur & Hs').
  destruct (g2_h _ _ HI) as (pre & Hpre & Hpreh).
  assert (foldM upd (seed :: l) h0 = Ok h) as Hh.
  { rewrite Hpre, foldM_app, Hpreh, bind_ok. cbn [foldM]. rewrite En, bind_ok, Eh. done. }
  rewrite (left_dn _ _ HI), (g2_cc _ _ HI) in Eb. rewrite (g2_cc _ _ HI) in Hbord.
  destruct (best_next l _ h b _ (g2_nd _ _ HI) Hlt Hbord (g2_ft _ _ HI) Hh Eb) as (Hnext & Hcb & Hfaces & a & Hfeat).
  set (c := b_arg b) in *. set (X := list_to_set (seed :: l) : gset nat) in *.
  assert (c ∉ X) as HcX by apply Hcb. assert (c < g_n g) as Hcn by (apply HD, Hcb).
  assert (size X = S (length l)) as HsX.
  { unfold X. rewrite size_list_to_set by apply HI. done. }
  exists c.
  set (tmp := {[c]} ∪ gw_cc s) in *.
  assert (list_to_set (seed :: l ++ [c]) = tmp) as Htmp.
  { unfold tmp. rewrite (g2_cc _ _ HI). set_solver. }
  assert (tmp = {[c]} ∪ X) as HtX by (unfold tmp; by rewrite (g2_cc _ _ HI)).
  (* the external faces *)
  assert (gw_ext s + (nn + nb - 1 - 2 * b_faces b) = ext_of tmp)%Z as Hext.
  { rewrite (g2_ext _ _ HI), (g2_cc _ _ HI), HtX. unfold SpecGrow.ext_of. fold X.
    rewrite (external_faces_add _ _ (wg_sym _ WF)) by done. rewrite size_union, size_singleton by set_solver.
    rewrite (nb_nbrs_ok g WF) in Enn by done. injection Enn as <-. apply vget_inv in Enb. rewrite Enb. simpl default.
    unfold id. rewrite Hfaces. change (nb_list (g_row g) (g_col g) c) with (adj g c). lia. }
  (* the features *)
  assert (features_of (ip_ar ip) g seed (l ++ [c]) = Ok (b_feats b)) as Hft.
  { rewrite features_of_snoc, (g2_ft _ _ HI), bind_ok. fold X. rewrite Hfeat. done. }
  assert (gw_size s' = S (length (l ++ [c]))) as Hsz'.
  { rewrite Hsize, (g2_size _ _ HI), app_length. simpl. lia. }
  (* compactness *)
  assert (2 ≤ size tmp) as H2. { rewrite HtX, size_union, size_singleton by set_solver. lia. }
  assert (is_compactness g tmp cur) as Hcur.
  { unfold is_compactness. rewrite decide_True by lia.
    rewrite (nbrs_ok g WF) in Elc by done. injection Elc as <-.
    rewrite (gi_simple _ _ _ _ _ _ _ HG HS) in Ecur. rewrite HtX in Ecur |- *. rewrite (g2_cc _ _ HI) in Ecur. fold X in Ecur.
    rewrite compact_update_cpt in Ecur by done.
    assert (wp (map_min (cpt_map g ({[c]} ∪ X))) (is_min (cpt_map g ({[c]} ∪ X)))) as Hw.
    { apply map_min_ok. intros He. assert (cpt_map g ({[c]} ∪ X) !! c = None) as Hn by by rewrite He, lookup_empty.
      rewrite lookup_cpt_map, decide_True in Hn by set_solver. done. }
    rewrite Ecur in Hw. done. }
  rewrite Hext in Hs'.
  assert (first_k (l ++ [c]) (S (gw_size s)) = tmp) as Hfirst.
  { rewrite (g2_size _ _ HI). replace (S (S (length l))) with (S (length (l ++ [c]))) by (rewrite app_length; simpl; lia).
    by rewrite first_k_all, Htmp. }
  assert (∀ j, j ≤ gw_size s → first_k (l ++ [c]) j = first_k l j) as Hold.
  { intros j Hj. apply first_k_snoc. by rewrite <- (g2_size _ _ HI). }
  assert (elig : bool_decide (ip_min ip <= Z.of_nat (S (gw_size s)))%Z || bool_decide (Z.of_nat (S (gw_size s)) = max_ind)
    = bool_decide (ip_min ip <= Z.of_nat (S (gw_size s)))%Z).
  { case_bool_decide as H3; [done|]. simpl. apply bool_decide_eq_false. lia. }
  rewrite elig in Hs'. clear elig.
  assert (∀ j c', (l ++ [c]) !! j = Some c' →
    next_cell ip g prio dn0 seed (take j (l ++ [c])) (ahead_of (Z.to_nat (max_ind - 1)) j) c') as Hsteps.
  { intros j c' Hj. destruct (decide (j < length l)) as [Hjl|Hjl].
    - rewrite lookup_app_l in Hj by done. rewrite take_app_le by lia. by apply (g2_step _ _ HI).
    - assert (j = length l) as ->.
      { apply lookup_lt_Some in Hj. rewrite app_length in Hj. simpl in Hj. lia. }
      rewrite lookup_app_r, Nat.sub_diag in Hj by lia. injection Hj as <-. rewrite take_app. unfold ahead_of.
      replace (Z.of_nat (Z.to_nat (max_ind - 1) - length l)) with (max_ind - Z.of_nat (gw_size s))%Z; [done|].
      rewrite (g2_size _ _ HI) in Hsz |- *. lia. }
  assert (∃ pre, seed :: l ++ [c] = pre ++ [c] ∧ foldM upd pre h0 = Ok h) as Hpre'.
  { exists (seed :: l). done. }
  assert (NoDup (seed :: l ++ [c])) as Hnd'.
  { change (seed :: l ++ [c]) with ((seed :: l) ++ [c]). apply NoDup_app. split_and!; [apply HI| |apply NoDup_singleton].
    intros x Hx Hx'. apply elem_of_list_singleton in Hx' as ->. apply HcX. by apply elem_of_list_to_set. }
  assert (l !! length l = None) as Hll by (apply lookup_ge_None; lia).
  assert (dn0 !! c = gw_dn s !! c) as Hdc.
  { rewrite (gi_dn _ _ _ _ _ _ _ HG), decide_False; [done|]. by rewrite (g2_cc _ _ HI). }
  destruct (decide (ip_min ip <= Z.of_nat (S (gw_size s)))%Z) as [He|He].
  - rewrite (bool_decide_true _ He) in Hs'.
    set (res := if bool_decide (gw_maxc s < cur)%Z then _ else _) in Hs'.
    assert (∃ (C : nat → Z) k,
      (∀ j, admissible (ip_min ip) (Z.of_nat (S (gw_size s))) j → is_compactness g (first_k (l ++ [c]) j) (C j)) ∧
      size_kept C (λ j, ext_of (first_k (l ++ [c]) j)) (ip_min ip) (Z.of_nat (S (gw_size s))) (ip_goal ip) k ∧
      res = (C k, ext_of (first_k (l ++ [c]) k), Z.of_nat k)) as Hres.
    { destruct (g2_choice _ _ HI) as [Hlo|(C & k & HC & Hkept & Harg & Hmaxc & Hminext)].
      - exists (λ _, cur), (S (gw_size s)). split_and!.
        + intros j [Hj1 Hj2]. assert (j = S (gw_size s)) as -> by lia. by rewrite Hfirst.
        + assert (Z.of_nat (S (gw_size s)) = ip_min ip) as -> by lia. apply kept_first. lia.
        + destruct (gi_arg _ _ _ _ _ _ _ HG) as [(_ & Hm & _)|[? _]]; [|lia].
          assert (0 < cur)%Z as Hpos.
          { destruct (gi_arg _ _ _ _ _ _ _ HG') as [(? & _)|[_ Hm']]; [lia|].
            unfold res in Hs'. rewrite Hm in Hs'. case_bool_decide as H3; [done|]. exfalso.
            case_bool_decide as H4.
            - destruct (_ || _); injection Hs' as <-; simpl in Hm'; lia.
            - injection Hs' as <-. simpl in Hm'. lia. }
          unfold res. rewrite Hm, bool_decide_true by done. by rewrite Hfirst.
      - assert (admissible (ip_min ip) (Z.of_nat (gw_size s)) k) as Hk by apply Hkept.
        assert (k ≤ gw_size s) as Hk' by (unfold admissible in Hk; lia).
        set (C' := λ j, if decide (j = S (gw_size s)) then cur else C j).
        assert (C' (S (gw_size s)) = cur) as HCn by (unfold C'; by rewrite decide_True).
        assert (∀ j, j ≤ gw_size s → C' j = C j) as HCo by (intros j Hj; unfold C'; rewrite decide_False by lia; done).
        assert (size_kept C' (λ j, ext_of (first_k (l ++ [c]) j)) (ip_min ip) (Z.of_nat (gw_size s)) (ip_goal ip) k) as Hkept'.
        { eapply kept_ext; [|exact Hkept]. intros j [_ Hj]. simpl. rewrite HCo, Hold by lia. done. }
        apply kept_step in Hkept'; [|unfold admissible in Hk; lia]. cbn zeta in Hkept'.
        rewrite HCn, (HCo k), Hfirst, (Hold k) in Hkept' by done.
        exists C', (if bool_decide (C k < cur)%Z then S (gw_size s)
          else if bool_decide (cur = C k) then
            if bool_decide (ext_of tmp < ext_of (first_k l k))%Z
               || (bool_decide (ext_of tmp = ext_of (first_k l k)) && negb (bool_decide (Z.of_nat k = ip_goal ip)))
            then S (gw_size s) else k else k).
        split_and!; [|exact Hkept'|].
        + intros j [Hj1 Hj2]. destruct (decide (j = S (gw_size s))) as [-> |Hne].
          * by rewrite HCn, Hfirst.
          * rewrite HCo, Hold by lia. apply HC. split; lia.
        + unfold res. rewrite Harg, Hmaxc, Hminext.
          case_bool_decide as H3; [by rewrite HCn, Hfirst|].
          case_bool_decide as H4; [|by rewrite HCo, Hold by done].
          destruct (bool_decide (ext_of tmp < ext_of (first_k l k))%Z || _); [by rewrite HCn, Hfirst, H4|by rewrite HCo, Hold by done]. }
    destruct Hres as (C & k & HC & Hkept & Hr). rewrite Hr in Hs'. injection Hs' as <-.
    split; cbn [gw_h gw_next gw_size gw_cc gw_ft gw_dn gw_ext gw_cpt gw_maxc gw_minext gw_arg gw_dict]; try done.
    + intros k' Hk1 Hk2. destruct (decide (k' = S (gw_size s))) as [-> |Hne].
      * exists c. rewrite (g2_size _ _ HI) in Hfirst |- *. split.
        -- replace (S (S (length l)) - 2) with (length l) by lia. rewrite lookup_app_r, Nat.sub_diag by lia. done.
        -- rewrite lookup_insert, Hfirst, Hdc. done.
      * rewrite lookup_insert_ne by done. destruct (g2_dict _ _ HI k') as (c' & Hc' & Hd'); [done|lia|].
        exists c'. rewrite Hold by lia. split; [|done]. by apply lookup_app_l_Some.
    + right. exists C, k. done.
  - rewrite (bool_decide_false _ He) in Hs'. injection Hs' as <-.
    split; cbn [gw_h gw_next gw_size gw_cc gw_ft gw_dn gw_ext gw_cpt gw_maxc gw_minext gw_arg gw_dict]; try done.
    + intros k' Hk1 Hk2. lia.
    + left. lia.
Qed.

Lemma grow_loop_2 k s l s' :
  gi2 s l → (Z.of_nat (gw_size s + k) <= max_ind)%Z → grow_loop k ip g prio max_ind s = Ok s' →
  ∃ l', gi2 s' l' ∧ gw_size s' = gw_size s + k.
Proof.
  revert s l. induction k as [|k IH]; intros s l HI Hk Hs'; cbn [grow_loop] in Hs'.
  { injection Hs' as <-. exists l. split; [done|lia]. }
  apply bind_Ok_inv in Hs' as (s1 & E1 & Hs'). destruct (grow_step_2 s l s1 HI) as [c HI1]; [lia|done|].
  assert (gw_size s1 = S (gw_size s)) as Hs1.
  { rewrite (g2_size _ _ HI1), (g2_size _ _ HI), app_length. simpl. lia. }
  destruct (IH s1 (l ++ [c]) HI1) as (l' & HI' & Hs2); [lia|done|]. exists l'. split; [done|lia].
Qed.

Lemma grow_init_2 ft nn nb minext :
  feats_of_cell g seed = Ok ft → nb_nbrs g seed = Ok nn → n_bnd g seed = Ok nb →
  gi2 (Grow h0 seed 1 {[seed]} ft dn0 (nn + nb - 1)%Z {[ seed := 0%Z ]} 0%Z minext (ip_min ip) ∅) [].
Proof.
  intros Hft Hnn Hnb. pose proof (size_singleton (C:=gset nat) seed) as Hsz1.
  split; cbn [gw_h gw_next gw_size gw_cc gw_ft gw_dn gw_ext gw_cpt gw_maxc gw_minext gw_arg gw_dict]; try done.
  - apply (grow_init_ok g prio WF WD dimc Hdim seed dn0 Hseed Hsd HD Hreach ip max_ind Hmin Hmax).
    + apply front_dim.
    + pose proof (feats_of_cell_ok g WF dimc (ms_vol _ _ MS) (ms_cen _ _ MS) Hdim (ms_bnd _ _ MS) (ip_ar ip) seed Hseed) as Hw.
      by rewrite Hft in Hw.
  - apply NoDup_singleton.
  - set_solver.
  - by exists [].
  - unfold features_of. rewrite Hft. done.
  - unfold SpecGrow.ext_of. rewrite external_faces_one, Hsz1. rewrite (nb_nbrs_ok g WF) in Hnn by done. injection Hnn as <-.
    apply vget_inv in Hnb. rewrite Hnb. simpl default. unfold id. change (nb_list (g_row g) (g_col g) seed) with (adj g seed). lia.
  - intros k Hk1 Hk2. lia.
  - left. lia.
Qed.
End grow.

(** ** The whole choice *)

(** Cells put back. *)
Lemma put_back_out dict sizes (dn : gmap nat Z) y :
  (∀ i X c o, i ∈ sizes → dict !! i = Some (X, (c, o)) → c ≠ y) → put_back dict sizes dn !! y = dn !! y.
Proof.
  revert dn. unfold put_back. induction sizes as [|i sizes IH]; intros dn Hd; [done|]. cbn [foldl].
  rewrite IH by (intros i' X c o Hi; apply (Hd i' X c o); by right).
  destruct (dict !! i) as [[X [c o]]|] eqn:E; [|done]. rewrite lookup_insert_ne; [done|].
  apply (Hd i X c o); [left|done].
Qed.
Lemma put_back_in dict sizes (dn : gmap nat Z) y v :
  (∀ i X c o, i ∈ sizes → dict !! i = Some (X, (c, o)) → c = y → o = v) →
  (∃ i, i ∈ sizes ∧ ∃ X, dict !! i = Some (X, (y, v))) → put_back dict sizes dn !! y = Some v.
Proof.
  intros Hd. assert (∀ l dn, (∀ i, i ∈ l → i ∈ sizes) → dn !! y = Some v → put_back dict l dn !! y = Some v) as Hkeep.
  { unfold put_back. induction l as [|i l IH]; intros dn' Hl Hy; [done|]. cbn [foldl]. apply IH.
    - intros i' Hi'. apply Hl. by right.
    - destruct (dict !! i) as [[X [c o]]|] eqn:E; [|done]. destruct (decide (c = y)) as [->|Hne].
      + rewrite lookup_insert. f_equal. eapply Hd; [apply Hl; left|done|done].
      + by rewrite lookup_insert_ne. }
  intros (i & Hi & X & HX). apply elem_of_list_split in Hi as (l1 & l2 & ->).
  unfold put_back. rewrite foldl_app. cbn [foldl]. rewrite HX. apply Hkeep.
  - intros i' Hi'. set_solver.
  - apply lookup_insert.
Qed.

Lemma walk_start E P (S S' : nat → Prop) k x : (∀ z, S z → S' z) → walk E P S k x → walk E P S' k x.
Proof. intros HS. induction 1; [constructor; auto|]. econstructor; eauto. Qed.
Lemma at_dist_start E P (S S' : nat → Prop) k x : (∀ z, S z ↔ S' z) → at_dist E P S k x ↔ at_dist E P S' k x.
Proof.
  intros HS. split; intros [H1 H2]; (split; [by eapply walk_start; [|done]; apply HS|]);
    intros k' Hk'; apply H2; (eapply walk_start; [|done]); apply HS.
Qed.

Section choose.
Context {A : Arith} {H : HashOrder} (WO : weak_order (@wlt A) (λ _, True)).
Context (g : graph) (prio : list W) (WF : wfg g) (WD : wfd g prio).
Context (dimc : nat) (MS : mesh_shape g dimc) (HS : simple_graph g).
Context (ip : iso_params).
Context (Hmin : (1 < ip_min ip)%Z) (Hgoal : (ip_min ip <= ip_goal ip)%Z)
  (Hmax : (ip_goal ip <= ip_max ip)%Z) (Hdim2 : (2 <= ip_dim ip)%Z).
Notation n := (g_n g).

(** The coarse cell, and what the queues are fed with. *)
Lemma choose_optimal_both ct p seed r :
  length (ct_aggl ct) = n → freec (ct_aggl ct) seed →
  choose_optimal ip g prio ct p seed = Ok r →
  grown_from ip g prio (is_compactness g) (ext_of g) (freec (ct_aggl ct)) seed r.1.1 ∧
  ∃ K dn, hood ip g (freec (ct_aggl ct)) seed K dn ∧
    (r.2 = p ∧ (∀ x y, x ∈ r.1.1 → freec (ct_aggl ct) y → gedge g x y → y ∈ r.1.1) ∨
     ∃ dn', feed_pool g prio p r.1.1 dn' (ct_aggl ct) = Ok r.2 ∧ ∀ y, y ∉ r.1.1 → dn' !! y = dn !! y).
Proof.
  intros Hag Hseed Hr. set (aggl := ct_aggl ct) in *.
  assert (seed < n) as Hsn by (apply lookup_lt_Some in Hseed; lia).
  unfold choose_optimal in Hr. apply bind_Ok_inv in Hr as (u & _ & Hr). clear u. cbn zeta in Hr.
  apply bind_Ok_inv in Hr as ([dn z] & Edn & Hr).
  assert (1 < ip_max ip)%Z as Hmax1 by lia.
  assert (∀ x, x ∈ ({[seed]} : gset nat) → x < g_n g) as Hss by set_solver.
  pose proof (compute_neighbourhood_ok g aggl WF Hag {[seed]} Hss
    (Z.max (min_neighbourhood ip) (ip_max ip `quot` ip_dim ip)) (ip_max ip) Hmax1) as Hw.
  fold aggl in Edn. rewrite Edn in Hw. destruct Hw as (K & _ & [Hlk Hall Hstop Hmore]). cbn [fst snd] in *. clear z Edn.
  set (E := gedge g) in *.
  assert (size ({[seed]} : gset nat) = 1) as Hs1 by apply size_singleton.
  assert (∀ j x, at_dist E (λ x, aggl !! x = Some false) (λ x, x ∈ ({[seed]} : gset nat)) j x ↔
    at_dist E (λ x, aggl !! x = Some false) (λ z, z = seed) j x) as Hst.
  { intros j x. apply at_dist_start. intros w. apply elem_of_singleton. }
  assert (hood ip g (freec aggl) seed K dn) as Hhood.
  { split.
    - intros x v. rewrite Hlk, elem_of_singleton. setoid_rewrite Hst. done.
    - cbn zeta. destruct Hstop as [Hx|Hx].
      + left. intros j x Hj. apply Hst in Hj as [Hj _]. apply Hx in Hj. by rewrite elem_of_singleton in Hj.
      + right. by rewrite Hs1 in Hx.
    - cbn zeta. destruct Hmore as [?|[?|(Y & HY & HYs)]]; [by left|by right; left|right; right].
      exists Y. split; [|done]. intros x. rewrite HY. split; intros (j & Hj & Hd); exists j; (split; [done|]); by apply Hst. }
  assert (∀ x, x ∈ (dom dn : gset nat) → freec aggl x ∧ x ≠ seed) as HDf.
  { intros x Hx. apply elem_of_dom in Hx as [v Hx]. apply Hlk in Hx as [Hx (j & _ & _ & Hw & _)].
    split; [|set_solver]. inversion Hw; subst; [set_solver|done]. }
  assert (∀ x, x ∈ (dom dn : gset nat) → x < n) as HDn.
  { intros x Hx. destruct (HDf x Hx) as [Hf _]. apply lookup_lt_Some in Hf. lia. }
  assert (dn !! seed = None) as Hsd.
  { destruct (dn !! seed) as [v|] eqn:Hv; [|done]. apply Hlk in Hv as [Hv _]. set_solver. }
  assert (∀ cc : gset nat, seed ∈ cc → (∃ x, x ∈ (dom dn : gset nat) ∧ x ∉ cc) →
    ∃ y, border g (dom dn) cc y) as Hreach.
  { intros cc Hsc (x & Hx & Hxc). apply elem_of_dom in Hx as [v Hx].
    apply Hlk in Hx as [_ (j & Hj & _ & Hw & _)]. clear v. revert x Hw Hxc.
    induction j as [|j IH]; intros x Hw Hxc; inversion Hw as [? Hx|j' y ? Hwy He Hf]; subst.
    { apply elem_of_singleton in Hx as ->. done. }
    destruct (decide (y ∈ cc)) as [Hy|Hy]; [|apply (IH ltac:(lia) y); done].
    exists x. split_and!; [|done|exists y; split; [done|by apply elem_of_adj]].
    apply elem_of_dom. destruct (Hall (S j) x) as [Hx|Hx]; [done..| |done].
    apply elem_of_singleton in Hx as ->. done. }
  assert ((Z.of_nat (1 + size dn) < ip_max ip)%Z → ∀ x y, x ∈ ({[seed]} ∪ dom dn : gset nat) → freec aggl y → E x y →
    y ∈ ({[seed]} ∪ dom dn : gset nat)) as Hcl.
  { intros Hsm x y Hx Hy He. destruct Hstop as [Hx'|[_ Hx']]; [|rewrite Hs1 in Hx'; lia].
    assert (∃ j, walk E (λ x, aggl !! x = Some false) (λ x, x ∈ ({[seed]} : gset nat)) j x) as [j Hj].
    { apply elem_of_union in Hx as [Hx|Hx]; [exists 0; by constructor|]. apply elem_of_dom in Hx as [v Hx].
      apply Hlk in Hx as (_ & j & _ & _ & Hj & _). by exists j. }
    destruct (Hx' (S j) y) as [?|?]; [by econstructor|set_solver|]. apply elem_of_union. right. by apply elem_of_dom. }
  cut ((let avail := Z.of_nat (1 + size dn) in
    if bool_decide (avail < ip_goal ip)%Z then r.1.1 = {[seed]} ∪ dom dn
    else ∃ (l : list nat) (C : nat → Z) (k : nat),
      NoDup (seed :: l) ∧ Z.of_nat (1 + length l) = Z.min (ip_max ip) avail ∧
      (∀ j c, l !! j = Some c →
        next_cell ip g prio dn seed (take j l)
          (if ip_it ip then Z.to_nat (Z.min (Z.of_nat (length l - j)) (ip_iter ip) - 1) else 0) c) ∧
      let first j : gset nat := list_to_set (take j (seed :: l)) in
      (∀ j, admissible (ip_min ip) (Z.of_nat (1 + length l)) j → is_compactness g (first j) (C j)) ∧
      size_kept C (λ j, SpecGrow.ext_of g (first j)) (ip_min ip) (Z.of_nat (1 + length l)) (ip_goal ip) k ∧
      r.1.1 = first k) ∧
    (r.2 = p ∧ (∀ x y, x ∈ r.1.1 → freec aggl y → E x y → y ∈ r.1.1) ∨
     ∃ dn', feed_pool g prio p r.1.1 dn' aggl = Ok r.2 ∧ ∀ y, y ∉ r.1.1 → dn' !! y = dn !! y)).
  { intros [Hc1 Hc2]. split; [split; [done|]|]; exists K, dn; by split. }
  cbn zeta.
  destruct (decide (dn = ∅)) as [Hemp|Hemp].
  { rewrite bool_decide_true in Hr by done. injection Hr as <-. cbn [fst snd]. subst dn.
    rewrite map_size_empty, dom_empty_L in *. rewrite (right_id_L ∅ (∪)) in *.
    rewrite bool_decide_true by lia. split; [done|]. left. split; [done|]. apply Hcl. lia. }
  rewrite bool_decide_false in Hr by done.
  replace (Z.of_nat (size dn) + 1)%Z with (Z.of_nat (1 + size dn)) in Hr by lia.
  case_bool_decide as Hsmall.
  { apply bind_Ok_inv in Hr as (cpt & _ & Hr). injection Hr as <-. cbn [fst snd]. split; [done|]. left. split; [done|].
    apply Hcl. lia. }
  apply bind_Ok_inv in Hr as (ft & Eft & Hr). apply bind_Ok_inv in Hr as (nn & Enn & Hr).
  apply bind_Ok_inv in Hr as (nb & Enb & Hr).
  apply bind_Ok_inv in Hr as (s & Es & Hr). apply bind_Ok_inv in Hr as (p' & Ep & Hr).
  apply bind_Ok_inv in Hr as (u & _ & Hr). injection Hr as <-. cbn [fst snd].
  set (max_ind := Z.min (ip_max ip) (Z.of_nat (1 + size dn))) in *.
  assert (1 < ip_min ip <= max_ind)%Z as Hm1 by (unfold max_ind; lia).
  assert (max_ind <= Z.of_nat (size dn) + 1)%Z as Hm2 by (unfold max_ind; lia).
  pose proof (grow_init_2 WO g prio WF WD dimc MS HS seed dn Hsn Hsd HDn Hreach ip max_ind Hm1 Hm2 Hdim2
    ft nn nb int_max Eft Enn Enb) as HI0.
  destruct (grow_loop_2 WO g prio WF WD dimc MS HS seed dn Hsn Hsd HDn Hreach ip max_ind Hm1 Hm2 Hdim2
    (Z.to_nat (max_ind - 1)) _ [] s HI0) as (l & HI & Hsz); [cbn [gw_size]; lia|exact Es|]. cbn [gw_size] in Hsz.
  assert (gw_size s = S (length l)) as Hsl by apply HI.
  assert (Z.of_nat (1 + length l) = max_ind) as Hml by lia.
  destruct (g2_choice _ _ _ _ _ _ _ _ _ HI) as [Hlo|(C & k & HC & Hkept & Harg & Hmaxc & Hminext)]; [lia|].
  assert (gw_size s = 1 + length l) as Hsl' by lia. rewrite Hsl' in HC, Hkept.
  assert (admissible (ip_min ip) (Z.of_nat (1 + length l)) k) as [Hk1 Hk2] by apply Hkept.
  assert (from_option fst ∅ (gw_dict s !! Z.to_nat (gw_arg s)) = list_to_set (take k (seed :: l))) as HX.
  { rewrite Harg, Nat2Z.id. destruct (g2_dict _ _ _ _ _ _ _ _ _ HI k) as (c & _ & Hd); [done|lia|].
    by rewrite Hd. }
  split.
  { exists l, C, k. split_and!.
    - apply HI.
    - done.
    - intros j c Hj. pose proof (g2_step _ _ _ _ _ _ _ _ _ HI j c Hj) as Hn. unfold ahead_of in Hn.
      replace (Z.to_nat (max_ind - 1)) with (length l) in Hn by lia. done.
    - exact HC.
    - exact Hkept.
    - exact HX. }
  right. eexists. split; [exact Ep|]. rewrite HX. intros y Hy. rewrite elem_of_list_to_set in Hy.
  rewrite (left_dn g prio dimc seed dn ip max_ind s l HI).
  replace (Z.to_nat (gw_arg s + 1)) with (S k) by lia.
  replace (Z.to_nat max_ind - Z.to_nat (gw_arg s)) with (S (length l) - k) by lia.
  assert (∀ x, x ∈ l → is_Some (dn !! x)) as Hld.
  { intros x Hx. pose proof (gi_grown _ _ _ _ _ _ _ (g2_inv _ _ _ _ _ _ _ _ _ HI)) as Hgr.
    rewrite (g2_cc _ _ _ _ _ _ _ _ _ HI) in Hgr. destruct (gr_sub _ _ _ _ Hgr x) as [->|Hx'].
    - apply elem_of_list_to_set. by right.
    - pose proof (g2_nd _ _ _ _ _ _ _ _ _ HI) as Hnd. by apply NoDup_cons_1_1 in Hnd.
    - by apply elem_of_dom. }
  assert (∀ i, i ∈ seq (S k) (S (length l) - k) → ∃ c X, l !! (i - 2) = Some c ∧ gw_dict s !! i = Some (X, (c, default 0%Z (dn !! c)))) as Hdi.
  { intros i Hi. apply elem_of_seq in Hi. destruct (g2_dict _ _ _ _ _ _ _ _ _ HI i) as (c & Hc & Hd); [lia|lia|]. eauto. }
  destruct (decide (y ∈ l)) as [Hyl|Hyl].
  - apply elem_of_list_lookup in Hyl as [j Hj]. assert (k ≤ S j) as Hkj.
    { apply Nat.nlt_ge. intros Hkj. apply Hy. apply elem_of_list_lookup. exists (S j). by rewrite lookup_take by lia. }
    pose proof (lookup_lt_Some _ _ _ Hj) as Hjl.
    destruct (Hld y) as [v Hv]; [by eapply elem_of_list_lookup_2|]. rewrite Hv.
    assert (∃ i, i ∈ seq (S k) (S (length l) - k) ∧ ∃ X, gw_dict s !! i = Some (X, (y, v))) as Hex.
    { exists (S (S j)). assert (S (S j) ∈ seq (S k) (S (length l) - k)) as Hi by (apply elem_of_seq; lia).
      split; [done|]. destruct (Hdi _ Hi) as (c & X & Hc & Hd). replace (S (S j) - 2) with j in Hc by lia.
      rewrite Hj in Hc. injection Hc as <-. exists X. by rewrite Hd, Hv. }
    eapply put_back_in; [|exact Hex]. intros i X c o Hi Hd Hcy.
    destruct (Hdi _ Hi) as (c' & X' & _ & Hd'). rewrite Hd in Hd'. injection Hd' as -> -> ->. subst c'. by rewrite Hv.
  - rewrite put_back_out.
    + rewrite map_filter_lookup. assert (y ≠ seed) as Hys.
      { intros ->. apply Hy. destruct k; [lia|]. left. }
      destruct (dn !! y) as [v|]; [|done]. cbn [mbind option_bind]. rewrite option_guard_True; [done|]. cbn [fst].
      rewrite elem_of_cons. tauto.
    + intros i X c o Hi Hd ->. destruct (Hdi _ Hi) as (c' & X' & Hc & Hd'). rewrite Hd in Hd'. injection Hd' as -> -> ->.
      apply Hyl. by eapply elem_of_list_lookup_2.
Qed.
Lemma choose_optimal_grown ct p seed r :
  length (ct_aggl ct) = n → freec (ct_aggl ct) seed →
  choose_optimal ip g prio ct p seed = Ok r →
  grown_from ip g prio (is_compactness g) (ext_of g) (freec (ct_aggl ct)) seed r.1.1.
Proof. intros H1 H2 H3. by eapply choose_optimal_both. Qed.
End choose.
