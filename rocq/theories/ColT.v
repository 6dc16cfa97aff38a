(** * ColT: lines built where cells are arranged in columns (C69) *)

From Verif Require Import Base Main Spec SpecSub SpecFeat SpecLine SpecNum SpecHash SpecCol LineT ApiT ReordU.

(** ** A best pair exists *)

Section pref.
Context {A : Arith} {N : W → Prop} (WO : weak_order (@wlt A) N).
Lemma some_best (P : nat → W → Prop) (L : list (nat * W)) : (∀ y w, P y w → N w) →
  ¬ ¬ ((∃ y w, P y w ∧ (y, w) ∈ L ∧ ∀ y' w', (y', w') ∈ L → P y' w' → wlt w' w = true ∨ wlt w w' = false ∧ y ≤ y') ∨
       ∀ y w, (y, w) ∈ L → ¬ P y w).
Proof using WO.
  intros NP. induction L as [|[c v] L IH]; intros Hn.
  { apply Hn. right. intros y w Hy. by apply elem_of_nil in Hy. }
  apply IH. intros HL. assert (¬ ¬ (P c v ∨ ¬ P c v)) as Hd by tauto. apply Hd. clear Hd. intros Hd.
  apply Hn. clear Hn IH. destruct Hd as [Hc|Hc].
  2:{ destruct HL as [(y & w & Hy & Hin & Hb)|Hno].
      - left. exists y, w. split; [done|]. split; [by right|]. intros y' w' Hin' Hy'.
        apply elem_of_cons in Hin' as [[= -> ->]|Hin']; [done|]. by apply Hb.
      - right. intros y w Hin. apply elem_of_cons in Hin as [[= -> ->]|Hin]; [done|]. by apply Hno. }
  left. pose proof (NP _ _ Hc) as Nv. destruct HL as [(y & w & Hy & Hin & Hb)|Hno].
  2:{ exists c, v. split; [done|]. split; [by left|]. intros y' w' Hin' Hy'.
      apply elem_of_cons in Hin' as [[= -> ->]|Hin']; [|by destruct (Hno _ _ Hin')].
      right. split; [by apply (wlt_irr WO)|done]. }
  pose proof (NP _ _ Hy) as Nw.
  destruct (wlt w v) eqn:E1.
  { exists c, v. split; [done|]. split; [by left|]. intros y' w' Hin' Hy'.
    apply elem_of_cons in Hin' as [[= -> ->]|Hin']; [right; split; [by apply (wlt_irr WO)|done]|].
    pose proof (NP _ _ Hy') as Nw'. left. destruct (Hb _ _ Hin' Hy') as [H1|[H1 _]]; [by apply (wlt_tr WO _ w)|].
    destruct (wlt w' v) eqn:E2; [done|]. rewrite (wlt_neg WO w w' v) in E1; done. }
  destruct (wlt v w) eqn:E2.
  { exists y, w. split; [done|]. split; [by right|]. intros y' w' Hin' Hy'.
    apply elem_of_cons in Hin' as [[= -> ->]|Hin']; [by left|by apply Hb]. }
  destruct (decide (c ≤ y)) as [Hcy|Hcy].
  { exists c, v. split; [done|]. split; [by left|]. intros y' w' Hin' Hy'.
    apply elem_of_cons in Hin' as [[= -> ->]|Hin']; [right; split; [by apply (wlt_irr WO)|done]|].
    pose proof (NP _ _ Hy') as Nw'. destruct (Hb _ _ Hin' Hy') as [H1|[H1 H2]].
    - left. destruct (wlt w' v) eqn:E3; [done|]. rewrite (wlt_neg WO w' v w) in H1; done.
    - right. split; [by apply (wlt_neg WO _ w)|lia]. }
  exists y, w. split; [done|]. split; [by right|]. intros y' w' Hin' Hy'.
  apply elem_of_cons in Hin' as [[= -> ->]|Hin']; [right; split; [done|lia]|by apply Hb].
Qed.
Lemma some_preferred (P : nat → W → Prop) (L : list (nat * W)) y w : (∀ y w, P y w → N w) →
  (∀ y w, P y w → (y, w) ∈ L) → P y w → ¬ ∀ z, ¬ preferred P z.
Proof using WO.
  intros NP HL Hy Hn. apply (some_best P L NP). intros [(z & v & Hz & _ & Hb)|Hno].
  - apply (Hn z). exists v. split; [done|]. intros y' w' Hy'. by apply Hb; [apply HL|].
  - apply (Hno y w); [by apply HL|done].
Qed.
End pref.

(** ** Neighbours in a column *)

Lemma beside_sym c x y : beside c x y ↔ beside c y x.
Proof. unfold beside. split; intros [k [?|?]]; exists k; naive_solver. Qed.
Lemma beside_rev c x y : beside (reverse c) x y ↔ beside c x y.
Proof.
  assert (∀ c x y, beside (reverse c) x y → beside c x y) as Hd.
  { clear. intros c x y [k Hk]. assert (S k < length c) as Hl.
    { rewrite <- (reverse_length c). destruct Hk as [[_ Hk]|[_ Hk]]; by apply lookup_lt_Some in Hk. }
    exists (length c - S (S k)). rewrite !reverse_lookup in Hk by lia.
    replace (length c - S k) with (S (length c - S (S k))) in Hk by lia. naive_solver. }
  split; [apply Hd|]. intros Hb. apply Hd. by rewrite reverse_involutive.
Qed.
(** The neighbours of a cell in the middle. *)
Lemma beside_mid pre x post y : NoDup (pre ++ x :: post) →
  beside (pre ++ x :: post) x y ↔ last pre = Some y ∨ head post = Some y.
Proof.
  intros Hnd.
  assert (∀ k, (pre ++ x :: post) !! k = Some x → k = length pre) as Hat.
  { intros k Hk. assert ((pre ++ x :: post) !! length pre = Some x) as Hx by by apply list_lookup_middle.
    by apply (NoDup_lookup _ _ _ _ Hnd Hk Hx). }
  split.
  - intros [k [[H1 H2]|[H1 H2]]].
    + apply Hat in H1 as ->. right. rewrite lookup_app_r in H2 by lia.
      replace (S (length pre) - length pre) with 1 in H2 by lia. by destruct post.
    + apply Hat in H2 as Hk. left. rewrite lookup_app_l in H1 by lia. rewrite last_lookup.
      by rewrite <- Hk.
  - intros [Hp|Hp].
    + exists (length pre - 1). right. rewrite last_lookup in Hp. assert (0 < length pre) by (destruct pre; simpl in *; [done|lia]).
      replace (Nat.pred (length pre)) with (length pre - 1) in Hp by lia.
      split; [by apply lookup_app_l_Some|]. replace (S (length pre - 1)) with (length pre) by lia. by apply list_lookup_middle.
    + exists (length pre). left. split; [by apply list_lookup_middle|]. rewrite lookup_app_r by lia.
      replace (S (length pre) - length pre) with 1 by lia. by destruct post.
Qed.

Section col.
Context {A : Arith} (N : W → Prop) (i : input) (LO : line_order N i) (WM : wf_mesh i).
Context (C : list nat).
Local Notation cont := (continued (in_row i) (in_col i) (in_val i) (in_cen i) (bool_decide (in_coupling i = 1%Z)) (in_thr i) (in_force i)).
Local Notation prol := (prolonged (in_row i) (in_col i) (in_val i) (in_cen i) (bool_decide (in_coupling i = 1%Z)) (in_thr i) (in_force i)).
Local Notation high := (high_coupled (in_row i) (in_col i) (in_val i) (in_cen i) (bool_decide (in_coupling i = 1%Z)) (in_thr i)).
Local Notation cpl := (couplings (in_row i) (in_col i) (in_val i) (in_cen i) (bool_decide (in_coupling i = 1%Z))).

Lemma cpl_num x y w : (y, w) ∈ cpl x → N w.
Proof using LO WM.
  apply (coupled_in (N := N) (in_row i) (in_col i) (in_val i) (in_cen i) _ (in_n i)).
  - by rewrite (csr_len _ _ _ (wf_csr _ WM)).
  - apply LO.
  - intros Hmd%bool_decide_eq_true x' y' Hx Hy. apply (lo_dist _ _ LO); [done|]. by apply (elem_of_adj (graph_of i)).
Qed.
Lemma cpl_nb x y w : (y, w) ∈ cpl x → y ∈ nb_list (in_row i) (in_col i) x.
Proof using WM.
  unfold couplings. destruct (bool_decide _).
  - intros Hy. by apply elem_of_list_fmap in Hy as (z & [= -> ->] & Hz).
  - intros Hy. rewrite <- (entries_fst _ _ (in_val i)) by apply WM. apply elem_of_list_fmap. by exists (y, w).
Qed.

(** One column [c]: its cells in [C] have no other strong neighbours in [C]. *)
Record one_col (c : list nat) : Prop := {
  oc_nodup : NoDup c;
  oc_sub : ∀ x, x ∈ c → x ∈ C;
  oc_next : ∀ x y, beside c x y → strong i x y;
  oc_only : ∀ x y, x ∈ c → y ∈ C → strong i x y → beside c x y;
  oc_straight : in_force i = true → ∀ p x y d, beside c p x → beside c x y → y ≠ p →
    coming i p x d → ∃ a, aligned (in_cen i) x d y a;
  oc_end : in_force i = true → ∀ p x y d a, beside c p x → (∀ z, beside c x z → z = p) →
    coming i p x d → y ∈ C → in_edge i x y → y ≠ p → ¬ aligned (in_cen i) x d y a;
}.
Lemma one_rev c : one_col c → one_col (reverse c).
Proof.
  intros [H1 H2 H3 H4 H5 H6]. split.
  - by rewrite reverse_Permutation.
  - intros x. rewrite elem_of_reverse. apply H2.
  - intros x y. rewrite beside_rev. apply H3.
  - intros x y. rewrite beside_rev, elem_of_reverse. apply H4.
  - intros Hf p x y d. rewrite !beside_rev. by apply H5.
  - intros Hf p x y d a. rewrite beside_rev. intros Hb Hz. apply H6; [done|done|]. intros z Hz'. apply Hz. by rewrite beside_rev.
Qed.

(** The only cell by which a line is continued. *)
Lemma run_out post : ∀ c pre p x F d l, one_col c → c = pre ++ x :: post → last pre = Some p →
  (∀ y, y ∈ F → y ∈ C) → p ∉ F → x ∉ F → (∀ y, y ∈ post → y ∈ F) → coming i p x d →
  prol F x (Some d) l → l = post.
Proof using LO WM.
  induction post as [|n post IH]; intros c pre p x F d l HC -> Hp HF HpF HxF Hpost Hd Hl.
  - inversion Hl as [|???? l0 Hc]; subst; [done|exfalso].
    pose proof (oc_nodup _ HC) as Hnd.
    assert (beside (pre ++ [x]) p x) as Hpx by (apply beside_sym, beside_mid; [done|by left]).
    assert (∀ z, beside (pre ++ [x]) x z → z = p) as Hz.
    { intros z Hz. apply beside_mid in Hz as [Hz|Hz]; [congruence|done|done]. }
    assert (∀ y, y ∈ F → strong i x y → False) as Hno.
    { intros y' Hy Hs. apply (oc_only _ HC) in Hs; [|set_solver|by apply HF].
      by apply Hz in Hs as ->. }
    unfold continued in Hc. destruct (in_force i) eqn:Ef.
    + destruct Hc as [(w & (Hy & Hs & _) & _)|[_ (w & (Hy & Hs & Ha) & _)]]; [by apply (Hno y)|].
      apply (oc_end _ HC Ef p x y d w); try done; [by apply HF|by apply (elem_of_adj (graph_of i))|].
      by intros ->.
    + destruct Hc as (w & (Hy & Hs) & _). apply (Hno y); [done|by exists w].
  - pose proof (oc_nodup _ HC) as Hnd.
    assert (beside (pre ++ x :: n :: post) p x) as Hpx by (apply beside_sym, beside_mid; [done|by left]).
    assert (beside (pre ++ x :: n :: post) x n) as Hxn by (apply beside_mid; [done|by right]).
    assert (p ∈ pre) as Hpp by (rewrite last_lookup in Hp; by eapply elem_of_list_lookup_2).
    assert (n ∈ F) as HnF by (apply Hpost; left).
    assert (n ≠ p) as Hnp by by intros ->.
    assert (∀ y, y ∈ F → strong i x y → y = n) as Hno.
    { intros y' Hy Hs. apply (oc_only _ HC) in Hs; [|set_solver|by apply HF].
      apply beside_mid in Hs as [Hs|Hs]; [|by inversion Hs|done].
      rewrite Hp in Hs. by injection Hs as ->. }
    destruct (oc_next _ HC _ _ Hxn) as [w Hw].
    inversion Hl as [??? Hend|???? l0 Hc Hl0]; subst.
    + exfalso. unfold continued in Hend. destruct (in_force i) eqn:Ef.
      * destruct (oc_straight _ HC Ef p x n d) as [a Ha]; [done..|].
        apply (some_preferred (N := N) (lo_weak _ _ LO) (λ y c, y ∈ F ∧ (∃ w, high x y w) ∧ aligned (in_cen i) x d y c)
          ((λ y, (y, scalar d (unit_vec (centre (in_cen i) y) (centre (in_cen i) x)))) <$> nb_list (in_row i) (in_col i) x) n a).
        -- intros y v (_ & _ & _ & Hv & _). by apply (lo_cos _ _ LO).
        -- intros y v (_ & (u & Hu & _) & -> & _). apply elem_of_list_fmap. exists y. split; [done|]. by eapply cpl_nb.
        -- split; [done|]. split; [by exists w|done].
        -- intros z Hz. apply (Hend z). by left.
      * apply (some_preferred (N := N) (lo_weak _ _ LO) (λ y w, y ∈ F ∧ high x y w) (cpl x) n w).
        -- intros y v [_ [Hv _]]. by eapply cpl_num.
        -- by intros y v [_ [Hv _]].
        -- done.
        -- done.
    + assert (y = n) as ->.
      { unfold continued in Hc. destruct (in_force i) eqn:Ef.
        - destruct Hc as [(v & (Hy & Hs & _) & _)|[Hno' _]]; [by apply Hno|].
          destruct (oc_straight _ HC Ef p x n d) as [a Ha]; [done..|].
          destruct (Hno' n a). split; [done|]. split; [by exists w|done].
        - destruct Hc as (v & (Hy & Hs) & _). apply Hno; [done|by exists v]. }
      f_equal. eapply (IH (pre ++ x :: n :: post) (pre ++ [x]) x n (F ∖ {[n]}) _ _ HC); [by rewrite <- app_assoc|by rewrite last_snoc| | | | | |exact Hl0].
      * intros y Hy. apply HF. set_solver.
      * set_solver.
      * set_solver.
      * intros y Hy. apply elem_of_difference. split; [apply Hpost; by right|]. rewrite elem_of_singleton. intros ->.
        apply NoDup_app in Hnd as (_ & _ & Hnd). apply NoDup_cons in Hnd as [_ Hnd]. by apply NoDup_cons in Hnd as [Hnd _].
      * by left.
Qed.

Local Notation built := (built_from (in_row i) (in_col i) (in_val i) (in_cen i) (bool_decide (in_coupling i = 1%Z)) (in_thr i) (in_force i)).
Local Notation all_b := (all_built (in_row i) (in_col i) (in_val i) (in_cen i) (bool_decide (in_coupling i = 1%Z)) (in_thr i) (in_force i)).
(** The line of a seed whose first step goes to the next cell of the column. *)
Lemma built_fwd c pre s n post F l0 bwd : one_col c → c = pre ++ s :: n :: post →
  (∀ y, y ∈ F → y ∈ C) → (∀ y, y ∈ c → y ∈ F) →
  prol (F ∖ {[s]} ∖ {[n]}) n (Some (unit_vec (centre (in_cen i) n) (centre (in_cen i) s))) l0 →
  prol (F ∖ {[s]} ∖ list_to_set (n :: l0)) s (Some (opposite (unit_vec (centre (in_cen i) n) (centre (in_cen i) s)))) bwd →
  reverse bwd ++ s :: n :: l0 = c.
Proof using LO WM.
  intros HC Hc HF HcF Hl Hb. pose proof (oc_nodup _ HC) as Hnd. rewrite Hc in Hnd.
  pose proof Hnd as (Hn1 & Hn2 & Hn3)%NoDup_app. apply NoDup_cons in Hn3 as [Hn3 Hn4]. apply NoDup_cons in Hn4 as [Hn4 Hn5].
  assert (l0 = post) as ->.
  { eapply (run_out post c (pre ++ [s]) s n _ _ _ HC) with (8 := Hl).
    - by rewrite Hc, <- app_assoc.
    - by rewrite last_snoc.
    - intros y Hy. apply HF. set_solver.
    - set_solver.
    - set_solver.
    - intros y Hy. assert (y ∈ c) as Hyc by (rewrite Hc; set_solver). apply HcF in Hyc. set_solver.
    - by left. }
  assert (bwd = reverse pre) as ->.
  { eapply (run_out (reverse pre) (reverse c) (reverse post ++ [n]) n s _ _ _ (one_rev _ HC)) with (8 := Hb).
    - rewrite Hc, reverse_app, !reverse_cons, <- !app_assoc. done.
    - by rewrite last_snoc.
    - intros y Hy. apply HF. set_solver.
    - set_solver.
    - set_solver.
    - intros y Hy. rewrite elem_of_reverse in Hy. specialize (Hn2 y Hy). assert (y ∈ c) as Hyc by (rewrite Hc; set_solver).
      apply HcF in Hyc. set_solver.
    - by right. }
  by rewrite reverse_involutive.
Qed.

Lemma built_col c s F l : one_col c → s ∈ c → (∀ y, y ∈ F → y ∈ C) → (∀ y, y ∈ c → y ∈ F) →
  built F s l → l = c ∨ l = reverse c.
Proof using LO WM.
  intros HC Hs HF HcF (fwd & bwd & Hf & Hb & ->). pose proof (oc_nodup _ HC) as Hnd.
  apply elem_of_list_split in Hs as (pre & post & Hc). rewrite Hc in Hnd.
  assert (∀ y, y ∈ F ∖ {[s]} → strong i s y → last pre = Some y ∨ head post = Some y) as Hno.
  { intros y Hy Hst. apply (oc_only _ HC) in Hst; [|rewrite Hc; set_solver|apply HF; set_solver].
    rewrite Hc in Hst. by apply beside_mid in Hst. }
  inversion Hf as [??? Hend|???? l0 Hy Hl0]; subst fwd.
  - subst bwd. left. rewrite Hc.
    assert (∀ y, beside c s y → False) as Hno2.
    { intros y Hy. destruct (oc_next _ HC _ _ Hy) as [w Hw].
      assert (y ∈ F ∖ {[s]}) as HyF.
      { rewrite Hc in Hy. apply beside_mid in Hy; [|done]. apply NoDup_app in Hnd as (_ & Hn2 & Hn3). apply NoDup_cons in Hn3 as [Hn3 _].
        apply elem_of_difference. rewrite elem_of_singleton. destruct Hy as [Hy|Hy].
        - assert (y ∈ pre) as Hyp by (rewrite last_lookup in Hy; by eapply elem_of_list_lookup_2).
          split; [apply HcF; rewrite Hc; set_solver|]. intros ->. apply (Hn2 s); [done|left].
        - destruct post as [|z post]; [done|]. injection Hy as ->.
          split; [apply HcF; rewrite Hc; set_solver|]. intros ->. apply Hn3. left. }
      apply (some_preferred (N := N) (lo_weak _ _ LO) (λ y w, y ∈ F ∖ {[s]} ∧ high s y w) (cpl s) y w).
      - intros z v [_ [Hv _]]. by eapply cpl_num.
      - by intros z v [_ [Hv _]].
      - done.
      - intros z Hz. by apply (Hend z). }
    rewrite Hc in Hno2. destruct post as [|n post].
    + destruct pre as [|p pre _] using rev_ind; [done|]. destruct (Hno2 p). apply beside_mid; [done|]. left. by rewrite last_snoc.
    + destruct (Hno2 n). apply beside_mid; [done|]. by right.
  - assert (last pre = Some y ∨ head post = Some y) as [Hp|Hp].
    { unfold continued in Hy. destruct Hy as (w & (Hy & Hw) & _). apply Hno; [done|by exists w]. }
    + right. apply last_Some in Hp as [pre' ->].
      assert (reverse c = reverse post ++ s :: y :: reverse pre') as Hc'.
      { rewrite Hc, reverse_app, reverse_cons, reverse_app, <- app_assoc. done. }
      eapply (built_fwd (reverse c) (reverse post) s y (reverse pre') F l0 bwd (one_rev _ HC) Hc' HF); [|done..].
      intros z. rewrite elem_of_reverse. apply HcF.
    + left. destruct post as [|z post]; [done|]. injection Hp as ->.
      by eapply (built_fwd c pre s y post F l0 bwd HC Hc HF HcF).
Qed.

Lemma all_cols F ss ls : all_b F ss ls → ∀ cols, (∀ x, x ∈ F ↔ x ∈ concat cols) → NoDup (concat cols) →
  (∀ x, x ∈ F → x ∈ C) → (∀ c, c ∈ cols → one_col c) → (∀ x, x ∈ F → x ∈ ss) →
  ∃ cs, cs ≡ₚ filter (λ c : list nat, 2 ≤ length c) cols ∧ Forall2 (λ l c, l = c ∨ l = reverse c) ls cs.
Proof using LO WM.
  assert (∀ (F : gset nat) c cols, (∀ x, x ∈ F ↔ x ∈ concat (c :: cols)) → NoDup (concat (c :: cols)) →
    ∀ x, x ∈ F ∖ list_to_set c ↔ x ∈ concat cols) as Hsub.
  { intros F' c cols HF Hnd x. rewrite elem_of_difference, elem_of_list_to_set, HF. simpl. rewrite elem_of_app.
    simpl in Hnd. apply NoDup_app in Hnd as (_ & Hn & _). specialize (Hn x). tauto. }
  induction 1 as [F|F s ss ls Hs _ IH|F s ss l ls Hs Hb Hlen _ IH|F s ss ls Hs Hb _ IH]; intros cols HF Hnd HC Hone Hss.
  - exists []. split; [|done]. assert (concat cols = []) as Hc.
    { destruct (concat cols) as [|x l] eqn:E; [done|]. assert (x ∈ F) as Hx by (apply HF; left). apply Hss in Hx. by apply elem_of_nil in Hx. }
    clear - Hc. induction cols as [|c cols IH]; [done|]. simpl in Hc. apply app_eq_nil in Hc as [-> Hc].
    rewrite filter_cons_False by (simpl; lia). by apply IH.
  - apply IH; try done. intros x Hx. specialize (Hss x Hx). apply elem_of_cons in Hss as [->|?]; done.
  - pose proof (proj1 (HF s) Hs) as Hc. apply elem_of_list_In, in_concat in Hc as (c & Hc & Hsc).
    apply elem_of_list_In in Hc, Hsc. destruct (proj1 (elem_of_Permutation _ _) Hc) as [cols' Hp].
    assert (∀ x, x ∈ F ↔ x ∈ concat (c :: cols')) as HF' by (intros x; by rewrite HF, Hp).
    assert (NoDup (concat (c :: cols'))) as Hnd' by by rewrite <- Hp.
    assert (l = c ∨ l = reverse c) as Hl.
    { eapply (built_col c s F); [by apply Hone|done|done| |done]. intros y Hy. apply HF'. simpl. apply elem_of_app. by left. }
    assert (list_to_set l = (list_to_set c : gset nat)) as El.
    { destruct Hl as [->| ->]; [done|]. apply set_eq. intros x. by rewrite !elem_of_list_to_set, elem_of_reverse. }
    rewrite El in IH. destruct (IH cols') as (cs & Hcs & Hf).
    + by apply Hsub.
    + simpl in Hnd'. by apply NoDup_app in Hnd' as (_ & _ & ?).
    + intros x Hx. apply HC. set_solver.
    + intros c' Hc'. apply Hone. rewrite Hp. by right.
    + intros x Hx. apply elem_of_difference in Hx as [Hx Hxl]. specialize (Hss x Hx).
      apply elem_of_cons in Hss as [->|?]; [|done]. destruct Hxl. by apply elem_of_list_to_set.
    + exists (c :: cs). split; [|by constructor]. rewrite Hp, filter_cons_True; [by rewrite Hcs|].
      destruct Hl as [->| ->]; [done|by rewrite reverse_length in Hlen].
  - pose proof (proj1 (HF s) Hs) as Hc. apply elem_of_list_In, in_concat in Hc as (c & Hc & Hsc).
    apply elem_of_list_In in Hc, Hsc. destruct (proj1 (elem_of_Permutation _ _) Hc) as [cols' Hp].
    assert (∀ x, x ∈ F ↔ x ∈ concat (c :: cols')) as HF' by (intros x; by rewrite HF, Hp).
    assert (NoDup (concat (c :: cols'))) as Hnd' by by rewrite <- Hp.
    assert (c = [s]) as ->.
    { assert ([s] = c ∨ [s] = reverse c) as [<-|Hr]; [|done|].
      - eapply (built_col c s F); [by apply Hone|done|done| |done]. intros y Hy. apply HF'. simpl. apply elem_of_app. by left.
      - apply (f_equal reverse) in Hr. by rewrite reverse_involutive in Hr. }
    destruct (IH cols') as (cs & Hcs & Hf).
    + intros x. rewrite <- (Hsub F [s] cols') by done. by rewrite !elem_of_difference, elem_of_list_to_set, elem_of_list_singleton, elem_of_singleton.
    + simpl in Hnd'. by apply NoDup_cons in Hnd' as [_ ?].
    + intros x Hx. apply HC. set_solver.
    + intros c' Hc'. apply Hone. rewrite Hp. by right.
    + intros x Hx. apply elem_of_difference in Hx as [Hx Hxl]. specialize (Hss x Hx).
      apply elem_of_cons in Hss as [->|?]; [|done]. destruct Hxl. by apply elem_of_singleton.
    + exists cs. split; [|done]. by rewrite Hp, filter_cons_False by (simpl; lia).
Qed.
End col.

Lemma C69_lines {A : Arith} {H : HashOrder} (N : W → Prop) i o cols : line_order N i → good_call i o → aniso_on i o →
  in_build i = true → columns i cols →
  ∃ lines cs, call_lines i o = Ok lines ∧ cs ≡ₚ filter (λ c : list nat, 2 ≤ length c) cols ∧
    Forall2 (λ l c, l = c ∨ l = reverse c) lines cs.
Proof.
  intros LO HG Ha Hb [H1 H2 H3 H4 H5 H6]. destruct (C44_numbers_lem N i o LO HG Ha Hb) as (lines & Hl & Hbl & _).
  destruct Hbl as (ss & F & _ & _ & Hss & HF & Hall).
  destruct (all_cols N i LO (gc_mesh _ _ HG) (concat cols) F ss lines Hall cols) as (cs & Hcs & Hf).
  - intros x. by rewrite HF, Hss, H1.
  - done.
  - intros x Hx. by rewrite H1, <- Hss, <- HF.
  - intros c Hc. assert (∀ x, x ∈ c → x ∈ concat cols) as Hcc.
    { intros x Hx. apply elem_of_list_In, in_concat. exists c. by rewrite <- !elem_of_list_In. }
    split; try done; [|by intros x y; apply H3|by intros x y; apply H4| |].
    + apply elem_of_Permutation in Hc as [cols' Hp]. rewrite Hp in H2. simpl in H2. by apply NoDup_app in H2 as [? _].
    + intros Hf p x y d Hp Hy. by apply (H5 Hf c).
    + intros Hf p x y d a Hp. by apply (H6 Hf c).
  - intros x. by rewrite HF.
  - by exists lines, cs.
Qed.

Lemma C69_lem {A : Arith} {H : HashOrder} (N : W → Prop) i o cols r e : line_order N i → good_call i o → aniso_on i o →
  in_build i = true → columns i cols → in_maxline i = None ∨ (∃ m, in_maxline i = Some m ∧ m <= 0)%Z →
  agglomerate_one_level i o = (r, e) →
  ∃ cs, cs ≡ₚ filter (λ c : list nat, 2 ≤ length c) cols ∧
    Forall2 (λ c ids, ∃ l parts rest, (oriented i c l ∨ oriented i (reverse c) l) ∧
      cut_spec (in_odd i) l parts rest ∧
      Forall2 (λ p id, ∀ x, o_fc2cc r !! x = Some id ↔ x ∈ p) parts ids ∧
      ∀ x c, x ∈ rest → o_fc2cc r !! x = Some c → ¬ aniso_id i o r c) cs (split_lines (o_idx r) (o_lines r)).
Proof.
  intros LO HG Ha Hb HC Hm Hr. destruct (C69_lines N i o cols LO HG Ha Hb HC) as (lines & cs & Hl & Hcs & Hf).
  destruct (C11_lem i o r e HG Ha) as (lines' & Hl' & _ & Hp); [naive_solver|done|].
  rewrite Hl in Hl'. injection Hl' as <-. exists cs. split; [done|]. clear Hcs Hl.
  revert Hp. generalize (split_lines (o_idx r) (o_lines r)). induction Hf as [|l c ls cs [->| ->] Hf IH]; intros ids Hp.
  - by inversion Hp.
  - inversion Hp as [|???? (l & parts & rest & Ho & Hrest) Hp']; subst. constructor; [|by apply IH].
    exists l, parts, rest. by split; [left|].
  - inversion Hp as [|???? (l & parts & rest & Ho & Hrest) Hp']; subst. constructor; [|by apply IH].
    exists l, parts, rest. by split; [right|].
Qed.
