(** * RelineU: calls with lines and the cells numbered otherwise (C60) *)

From Verif Require Import Features Iso Main Spec SpecSub SpecFeat SpecAR SpecBest SpecFront SpecPool SpecGrow SpecFeed SpecHash
  SpecLine SpecMove SpecWhole SpecRenum SpecReline GraphP FeatT ApiP ApiT DetT LineT MoveP MoveT RuleT WholeU ReordT ReordU RenumT RenumU RelineT.

(** ** Lines *)
Section maps.
Context (f h : nat → nat) (hf : ∀ x, h (f x) = x).
Definition ml (ls : list (list nat)) : list (list nat) := (λ l : list nat, f <$> l) <$> ls.
Definition mll (ps : list (list (list nat))) : list (list (list nat)) := ml <$> ps.

Lemma ml_concat ls : concat (ml ls) = f <$> concat ls.
Proof. induction ls as [|l ls IH]; [done|]. change (ml (l :: ls)) with ((f <$> l) :: ml ls). cbn [concat]. by rewrite IH, fmap_app. Qed.
Lemma mll_concat ps : concat (mll ps) = ml (concat ps).
Proof.
  induction ps as [|p ps IH]; [done|]. change (mll (p :: ps)) with (ml p :: mll ps). cbn [concat]. rewrite IH. unfold ml. by rewrite fmap_app.
Qed.
Lemma ml_split idx cells : split_lines idx (f <$> cells) = ml (split_lines idx cells).
Proof.
  unfold split_lines, ml. generalize (tail idx). induction idx as [|a idx IH]; intros [|b k]; [done..|].
  cbn [zip_with fmap list_fmap]. by rewrite IH, fmap_take, fmap_drop.
Qed.
Lemma ml_filter ls : filter (λ l : list nat, 2 ≤ length l) (ml ls) = ml (filter (λ l : list nat, 2 ≤ length l) ls).
Proof.
  induction ls as [|l ls IH]; [done|]. change (ml (l :: ls)) with ((f <$> l) :: ml ls). rewrite !filter_cons, IH, fmap_length.
  by destruct (decide (2 ≤ length l)).
Qed.
Lemma ml_cut odd l parts rest : cut_spec odd l parts rest → cut_spec odd (f <$> l) (ml parts) (f <$> rest).
Proof.
  intros [C1 C2 C3 C4]. split.
  - by rewrite ml_concat, <- fmap_app, C1.
  - unfold ml. intros k p. rewrite list_lookup_fmap, fmap_length. intros (p0 & Hp & ->)%fmap_Some. rewrite fmap_length. by apply C2.
  - unfold ml. intros p. rewrite fmap_last. intros (p0 & Hp & ->)%fmap_Some. rewrite !fmap_length. by apply C3.
  - by rewrite !fmap_length.
Qed.
Lemma mll_starts n ps : starts n (mll ps) = starts n ps.
Proof.
  revert n. induction ps as [|p ps IH]; intros n; [done|]. change (mll (p :: ps)) with (ml p :: mll ps). cbn [starts].
  rewrite IH. unfold ml. by rewrite fmap_length.
Qed.
Lemma mll_length ps : length (concat (mll ps)) = length (concat ps).
Proof. rewrite mll_concat. unfold ml. apply fmap_length. Qed.
End maps.

(** ** The start of the seeds pool *)
Section pool.
Context {A : Arith} (f h : nat → nat) (hf : ∀ x, h (f x) = x) (fh : ∀ x, f (h x) = x).
Context (prio prio' : list W) (mu : ∀ x y, more_urgent prio x y → more_urgent prio' (f x) (f y)).
Context (bnd bnd' : list Z) (Hb : ∀ x, bnd' !! f x = bnd !! x).

Lemma pm_started_nb bp one aggl aggl' nb p : (∀ x, is_free aggl' (f x) ↔ is_free aggl x) →
  started prio bnd bp one aggl nb p → started prio' bnd' bp one aggl' (f <$> nb) (pm f p).
Proof using hf fh Hb mu.
  intros fr. destruct nb as [|x nb]; [by apply (pm_started f h hf fh _ _ mu _ _ Hb)|]. rewrite fmap_cons. unfold started. cbn zeta.
  intros (b & t & Hx & Ht & HP). exists b, t. rewrite Hb. split; [done|]. rewrite <- fmap_cons. split.
  { destruct bp; [|done]. destruct Ht as [(y & Hy & Hyt) Hm]. split.
    - exists (f y). by rewrite (in_fmap f h hf), Hb.
    - intros y' b'. rewrite <- (fh y'), (in_fmap f h hf), Hb. apply Hm. }
  set (q0 := Pool (replicate 4 []) (Some b) one bp) in *.
  assert (∀ l, filter (λ y, level_of q0 <$> bnd' !! y = Some (Z.of_nat l)) (f <$> (x :: nb)) =
    f <$> filter (λ y, level_of q0 <$> bnd !! y = Some (Z.of_nat l)) (x :: nb)) as HF.
  { intros l. apply (filter_map f). intros y. by rewrite Hb. }
  assert (pm f (Pool ((λ l, filter (λ y, level_of q0 <$> bnd !! y = Some (Z.of_nat l)) (x :: nb)) <$> seq 0 4) (Some t) one bp) =
    Pool ((λ l, filter (λ y, level_of q0 <$> bnd' !! y = Some (Z.of_nat l)) (f <$> (x :: nb))) <$> seq 0 4) (Some t) one bp) as HQ.
  { unfold pm. cbn [sp_q sp_top sp_one sp_bp]. f_equal. rewrite <- list_fmap_compose. apply list_fmap_ext. intros j l _. symmetry. apply HF. }
  rewrite <- HQ. destruct bp; [|by rewrite HP].
  destruct HP as [(m & Hm & Htm & Hi)|[Hm ->]]; [left|right].
  - exists m. split; [by apply (pm_highest f h fh _ _ Hb aggl aggl' fr)|]. split; [done|]. by apply (pm_init f h hf fh _ _ mu _ _ Hb).
  - split; [|done]. intros y b'. rewrite <- (fh y), fr, Hb. apply Hm.
Qed.
Lemma started_top_nb bp one aggl nb p : started prio bnd bp one aggl nb p → sp_bp p = bp ∧ (bp = true → top_ok bnd aggl p).
Proof.
  destruct nb as [|x nb]; [intros HS; by destruct (started_top _ _ _ _ _ _ HS)|]. unfold started. cbn zeta.
  intros (b & t & Hx & Ht & HP). destruct bp; [|by subst]. destruct HP as [(m & [_ Hm] & Htm & (l & q & Hq & Hl & ->))|[Hm ->]].
  - split; [done|]. intros _ t' y b' [= <-] Hy Hyb. pose proof (Hm _ _ Hy Hyb). lia.
  - split; [done|]. intros _ t' y b' [= <-]. apply Hm.
Qed.
End pool.

(** ** Calls *)
Section call.
Context {A : Arith} (f h : nat → nat).
Implicit Types (i : input) (o r : outs).
Section one.
Context i i' (WM : wf_mesh i) (HR : relabelled f h i i').
Context (Hsw : sym_weights (in_row i) (in_col i) (in_val i)) (HE : equal_ties (A := A)) (HT : keeps_ties f i).
Let hf := rn_left _ _ _ _ HR.
Let fh := rn_right _ _ _ _ HR.
Notation o' := (lines_called f).

Lemma rl_aniso o : aniso_on i' (o' o) ↔ aniso_on i o.
Proof using HR.
  unfold aniso_on. rewrite (rn_rest _ _ _ _ HR). simpl. split; intros [H1 H2]; (split; [done|]); intros Hb; destruct (H2 Hb) as [H3 H4]; split; try done.
  - intros E. apply H4. by rewrite E.
  - intros E. apply H4. by apply fmap_nil_inv in E.
Qed.
Lemma rl_good o : good_call i o → good_call i' (o' o).
Proof using WM HR.
  intros [_ HA H1 Hb Hg]. split.
  - by apply (rn_mesh f h i).
  - rewrite (rn_rest _ _ _ _ HR). destruct HA. by split.
  - intros Ho w. rewrite (rn_prio_in f h i i' HR). apply H1. by rewrite (rn_rest _ _ _ _ HR) in Ho.
  - rewrite rl_aniso. intros Ha Hbl. rewrite (rn_n f h i i' HR).
    destruct (Hb Ha) as [HB HL]; [by rewrite (rn_rest _ _ _ _ HR) in Hbl|]. split.
    + unfold buildable, in_edge in *. replace (in_coupling i') with (in_coupling i) by (by rewrite (rn_rest _ _ _ _ HR)).
      replace (in_thr i') with (in_thr i) by (by rewrite (rn_rest _ _ _ _ HR)). destruct HB as [?|[HB|?]]; [by left|right; left|by right; right].
      intros c. rewrite <- (fh c), (rn_compl _ _ _ _ HR). intros (j & Hj)%HB. exists (f j). by rewrite (rn_edge f h i i' WM HR).
    + intros L HL'. specialize (HL L HL'). unfold limit_safe in *. by rewrite (rn_rest _ _ _ _ HR).
  - rewrite rl_aniso. intros Ha Hbl. rewrite (rn_n f h i i' HR).
    destruct (Hg Ha) as [[] HL]; [by rewrite (rn_rest _ _ _ _ HR) in Hbl|]. split.
    + split; simpl; try done.
      * by rewrite fmap_length.
      * pose proof (f_inj f h hf). by apply (NoDup_fmap_2 f).
      * intros x (y & -> & Hy)%elem_of_list_fmap. apply (rn_cells _ _ _ _ HR). by apply ul_lt.
    + intros k l (a & b & H2 & H3 & ->). simpl. rewrite <- fmap_drop, <- fmap_take, fmap_length. intros Hl.
      assert (limit_safe i (length (take (b - a) (drop a (o_lines o))))) as HS by (apply (HL k); [by exists a, b|done]).
      unfold limit_safe in *. by rewrite (rn_rest _ _ _ _ HR).
Qed.

(** The cells of the lines are cells of the mesh. *)
Lemma prolonged_in row col val cen md thr fo F x dir l : prolonged row col val cen md thr fo F x dir l → ∀ y, y ∈ l → y ∈ F.
Proof using.
  induction 1 as [|F x dir y l Hc Hp IH]; intros z Hz; [by apply elem_of_nil in Hz|].
  apply elem_of_cons in Hz as [->|Hz]; [|by apply IH, elem_of_difference in Hz as [? _]].
  unfold continued in Hc. destruct dir as [d|]; [destruct fo|].
  - by destruct Hc as [(w & (? & _) & _)|[_ (w & (? & _) & _)]].
  - by destruct Hc as (w & (? & _) & _).
  - by destruct Hc as (w & (? & _) & _).
Qed.
Lemma all_built_in row col val cen md thr fo F ss ls : all_built row col val cen md thr fo F ss ls → ∀ y, y ∈ concat ls → y ∈ F.
Proof using.
  induction 1 as [F|F s ss ls Hs Ha IH|F s ss l ls Hs Hb Hl Ha IH|F s ss ls Hs Hb Ha IH]; intros y; cbn [concat].
  - by intros ?%elem_of_nil.
  - apply IH.
  - rewrite elem_of_app. intros [Hy|Hy]; [|by apply IH, elem_of_difference in Hy as [? _]].
    destruct Hb as (fwd & bwd & P1 & P2 & ->). rewrite elem_of_app, elem_of_reverse, elem_of_cons in Hy.
    destruct Hy as [Hy|[->|Hy]]; [|done|by eapply prolonged_in, elem_of_difference in Hy as [? _]].
    destruct fwd as [|z fwd]; [subst; by apply elem_of_nil in Hy|]. eapply prolonged_in in Hy; [|done].
    apply elem_of_difference in Hy as [[? _]%elem_of_difference _]. done.
  - intros Hy. by apply IH, elem_of_difference in Hy as [? _].
Qed.
Lemma lines_in o lines : good_call i o → aniso_on i o → lines_right i o lines → ∀ x, x ∈ concat lines → x < in_n i.
Proof using WM.
  intros HG Ha. unfold lines_right. destruct (in_build i) eqn:Hb.
  - intros (ss & F & _ & _ & H3 & H4 & H5) x Hx. eapply all_built_in in Hx; [|done]. apply H4, H3 in Hx as [Hx _]. by apply (wf_compl _ WM).
  - intros -> x (l & Hx & Hl)%elem_of_concat. apply elem_of_list_filter in Hl as [_ Hl].
    destruct (gc_given _ _ HG Ha Hb) as [[] _]. apply ul_lt. unfold split_lines in Hl.
    apply elem_of_lookup_zip_with in Hl as (j & a & b & -> & _). apply elem_of_take in Hx as (k & Hx & _).
    rewrite lookup_drop in Hx. by eapply elem_of_list_lookup_2.
Qed.

Lemma rl_less x y wx wy : in_prio i !! x = Some wx → in_prio i !! y = Some wy → wlt wx wy = false → wlt wy wx = false → f x < f y ↔ x < y.
Proof using HR HT.
  intros Hx Hy H1 H2. split; [|by apply (HT x y wx wy)]. intros Hl. destruct (lt_eq_lt_dec x y) as [[?| ->]|Hg]; [done|lia|].
  pose proof (HT y x wy wx Hy Hx H2 H1 Hg). lia.
Qed.
Lemma rl_first x y : x < in_n i → y < in_n i → comes_first i' (f x) (f y) ↔ comes_first i x y.
Proof using WM HR HE HT.
  intros Hx Hy. unfold comes_first, clipped, prio_of. rewrite !(rn_bnd _ _ _ _ HR), !(rn_prio _ _ _ _ HR).
  replace (in_dim i') with (in_dim i) by (by rewrite (rn_rest _ _ _ _ HR)).
  apply or_iff_compat_l, and_iff_compat_l, or_iff_compat_l.
  rewrite <- (wf_prio _ WM) in Hx, Hy. apply lookup_lt_is_Some in Hx as [wx Hx], Hy as [wy Hy]. rewrite Hx, Hy. simpl.
  split; intros [He Hl]; (split; [done|]); destruct (HE _ _ He) as [E1 E2]; by apply (rl_less x y wx wy Hx Hy E1 E2).
Qed.
Lemma rl_oriented l w : (∀ x, x ∈ l → x < in_n i) → oriented i l w → oriented i' (f <$> l) (f <$> w).
Proof using WM HR HE HT.
  intros Hl (x & y & Hx & Hy & Hc). exists (f x), (f y).
  assert (x < in_n i) as Hxn by (by apply Hl, head_Some_elem_of).
  assert (y < in_n i) as Hyn by (by apply Hl, last_Some_elem_of).
  rewrite fmap_last, Hy, rl_first by done. split; [destruct l; [done|]; by injection Hx as ->|]. split; [done|].
  destruct Hc as [[? ->]|[? ->]]; [by left|right]. by rewrite fmap_reverse.
Qed.

Lemma rl_lines o lines : (in_build i = true → keeps_neighbours f i) → lines_right i o lines → lines_right i' (o' o) (ml f lines).
Proof using WM HR Hsw HT.
  intros HN. unfold lines_right. replace (in_build i') with (in_build i) by (by rewrite (rn_rest _ _ _ _ HR)).
  destruct (in_build i); [|by intros ->; simpl; rewrite ml_split, ml_filter].
  pose proof (rn_carried f h i i' WM HR Hsw) as HC. pose proof (f_inj f h hf) as HI.
  intros (ss & F & H1 & H2 & H3 & H4 & H5). exists (f <$> ss), (mp f F). split_and!.
  - by apply (NoDup_fmap_2 f).
  - intros j k a b wa wb Hjk. rewrite !list_lookup_fmap. intros (x & Hx & ->)%fmap_Some (y & Hy & ->)%fmap_Some.
    rewrite !(rn_prio _ _ _ _ HR). intros Ha Hb. destruct (H2 j k x y wa wb Hjk Hx Hy Ha Hb) as [?|[E Hl]]; [by left|].
    destruct (wlt wb wa) eqn:E2; [by left|right]. split; [done|]. by apply (rl_less x y wa wb).
  - intros x. rewrite <- (fh x), (in_fmap f h hf), H3. symmetry.
    replace (in_dim i') with (in_dim i) by (by rewrite (rn_rest _ _ _ _ HR)).
    replace (in_thr i') with (in_thr i) by (by rewrite (rn_rest _ _ _ _ HR)).
    apply (cl_anisotropic f h _ _ HC). apply HR.
  - intros x. by rewrite <- (fh x), (mp_in f h hf), (in_fmap f h hf), H4.
  - replace (in_coupling i') with (in_coupling i) by (by rewrite (rn_rest _ _ _ _ HR)).
    replace (in_thr i') with (in_thr i) by (by rewrite (rn_rest _ _ _ _ HR)).
    replace (in_force i') with (in_force i) by (by rewrite (rn_rest _ _ _ _ HR)).
    apply (cl_all_built f h _ _ HC _ _ _ (HN eq_refl) (wf_val _ WM) F); [exact H5|]. intros x. by rewrite (mp_in f h hf).
Qed.

Lemma rl_neighbours aggl aggl' walked : (∀ x, aggl' !! f x = aggl !! x) →
  (∀ x, x ∈ concat walked → nb_list (in_row i') (in_col i') (f x) = f <$> nb_list (in_row i) (in_col i) x) →
  line_neighbours i' aggl' (ml f walked) = f <$> line_neighbours i aggl walked.
Proof using.
  intros Ha HL. unfold line_neighbours. rewrite ml_concat.
  rewrite (filter_map f (λ x, aggl !! x ≠ Some false) (λ x, aggl' !! x ≠ Some false)) by (intros x; by rewrite Ha).
  rewrite <- (filter_map f (λ x, aggl !! x = Some false) (λ x, aggl' !! x = Some false)) by (intros x; by rewrite Ha).
  f_equal. induction (concat walked) as [|x l IH]; [done|]. rewrite !filter_cons.
  destruct (decide (aggl !! x ≠ Some false)) as [E|E]; [|apply IH; intros y Hy; apply HL; by right].
  rewrite !fmap_cons. cbn [concat]. rewrite fmap_app, IH, HL; [done|by left|intros y Hy; apply HL; by right].
Qed.

Lemma rl_whole o r : exact_arith → good_call i o → aniso_on i o → same_along f i i' o → (in_build i = true → keeps_neighbours f i) →
  in_order i = 0%Z ∨ in_order i = 10%Z ∨ keeps_levels f i → whole i o r → ∃ r', same_upto f r r' ∧ whole i' (o' o) r'.
Proof using WM HR Hsw HE HT.
  intros EA HG Ha HL HN Ho (lines & walked & pieces & ip & d & aggl & p & Xs & L1 & L2 & Hw & Hp & Hip & Hd & La & Fa & St & Sq & Lf & Fc & An & Af).
  pose proof (rn_carried f h i i' WM HR Hsw) as HC. pose proof (rn_cells _ _ _ _ HR) as Hn.
  destruct (carry_spec f h hf fh aggl) as [A1 A2]; [by rewrite La|].
  destruct (carry_spec f h hf fh (o_fc2cc r)) as [F1 F2]; [by rewrite Lf|].
  pose proof (L1 Ha) as HLr. destruct (An Ha) as [An1 An2].
  assert (∀ x, is_free (carry h aggl) (f x) ↔ is_free aggl x) as fr by (intros x; unfold is_free; by rewrite A2).
  pose proof (lines_in o lines HG Ha HLr) as Hin.
  assert (∀ x, x ∈ concat walked → x ∈ concat lines) as Hwl.
  { intros x (l & Hx & Hl%elem_of_list_lookup)%elem_of_concat. destruct Hl as [j Hl].
    destruct (Forall2_lookup_r _ _ _ _ _ Hw Hl) as (l0 & Hl0 & Hor). apply elem_of_concat. exists l0.
    split; [|by eapply elem_of_list_lookup_2].
    destruct (oriented_or _ _ _ Hor) as [El|El]; rewrite El in Hx; [done|]. by apply elem_of_reverse. }
  pose proof (rl_neighbours aggl (carry h aggl) walked A2 (λ x Hx, HL lines x HLr (Hwl x Hx))) as Hnb.
  exists (Outs (carry h (o_fc2cc r)) (o_idx r) (o_lines r)). split; [by split_and!|].
  exists (ml f lines), (ml f walked), (mll f pieces), ip, d, (carry h aggl), (pm f p), (mp f <$> Xs).
  rewrite (rn_n f h i i' HR), rl_aniso. split_and!; try done.
  - intros _. by apply rl_lines.
  - clear -Hw Hin WM HR HE HT hf fh. unfold ml. induction Hw as [|l w ls ws Ho Hw IH]; [constructor|]. rewrite !fmap_cons. constructor.
    + apply rl_oriented; [|done]. intros x Hx. apply Hin. cbn [concat]. apply elem_of_app. by left.
    + apply IH. intros x Hx. apply Hin. cbn [concat]. apply elem_of_app. by right.
  - replace (in_odd i') with (in_odd i) by (by rewrite (rn_rest _ _ _ _ HR)).
    assert (∀ n, used i' n = used i n) as Hu by (intros n; unfold used; by rewrite (rn_rest _ _ _ _ HR)).
    clear -Hp Hu. unfold mll. induction Hp as [|l w ls ws (rest & Ho) Hw IH]; [constructor|].
    change (ml f (l :: ls)) with ((f <$> l) :: ml f ls). rewrite !fmap_cons. constructor; [|done].
    exists (f <$> rest). rewrite fmap_length, Hu, <- fmap_take. by apply ml_cut.
  - destruct Hip. rewrite (rn_rest _ _ _ _ HR). by split.
  - intros x c. rewrite <- (fh x), (rn_cen _ _ _ _ HR). apply Hd.
  - by rewrite A1.
  - intros x. rewrite <- (fh x), fr, Hn, Fa, mll_concat, ml_concat, (in_fmap f h hf). done.
  - rewrite Hnb. replace (in_order i') with (in_order i) by (by rewrite (rn_rest _ _ _ _ HR)).
    exact (pm_started_nb f h hf fh _ _ (rn_urgent f h i i' HR HT) _ _ (ca_bnd _ _ _ _ HC) _ _ aggl _ _ p fr St).
  - destruct (started_top_nb _ _ _ _ _ _ _ St) as [T1 T2].
    eapply (ca_sequence f h _ _ HC EA ip d _ _ (rn_urgent f h i i' HR HT) (in_n i) Hn); [|exact Sq|done|exact T1|done|by rewrite A1|done].
    intros Hbp x y bx b_y. simpl. rewrite !list_lookup_fmap. intros Hx Hy.
    apply fmap_Some in Hx as (bx0 & Hx & ->). apply fmap_Some in Hy as (by0 & Hy & ->).
    apply bool_decide_eq_false in Hbp. destruct Ho as [?|[?|HO]]; [by exfalso; apply Hbp; left|by exfalso; apply Hbp; right|].
    by apply HO.
  - simpl. by rewrite F1.
  - simpl. assert ((list_to_set <$> concat (mll f pieces)) ++ (mp f <$> Xs) = mp f <$> ((list_to_set <$> concat pieces) ++ Xs)) as EX.
    { rewrite fmap_app. f_equal. rewrite mll_concat. unfold ml. rewrite <- !list_fmap_compose. apply list_fmap_ext. intros j l _. simpl.
      by rewrite mp_list. }
    intros x c. rewrite <- (fh x), F2, Fc, EX. split.
    + intros (X & HX & Hx). exists (mp f X). by rewrite list_lookup_fmap, HX, (mp_in f h hf).
    + intros (X' & HX & Hx). rewrite list_lookup_fmap in HX. apply fmap_Some in HX as (X & HX & ->). exists X.
      by rewrite (mp_in f h hf) in Hx.
  - intros _. simpl. rewrite mll_length, mll_starts. split; [done|]. rewrite An2. by destruct lines.
Qed.
End one.
End call.

Lemma C60_lines_lem {A : Arith} {H : HashOrder} f h i i' o r e r' e' :
  exact_arith → total_order A → equal_ties → good_call i o → simple_csr (in_row i) (in_col i) →
  sym_weights (in_row i) (in_col i) (in_val i) → extremes_fine i →
  in_corr i = false ∨ (corr_size i <= 1)%Z → aniso_on i o →
  relabelled f h i i' → keeps_ties f i → in_order i = 0%Z ∨ in_order i = 10%Z ∨ keeps_levels f i →
  (in_build i = true → keeps_neighbours f i) → same_along f i i' o →
  agglomerate_one_level i o = (r, e) → agglomerate_one_level i' (lines_called f o) = (r', e') →
  e = Ok () ∧ e' = Ok () ∧ length (o_fc2cc r') = length (o_fc2cc r) ∧
  (∀ x, o_fc2cc r' !! f x = o_fc2cc r !! x) ∧ o_idx r' = o_idx r ∧ o_lines r' = o_lines r.
Proof.
  intros EA HO HE HG Hs Hsw Hex Hc Ha HR HT Hlev HN HL E E'. pose proof (gc_mesh _ _ HG) as WM.
  destruct (C57_lem _ _ _ _ EA HO HG Hs Hsw Hex E) as (-> & R1 & _).
  destruct (C57_lem _ _ _ _ EA HO (rl_good f h i i' WM HR o HG) (rn_simple f h i i' WM HR Hs)
    (rn_sym f h i i' HR Hsw) (rn_extremes f h i i' WM HR Hsw EA Hex) E') as (-> & _ & R2).
  destruct (rn_right_gen f h i i' o (lines_called f o) r WM HR Hsw (rl_aniso f h i i' HR o)) as (r1 & Hu & HW); [..|exact R1|].
  - intros r0. by apply (rl_whole f h i i' WM HR Hsw HE HT).
  - intros r0. apply (rl_whole f h (uncorrected i) (uncorrected i')); try done; [destruct WM; by split|by apply rn_uncorrected|by apply good_uncorrected].
  - assert (r1 = r') as <-; [|done]. apply R2; [|done].
    replace (in_corr i') with (in_corr i) by (by rewrite (rn_rest _ _ _ _ HR)).
    unfold corr_size in *. by rewrite (rn_rest _ _ _ _ HR).
Qed.
