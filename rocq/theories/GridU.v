(** * GridU: a regular grid is agglomerated block by block (C67) *)

From Coq Require Import Sorted.
From Verif Require Import Base Features Neigh Iso Seeds Spec SpecSub SpecFeat SpecBest SpecPool SpecGrow SpecFeed SpecMove SpecGrid Main.
From Verif Require Import ApiP ApiT GraphP FeedT MoveT GridT GridG GridQ.

Section all.
Context {A : Arith} {H : HashOrder}.
Context (ip : iso_params) (g : graph) (prio : list W).
Context (d : nat) (half : nat → nat) (co : nat → nat → nat).
Notation n := (g_n g).
Notation row := (g_row g).
Notation col := (g_col g).
Notation E := (edge row col).
Notation step := (step n d co).
Notation same := (same d co).
Notation bf := (bf d half co).
Hypothesis Hlt : ∀ c k, c < n → k < d → co c k < 2 * half k.
Hypothesis Hsur : ∀ f : nat → nat, (∀ k, k < d → f k < 2 * half k) → ∃ c, c < n ∧ ∀ k, k < d → co c k = f k.
Hypothesis Hinj : ∀ c c', c < n → c' < n → (∀ k, k < d → co c k = co c' k) → c = c'.
Hypothesis HE : ∀ x y, E x y ↔ step x y.
Hypothesis Hcsr : csr n row col.
Hypothesis Hsym : csr_sym row col.
Hypothesis Hval : length (g_val g) = length col.
Hypothesis Hprio : length prio = n.
Hypothesis Hord : weak_order wlt (λ w, w ∈ prio).
Hypothesis Hsimple : simple_csr row col.
Hypothesis Hd : d = 2 ∨ d = 3.
Hypothesis Hdim : ip_dim ip = Z.of_nat d.
Hypothesis Hmax : ip_max ip = Z.of_nat (2 ^ d).
Hypothesis Hgoal : (ip_goal ip <= ip_max ip)%Z.
Hypothesis Hmin : (1 < ip_min ip <= ip_max ip)%Z.
Hypothesis Hmode : d = 2 ∨ ip_front ip = false ∧ ip_it ip = false.
Context (dimc : nat).
Hypothesis Hshape : mesh_shape g dimc.
Hypothesis HWO : weak_order (@wlt A) (λ _, True).
Hypothesis Hb3 : ∀ b, b ∈ g_bnd g → (0 <= b <= 3)%Z.
Hypothesis Hbnd : ∀ x, x < n → g_bnd g !! x = Some (Z.of_nat (bf x)).
Hypothesis Hbl : length (g_bnd g) = n.

Notation inv := (inv n d half co).

(** The pool at the start, when all cells are free. *)
Lemma start_ok bp one aggl p : 0 < n → length aggl = n → (∀ x, x < n → is_free aggl x) →
  started prio (g_bnd g) bp one aggl [] p → inv aggl p.
Proof.
  clear - Hlt Hsur Hinj Hd Hbnd Hbl. intros Hn Hl Hall. unfold started. remember (replicate 4 []) as q4 eqn:Hq4.
  assert (∀ k (q : list nat), q4 !! k = Some q → q = []) as H4.
  { intros k q Hk. rewrite Hq4 in Hk. apply lookup_replicate in Hk as [-> _]. done. }
  assert (length q4 = 4) as L4 by by rewrite Hq4. clear Hq4.
  intros (t & [Hti Htm] & (l & q & Hq & [Hin Hs] & ->)). simpl in Hq |- *.
  destruct (corner_ex n d half co Hlt Hsur Hinj 0 Hn) as (c & Hc & Hbc).
  assert (t = Z.of_nat d) as ->.
  { apply elem_of_list_lookup in Hti as (x & Hx).
    assert (x < n) as Hxn by (rewrite <- Hbl; by eapply lookup_lt_Some).
    assert (Z.of_nat d <= t)%Z.
    { rewrite <- Hbc. apply Htm. eapply elem_of_list_lookup_2. by apply Hbnd. }
    rewrite Hbnd in Hx by done. injection Hx as <-. pose proof (cnt_le d (onb half co x)). unfold GridT.bf in *. lia. }
  rewrite Nat2Z.id in *.
  assert (q = []) as -> by by eapply H4.
  simpl. set (l' := if one then take 1 l else l).
  assert (∀ x, x ∈ l ↔ x < n ∧ bf x = d) as Hl2.
  { intros x. rewrite Hin. split.
    - intros (b & Hb & Hle). assert (x < n) as Hxn by (rewrite <- Hbl; by eapply lookup_lt_Some). split; [done|].
      rewrite Hbnd in Hb by done. injection Hb as <-. pose proof (cnt_le d (onb half co x)). unfold GridT.bf in *. lia.
    - intros [Hx Hb]. exists (Z.of_nat d). rewrite Hbnd by done. by rewrite Hb. }
  assert (∀ x, x ∈ l' → x < n ∧ bf x = d) as Hl3.
  { intros x Hx. apply Hl2. unfold l' in Hx. destruct one; [|done]. apply elem_of_take in Hx as (k & Hk & _).
    by eapply elem_of_list_lookup_2. }
  assert (∃ x, x ∈ l') as (x0 & Hx0).
  { assert (c ∈ l) as Hcl by by apply Hl2. unfold l'. destruct one; [|by exists c].
    destruct l as [|y l]; [by apply elem_of_nil in Hcl|]. exists y. by left. }
  assert (∀ k q, <[d:=l']> q4 !! k = Some q → k = d ∧ q = l' ∨ q = []) as Hqs.
  { intros k q Hk. destruct (decide (k = d)) as [-> |Hne].
    - rewrite list_lookup_insert in Hk by lia. injection Hk as <-. by left.
    - rewrite list_lookup_insert_ne in Hk by done. right. by eapply H4. }
  split; simpl.
  - done.
  - intros x y Hy _ _. by apply Hall.
  - by rewrite insert_length.
  - exists d. split_and!; [done|lia|lia|]. intros _ k Hk y (q & Hq1 & Hy). simpl in Hq1.
    destruct (Hqs _ _ Hq1) as [[-> _]| ->]; [lia|by apply elem_of_nil in Hy].
  - intros k x (q & Hq1 & Hx). simpl in Hq1. destruct (Hqs _ _ Hq1) as [[-> ->]| ->]; [by apply Hl3|by apply elem_of_nil in Hx].
  - intros k x o (q & Hq1 & Hx) _ _ Hst Hns. simpl in Hq1. exfalso.
    destruct (Hqs _ _ Hq1) as [[-> ->]| ->]; [|by apply elem_of_nil in Hx].
    apply Hl3 in Hx as [Hx Hb]. by eapply (out_corner n d half co Hlt).
  - intros k u x v Hq1 _ Hk. destruct (Hqs _ _ Hq1) as [[-> _]|Hu]; [lia|]. by destruct u.
  - intros o y Ho Hst _. exfalso. apply Ho, Hall. by destruct Hst as (j & ? & ? & _).
  - right. split; [done|]. exists x0. split; [apply Hall, Hl3, Hx0|]. exists l'. split; [|done].
    simpl. apply list_lookup_insert. lia.
Qed.

(** Every coarse cell is a block. *)
Lemma made_blocks aggl p Xs : inv aggl p → made ip g prio (compactness row col) aggl p Xs →
  Forall (λ X, ∃ s, s < n ∧ ∀ x, x ∈ X ↔ x < n ∧ same s x) Xs.
Proof.
  intros HI Hm. induction Hm as [|aggl p s p1 X K dn p2 aggl' Xs Htk Hgr Hh Hfed Hlen Hfree Hm IH]; [constructor|].
  pose proof (take_ok prio (g_bnd g) n d half co Hlt Hsur Hinj Hd Hbnd Hbl aggl p HI s p1 Htk) as HT.
  pose proof (tk_free _ _ _ _ _ _ _ _ HT) as Hs.
  assert (∀ x, is_free aggl x → x < n) as Hfn.
  { intros x Hx. rewrite <- (v_len _ _ _ _ _ _ HI). by eapply lookup_lt_Some. }
  pose proof (v_blk _ _ _ _ _ _ HI) as Hblk.
  pose proof (tk_out _ _ _ _ _ _ _ _ HT) as Hout.
  assert (∀ x, x ∈ X ↔ x < n ∧ same s x) as HX.
  { eapply (grown_block ip g prio d half co); try eassumption. }
  constructor; [exists s; split; [by apply Hfn|done]|].
  apply IH. eapply (feed_ok prio (g_bnd g) n d half co Hlt Hsur Hinj Hd Hbnd Hbl aggl aggl' p p1 p2 s X E dn); try eassumption.
  - intros y z Hne Hsz Fz Hzy Fy.
    assert (walk E (is_free aggl) (λ z, z = s) 2 y) as Hw.
    { eapply walk_S; [eapply walk_S; [by apply walk_0|by apply HE|done]|by apply HE|done]. }
    destruct (hood_near ip g d) with (free := is_free aggl) (s := s) (K := K) (dn := dn) (j := 2) (x := y) as [v Hv]; try eassumption; [lia|].
    exists v. split; [done|]. apply (hd_dist _ _ _ _ _ _ Hh) in Hv as (_ & k & _ & -> & _ & Hk). specialize (Hk _ Hw). lia.
  - intros y v Hv. apply (hd_dist _ _ _ _ _ _ Hh) in Hv as (_ & j & _ & -> & Hw & _). by exists j.
Qed.
End all.

Section call.
Context {A : Arith} {H : HashOrder}.
Implicit Types (i : input) (o r : outs).

Lemma uncorrected_grid i half co : even_grid i half co → even_grid (uncorrected i) half co.
Proof. by intros []. Qed.

Lemma no_lines i aggl : line_neighbours i aggl [] = [].
Proof. done. Qed.

Lemma grid_plain i o half co r e : good_call i o → ¬ aniso_on i o → in_corr i = false →
  simple_csr (in_row i) (in_col i) → weak_order wlt (λ _, True) → even_grid i half co →
  in_max i = (2 ^ in_dim i)%Z → in_dim i = 2%Z ∨ in_nbh i = 0%Z ∧ in_iter i = 1%Z → agglomerate_one_level i o = (r, e) →
  length (o_fc2cc r) = in_n i ∧
  ∀ x y, x < in_n i → y < in_n i → o_fc2cc r !! x = o_fc2cc r !! y ↔ same_block i co x y.
Proof.
  intros HG Hna Hcorr Hsi WO HM Hmx Hmode He. pose proof HG as [WM HA _ _ _].
  destruct (C01_lem i o HG) as (r' & He' & Hlen). rewrite He in He'. injection He' as <- ->. split; [done|].
  destruct (C45_lem i o r _ HG Hcorr Hsi WO He) as
    (ip & m & aggl & p & walked & Xs & Hd & Hmn & Hgl & Hmax & _ & Hf & _ & Hit & Hm & Hal & Hfr & Hw & _ & Hst & Hmd & Hres).
  rewrite Hw, no_lines in Hst by done.
  assert (m = 0) as ->.
  { destruct m; [done|]. destruct (proj2 (Hm 0)) as [? _]; [lia|done]. }
  assert (∀ x, x < in_n i → is_free aggl x) as Hall.
  { intros x Hx. apply Hfr. destruct (lookup_lt_is_Some_2 (o_fc2cc r) x) as [c Hc]; [lia|]. exists c. split; [done|].
    intros [? _]. done. }
  assert (axes i = 2 ∨ axes i = 3) as Hax. { unfold axes. destruct (ac_dim _ HA) as [-> | ->]; auto. }
  assert (in_dim i = Z.of_nat (axes i)) as Hdz. { unfold axes. destruct (ac_dim _ HA) as [-> | ->]; done. }
  assert (∀ x y, edge (in_row i) (in_col i) x y ↔ step (in_n i) (axes i) co x y) as HEE.
  { intros x y. split.
    - intros Hxy. assert (x < in_n i ∧ y < in_n i) as [Hx Hy].
      { apply (GraphP.edge_lt (graph_of i) (mesh_wfg i WM)). done. }
      apply (eg_edge _ _ _ HM) in Hxy as (k & Hk & Hxy & Hj); [|done..]. exists k. split_and!; done.
    - intros (k & Hx & Hy & Hk & Hxy & Hj). apply (eg_edge _ _ _ HM); try done. exists k. done. }
  assert (∀ x, x < in_n i → fixed_bnd i !! x = Some (Z.of_nat (bf (axes i) half co x))) as Hb.
  { intros x Hx. unfold fixed_bnd. rewrite list_lookup_fmap.
    destruct (lookup_lt_is_Some_2 (in_bnd i) x) as [b Hb]; [by rewrite (wf_bnd _ WM)|]. rewrite Hb. simpl.
    rewrite (eg_bnd _ _ _ HM x b Hb).
    assert (length (filter (λ k, co x k = 0 ∨ co x k = 2 * half k - 1) (seq 0 (axes i))) = bf (axes i) half co x) as ->.
    { unfold bf, cnt. f_equal. apply list_filter_iff. intros k. symmetry. apply onb_true. }
    pose proof (cnt_le (axes i) (onb half co x)). rewrite Hdz. unfold bf. rewrite bool_decide_eq_false_2 by lia. done. }
  destruct (wf_dim _ WM) as [dimc Hdimc].
  assert (mesh_shape (graph_of i) dimc) as HSH.
  { split; try apply WM; [done|]. simpl. unfold fixed_bnd. rewrite fmap_length. apply WM. }
  assert (Forall (λ X : gset nat, ∃ s, s < in_n i ∧ ∀ x, x ∈ X ↔ x < in_n i ∧ same (axes i) co s x) Xs) as HB.
  { eapply (made_blocks ip (graph_of i) (in_prio i) (axes i) half co) with (dimc := dimc); try exact Hmd; try done.
    - apply HM.
    - apply HM.
    - apply HM.
    - apply WM.
    - apply WM.
    - apply WM.
    - apply WM.
    - apply WM.
    - by rewrite Hd.
    - rewrite Hmax, Hmx. destruct Hax as [E|E]; rewrite Hdz, E; done.
    - rewrite Hgl, Hmax. apply HA.
    - rewrite Hmn, Hmax. pose proof (ac_min _ HA). pose proof (ac_goal _ HA). pose proof (ac_max _ HA). lia.
    - destruct Hmode as [Hm2|[Hnbh Hiter]]; [left; unfold axes; by rewrite Hm2|right]. rewrite Hf, Hit, Hnbh, Hiter. done.
    - intros b [x Hx]%elem_of_list_lookup. assert (x < in_n i) as Hxn.
      { apply lookup_lt_Some in Hx. simpl in Hx. unfold fixed_bnd in Hx. rewrite fmap_length, (wf_bnd _ WM) in Hx. done. }
      simpl in Hx. rewrite Hb in Hx by done. injection Hx as <-.
      pose proof (cnt_le (axes i) (onb half co x)). unfold bf. lia.
    - simpl. unfold fixed_bnd. rewrite fmap_length. apply WM.
    - eapply (start_ok (graph_of i) (in_prio i)); try exact Hst; try done.
      + apply HM.
      + apply HM.
      + apply HM.
      + simpl. unfold fixed_bnd. rewrite fmap_length. apply WM.
      + apply WM. }
  intros x y Hx Hy.
  destruct (lookup_lt_is_Some_2 (o_fc2cc r) x) as [c Hc]; [lia|].
  destruct (lookup_lt_is_Some_2 (o_fc2cc r) y) as [c' Hc']; [lia|].
  destruct (proj2 (Hres c x) Hc) as (X & HX & HxX).
  rewrite Forall_lookup in HB. destruct (HB _ _ HX) as (sd & Hsd & HXs).
  rewrite Hc, Hc'. split.
  - intros [= <-]. destruct (proj2 (Hres c y) Hc') as (X' & HX' & HyX). rewrite HX in HX'. injection HX' as <-.
    pose proof (proj1 (HXs x) HxX) as [_ Hx1]. pose proof (proj1 (HXs y) HyX) as [_ Hx2]. intros k Hk. rewrite <- Hx1, <- Hx2 by done. done.
  - intros Hsb. assert (y ∈ X) as HyX.
    { apply HXs. split; [done|]. pose proof (proj1 (HXs x) HxX) as [_ Hx1]. intros k Hk. rewrite Hx1 by done. by apply Hsb. }
    assert (o_fc2cc r !! y = Some (0 + c)) as Hyc by (apply Hres; by exists X). simpl in Hyc. congruence.
Qed.

(** The correction finds nothing to do. *)
Lemma grid_corrected i o half co r r0 e e0 : good_call i o → ¬ aniso_on i o →
  simple_csr (in_row i) (in_col i) → weak_order wlt (λ _, True) → even_grid i half co →
  in_max i = (2 ^ in_dim i)%Z → in_dim i = 2%Z ∨ in_nbh i = 0%Z ∧ in_iter i = 1%Z → in_corr i = true →
  agglomerate_one_level (uncorrected i) o = (r0, e0) → agglomerate_one_level i o = (r, e) → o_fc2cc r = o_fc2cc r0.
Proof.
  intros HG Hna Hsi WO HM Hmx Hmode Hc He0 He. pose proof HG as [WM HA _ _ _].
  destruct (C01_lem i o HG) as (r' & He' & Hlen). rewrite He in He'. injection He' as <- ->.
  destruct (C41_lem i o r0 e0 r _ HG Hsi Hc He0 He) as (-> & _ & [(sing & f1 & R & _ & Hsg & Haa & HR & Hr) _ _]).
  destruct (grid_plain (uncorrected i) o half co r0 _ (good_uncorrected i o HG) Hna eq_refl Hsi WO
    (uncorrected_grid _ _ _ HM) Hmx Hmode He0) as [Hl0 Hb0].
  assert (sing = []) as ->.
  { destruct sing as [|k sing]; [done|]. exfalso.
    destruct (proj1 (Hsg k)) as [[(x & Hx) _] Hsz]; [by left|].
    assert (x < in_n i) as Hxn. { apply lookup_lt_Some in Hx. rewrite Hl0 in Hx. done. }
    destruct (block_list (in_n i) (axes i) half co) with (s := x) (m := axes i) as (L & HnL & HL & HLx); try done; try apply HM.
    assert (2 ^ axes i ≤ size (cells_in (o_fc2cc r0) k)) as Hsize.
    { rewrite <- HL, <- (size_list_to_set (C := gset nat) L HnL). apply subseteq_size. intros y Hy.
      rewrite elem_of_list_to_set in Hy. apply HLx in Hy as (Hy & Hsy & _). unfold cells_in.
      rewrite elem_of_list_to_set, elem_of_list_filter, elem_of_seq, Hl0.
      split; [|split; [lia|exact Hy]]. rewrite <- Hx. symmetry. by apply Hb0. }
    assert (corr_size i < in_max i)%Z as Hcs.
    { unfold corr_size. pose proof (ac_goal _ HA). pose proof (ac_max _ HA). case_decide; lia. }
    assert (in_max i = Z.of_nat (2 ^ axes i)) as Hmz.
    { rewrite Hmx. unfold axes. destruct (ac_dim _ HA) as [-> | ->]; done. }
    lia. }
  inversion Haa; subst f1; clear Haa.
  rewrite Hr. apply list_eq. intros x. rewrite list_lookup_fmap. destruct (o_fc2cc r0 !! x) as [k|]; [|done]. simpl.
    f_equal. rewrite decide_False by (rewrite HR, elem_of_nil; naive_solver). unfold rank.
    assert (filter (λ j, j ∉ R) (seq 0 k) = seq 0 k) as ->; [|by rewrite seq_length].
    assert (∀ l : list nat, filter (λ j, j ∉ R) l = l) as Hfl; [|done].
    induction l as [|j l IH]; [done|]. rewrite filter_cons, decide_True, IH; [done|]. rewrite HR, elem_of_nil. naive_solver.
Qed.

Lemma C67_lem i o half co r e : good_call i o → ¬ aniso_on i o →
  simple_csr (in_row i) (in_col i) → weak_order wlt (λ _, True) → even_grid i half co →
  in_max i = (2 ^ in_dim i)%Z → in_dim i = 2%Z ∨ in_nbh i = 0%Z ∧ in_iter i = 1%Z → agglomerate_one_level i o = (r, e) →
  e = Ok () ∧ length (o_fc2cc r) = in_n i ∧
  ∀ x y, x < in_n i → y < in_n i → o_fc2cc r !! x = o_fc2cc r !! y ↔ same_block i co x y.
Proof.
  intros HG Hna Hsi WO HM Hmx Hmode He.
  destruct (C01_lem i o HG) as (r' & He' & Hlen). rewrite He in He'. injection He' as <- ->. split; [done|].
  destruct (in_corr i) eqn:Hc; [|by eapply grid_plain].
  destruct (agglomerate_one_level (uncorrected i) o) as [r0 e0] eqn:He0.
  rewrite (grid_corrected i o half co r r0 _ e0 HG Hna Hsi WO HM Hmx Hmode Hc He0 He).
  assert (e0 = Ok ()) as ->. { destruct (C01_lem _ o (good_uncorrected i o HG)) as (r2 & He2 & _). congruence. }
  exact (grid_plain (uncorrected i) o half co r0 _ (good_uncorrected i o HG) Hna eq_refl Hsi WO
    (uncorrected_grid _ _ _ HM) Hmx Hmode He0).
Qed.

Lemma C68_flat_lem i o half co r e : good_call i o → ¬ aniso_on i o →
  simple_csr (in_row i) (in_col i) → weak_order wlt (λ _, True) → even_grid i half co →
  in_max i = (2 ^ in_dim i)%Z → in_dim i = 2%Z → agglomerate_one_level i o = (r, e) →
  e = Ok () ∧ length (o_fc2cc r) = in_n i ∧
  ∀ x y, x < in_n i → y < in_n i → o_fc2cc r !! x = o_fc2cc r !! y ↔ same_block i co x y.
Proof. intros. eapply C67_lem; try done. by left. Qed.
End call.
