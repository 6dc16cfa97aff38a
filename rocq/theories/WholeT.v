(** * WholeT: the choice of cells and the growth of coarse cells, without any
    function of the model (C57) *)

From Verif Require Import NeighP FrontT SearchT SpecSub SpecFeat SpecAR SpecBest SpecFront SpecPool SpecGrow SpecFeed SpecLine
  SpecMove SpecWhole FeatU BestT GrowT FeedP DetT.

(** ** Uniqueness *)
Section uniq.
Context {A : Arith} (WO : weak_order (@wlt A) (λ _, True)).
Context (HT : ∀ a b : W, wlt a b = false → wlt b a = false → a = b).

Lemma turn_inj m i j : i < m → j < m → turn m i = turn m j → i = j.
Proof using. clear. unfold turn. intros Hi Hj. do 2 case_bool_decide; lia. Qed.

Lemma front_candidates_unique row col allowed d cs L L' x :
  front_candidates row col allowed d cs L → front_candidates row col allowed d cs L' → x ∈ L → x ∈ L'.
Proof using.
  clear. unfold front_candidates. case_bool_decide as Hd.
  - intros H1 H2 Hx. by apply H2, H1.
  - intros [[-> _]|(i & Hi & Hne & Hm & Hmin)]; [by intros _ ?%elem_of_nil|].
    intros [[-> Hno]|(j & Hj & Hne' & Hm' & Hmin')] Hx.
    + apply Hm in Hx. by apply Hno in Hx.
    + assert (i = j) as <-; [|by apply Hm', Hm].
      destruct (lt_eq_lt_dec (turn (length cs) i) (turn (length cs) j)) as [[Hlt|Heq]|Hlt].
      * exfalso. eapply (Hmin' i x); [done|done|]. by apply Hm.
      * by eapply turn_inj.
      * exfalso. destruct L' as [|y L']; [done|]. eapply (Hmin j y); [done|done|]. apply Hm'. left.
Qed.

Context (g : graph) (prio : list W) (k : ar_kind).
Context (dim : nat) (allowed : gset nat) (front : option Z) (dist : nat → Z).

Lemma appended_unique cs L L' : appended g prio allowed cs L → appended g prio allowed cs L' → L = L'.
Proof using WO.
  clear HT. intros H1. revert L'. induction H1 as [|cs L c new H1 IH HL]; intros L' H2.
  - inversion H2 as [|cs' ? ? ? ? ? E]; [done|]. by destruct cs'.
  - inversion H2 as [E|cs' L1 c' new' H1' HL' E]; [by destruct cs|].
    apply app_inj_tail in E as [-> ->]. rewrite <- (IH _ H1') in *. f_equal.
    by eapply listing_unique.
Qed.

Lemma candidates_unique cs L L' : candidates g prio allowed front cs L → candidates g prio allowed front cs L' → L = L'.
Proof using WO.
  clear HT. unfold candidates. destruct front as [d|]; [|by apply appended_unique].
  intros [F1 S1] [F2 S2]. eapply sorted_unique; [by apply more_urgent_asym|done|done|].
  intros x. split; by eapply front_candidates_unique.
Qed.

Lemma centre_unique q X b b' : length b = dim → length b' = dim → centre_of g q X b → centre_of g q X b' → b = b'.
Proof using.
  clear. intros L1 L2 C1 C2. apply list_eq. intros d. by rewrite (C1 d), (C2 d), L1, L2.
Qed.
Lemma is_ar_unique q X a b : is_ar g dim q k X a → is_ar g dim q k X b → a = b.
Proof using HT.
  clear WO. unfold is_ar. destruct k; try congruence.
  - intros (D & HD & ->) (D' & HD' & ->). by rewrite (greatest_uniq _ _ _ HT HD HD').
  - intros (D & E & HD & HE & ->) (D' & E' & HD' & HE' & ->).
    by rewrite (greatest_uniq _ _ _ HT HD HD'), (least_uniq _ _ _ HT HE HE').
  - by apply greatest_uniq.
  - intros (c & D & Lc & Hc & HD & ->) (c' & D' & Lc' & Hc' & HD' & ->).
    rewrite (centre_unique _ _ _ _ Lc Lc' Hc Hc') in *. by rewrite (greatest_uniq _ _ _ HT HD HD').
  - intros (c & D & E & Lc & Hc & HD & HE & ->) (c' & D' & E' & Lc' & Hc' & HD' & HE' & ->).
    rewrite (centre_unique _ _ _ _ Lc Lc' Hc Hc') in *.
    by rewrite (greatest_uniq _ _ _ HT HD HD'), (least_uniq _ _ _ HT HE HE').
Qed.
Lemma ratio_unique cs x a b : ratio g k dim cs x a → ratio g k dim cs x b → a = b.
Proof using HT.
  unfold ratio. destruct (two_cells_edge _ _); [by apply greatest_uniq|by apply is_ar_unique].
Qed.

Notation judged := (judged g prio k dim allowed front dist).
Lemma judged_unique n cs x v w : judged n cs x v → judged n cs x w → v = w.
Proof using WO HT.
  revert cs x v w. induction n as [|n IH]; intros cs x v w; cbn [SpecWhole.judged].
  - intros (a & Ra & ->) (b & Rb & ->). by rewrite (ratio_unique _ _ _ _ Ra Rb).
  - intros (a & Ra & L & m & CL & -> & HL) (b & Rb & L' & m' & CL' & -> & HL').
    rewrite (ratio_unique _ _ _ _ Ra Rb). f_equal. rewrite <- (candidates_unique _ _ _ CL CL') in *.
    destruct HL as [[EL ->]|(look & c & Hl & Hb & ->)], HL' as [[EL' ->]|(look' & c' & Hl' & Hb' & ->)]; [done| | |].
    + destruct Hb' as (p1 & p2 & E & _). rewrite EL in E. by destruct p1.
    + destruct Hb as (p1 & p2 & E & _). rewrite EL' in E. by destruct p1.
    + f_equal. eapply (first_best_unique WO); [|done|done]. intros z Hz. unfold key_of.
      by rewrite (IH _ _ _ _ (Hl z Hz) (Hl' z Hz)).
Qed.

Lemma picked_unique n cs c c' : picked g prio k dim allowed front dist n cs c →
  picked g prio k dim allowed front dist n cs c' → c = c'.
Proof using WO HT.
  intros (L & look & CL & HL & HB) (L' & look' & CL' & HL' & HB').
  rewrite <- (candidates_unique _ _ _ CL CL') in *. eapply (first_best_unique WO); [|done|done].
  intros z Hz. unfold key_of. by rewrite (judged_unique _ _ _ _ _ (HL z Hz) (HL' z Hz)).
Qed.
End uniq.

Section uniq2.
Context {A : Arith} (WO : weak_order (@wlt A) (λ _, True)).
Context (HT : ∀ a b : W, wlt a b = false → wlt b a = false → a = b).
Context (ip : iso_params) (g : graph) (prio : list W) (dim : nat).

Lemma grown_unique2 free seed X Y : grown_cell ip g prio dim free seed X → grown_cell ip g prio dim free seed Y → X = Y.
Proof using WO HT.
  intros [_ (K1 & dn & D1 & R1)] [_ (K2 & dn' & D2 & R2)].
  rewrite (hood_unique _ _ _ _ _ _ _ _ D2 D1) in R2. clear D1 D2 dn'. cbv zeta in *. case_bool_decide as Ea; [congruence|].
  destruct R1 as (l1 & C1 & k1 & N1 & L1 & S1 & P1 & Z1 & ->), R2 as (l2 & C2 & k2 & N2 & L2 & S2 & P2 & Z2 & ->).
  assert (length l1 = length l2) as El by lia.
  assert (∀ j, j ≤ length l1 → take j l1 = take j l2) as Et.
  { induction j as [|j IH]; intros Hj; [done|]. specialize (IH ltac:(lia)).
    destruct (lookup_lt_is_Some_2 l1 j) as [x Hx]; [lia|]. destruct (lookup_lt_is_Some_2 l2 j) as [y Hy]; [lia|].
    rewrite (take_S_r _ _ _ Hx), (take_S_r _ _ _ Hy), IH. do 2 f_equal.
    specialize (S1 _ _ Hx). specialize (S2 _ _ Hy). rewrite IH, El in S1. by eapply (picked_unique WO HT). }
  assert (l1 = l2) as ->.
  { specialize (Et (length l1) ltac:(done)). rewrite El in Et at 2. by rewrite !firstn_all in Et. }
  do 2 f_equal. eapply size_kept_unique; [|exact Z1|exact Z2]. intros j Hj. eapply cpt_unique; [by apply P1|by apply P2].
Qed.

Lemma sequence_unique aggl p Xs Ys : sequence ip g prio dim aggl p Xs → sequence ip g prio dim aggl p Ys → Xs = Ys.
Proof using WO HT.
  intros H1. revert Ys. induction H1 as [aggl p Hn|aggl p seed p1 X K dn p2 aggl' Xs T G Hd F L E M IH]; intros Ys H2.
  - inversion H2 as [|? ? s ? ? ? ? ? ? ? T]; [done|]. subst. exfalso.
    match goal with HG : grown_cell _ _ _ _ _ _ _ |- _ => destruct HG as [Hf _] end. by eapply Hn.
  - inversion H2 as [? ? Hn|? ? seed' p1' X' K' dn' p2' aggl2 Ys' T' G' Hd' F' L' E' M']; subst.
    { exfalso. destruct G as [Hf _]. by eapply Hn. }
    destruct (takes_unique WO _ _ _ _ _ _ _ _ T T') as [<- <-].
    rewrite <- (grown_unique2 _ _ _ _ G G') in *.
    rewrite <- (hood_unique _ _ _ _ _ _ _ _ Hd Hd') in *.
    pose proof (fed_unique WO _ _ _ _ _ _ _ F F') as <-.
    f_equal. apply IH. rewrite (free_unique aggl aggl' aggl2 _ L L' E E'). done.
Qed.
End uniq2.

(** ** The choices of the program *)
Lemma remove_first_filter c (l : list nat) : NoDup l → remove_first c l = filter (λ y, y ≠ c) l.
Proof.
  induction 1 as [|x l Hx Hnd IH]; [done|]. cbn [remove_first]. case_bool_decide as Hc.
  - subst x. rewrite filter_cons_False by (by intros Hn; apply Hn). symmetry. clear IH Hnd. induction l as [|y l IH]; [done|].
    apply not_elem_of_cons in Hx as [Hxy Hx]. rewrite filter_cons_True by done. f_equal. by apply IH.
  - rewrite filter_cons_True by done. by f_equal.
Qed.

Lemma good_urgent_list {A : Arith} (prio : list W) s : good_pset prio s → StronglySorted (more_urgent prio) (map fst s).
Proof.
  intros Hs. apply sorted_of_lookup. intros i j x y Hij Hx Hy.
  assert (x ∈ map fst s ∧ y ∈ map fst s) as [Hx' Hy'] by (split; by eapply elem_of_list_lookup_2).
  apply (good_fst_elem prio _ _ Hs) in Hx' as (wx & Hwx & _).
  apply (good_fst_elem prio _ _ Hs) in Hy' as (wy & Hwy & _).
  exists wx, wy. split; [done|]. split; [done|].
  pose proof (good_prio_sorted prio s Hs) as Hps.
  destruct (wlt wy wx) eqn:Hw; [by left|]. right. destruct (Hps i j x y wx wy Hij Hx Hy Hwx Hwy) as [?|[? ?]]; [congruence|done].
Qed.

Section choice.
Context {A : Arith} {H : HashOrder} (EA : exact_arith) (WO : weak_order (@wlt A) (λ _, True)).
Context (g : graph) (prio : list W) (dim : nat) (MD : mesh_data g dim) (Hpl : length prio = g_n g).
Context (Hb3 : ∀ b, b ∈ g_bnd g → (0 <= b <= 3)%Z).
Context (k : ar_kind) (dn : gmap nat Z) (front : option Z) (seed : nat).
Context (HD : ∀ x, x ∈ dom dn → x < g_n g) (Hfr : ∀ d, front = Some d → (2 <= d)%Z).
Context (Hex : k = MaxOverMinBary → ∀ Y : gset nat, (∀ x, x ∈ Y → x < g_n g) → extremes_ok g (wofZ (Z.of_nat (size Y))) Y).
Notation upd := (λ h c, l ← nbrs g c; nbh_update prio h c l).
Notation h0 := (nbh_create (dom dn) front).
Notation cands := (candidates g prio (dom dn) front).
Notation dist := (λ x, default 0%Z (dn !! x)).
Notation judged := (judged g prio k dim (dom dn) front dist).

Lemma mesh_data_wfg : wfg g.
Proof using MD. destruct MD. done. Qed.
Lemma mesh_data_shape : mesh_shape g dim.
Proof using MD. destruct MD. done. Qed.
Lemma prio_ord : weak_order wlt (λ w, w ∈ prio).
Proof using WO. destruct WO as [W1 W2 W3]. split; intros; eauto. Qed.

Lemma appended_run cs h : (∀ c, c ∈ cs → c < g_n g) → foldM upd cs (nbh_create (dom dn) None) = Ok h →
  appended g prio (dom dn) cs (nb_cand h).
Proof using WO MD Hpl.
  intros Hcs Hh.
  assert (wp (foldM upd cs (nbh_create (dom dn) None)) (λ h, (nb_inv g prio 0 h ∧ nb_allowed h = dom dn ∧
    nb_fc h = list_to_set cs ∧ nb_front h = None) ∧ appended g prio (dom dn) cs (nb_cand h))) as Hw.
  { apply (wp_foldM _ (λ (pre : list nat) h, (nb_inv g prio 0 h ∧ nb_allowed h = dom dn ∧
      nb_fc h = list_to_set pre ∧ nb_front h = None) ∧ appended g prio (dom dn) pre (nb_cand h))).
    { split; [|constructor]. split_and!; [|done..]. by apply nb_inv_create. }
    intros pre c post h' Heq ((HI & Hal & Hfc & Hf) & HA).
    assert (c < g_n g) as Hc by (apply Hcs; rewrite Heq; apply elem_of_app; right; left).
    rewrite (nbrs_ok g mesh_data_wfg) by done. rewrite bind_ok.
    pose proof (nbh_update_ok g prio mesh_data_wfg Hpl prio_ord 0 h' c HI Hc) as Hu.
    apply wp_eq in Hu as (h2 & Eu & HI2 & Hal2 & Hfc2 & Hf2 & _). rewrite Eu. simpl.
    split.
    { split_and!; [done|by rewrite Hal2| |by rewrite Hf2]. rewrite Hfc2, Hfc, list_to_set_app_L. cbn [list_to_set].
      rewrite (right_id_L ∅ (∪)). apply (comm_L (∪)). }
    unfold nbh_update in Eu. rewrite Hf in Eu.
    assert (∀ n, n ∈ adj g c → n < length prio) as Hadj.
    { intros n Hn. rewrite Hpl. by eapply (adj_lt g mesh_data_wfg). }
    pose proof (collect_ok prio prio_ord (λ n, bool_decide (n ∉ remove_first c (nb_cand h')) && bool_decide (n ∉ {[c]} ∪ nb_fc h')
      && bool_decide (n ∈ nb_allowed h')) (adj g c) Hadj) as Hcol.
    apply wp_eq in Hcol as (s & Es & Hs & Hel). rewrite Es, bind_ok in Eu. injection Eu as <-. cbn [nb_cand].
    pose proof (ni_nodup _ _ _ _ HI) as Hnd. rewrite (remove_first_filter _ _ Hnd). constructor; [done|].
    split; [|by apply good_urgent_list].
    intros x. rewrite Hel, !andb_true_iff, !bool_decide_eq_true, elem_of_adj, (remove_first_filter _ _ Hnd), Hal, Hfc.
    rewrite elem_of_list_filter, not_elem_of_union, not_elem_of_app, not_elem_of_singleton, elem_of_list_to_set, elem_of_list_singleton.
    split.
    - intros (He & (H1 & H2 & H3) & H4). split_and!; [done..|]. intros Hx. by apply H1.
    - intros (He & H4 & (H3 & H2) & H1). split_and!; [done| |done..]. intros [_ Hx]. done. }
  rewrite Hh in Hw. by apply Hw.
Qed.

Lemma candidates_run cs h : (∀ c, c ∈ cs → c < g_n g) → foldM upd cs h0 = Ok h → cands cs (nb_cand h).
Proof using WO MD Hpl Hfr.
  intros Hcs Hh. unfold candidates. destruct front as [d|]; [|by apply appended_run].
  destruct (C29_front_lem g prio (dom dn) d cs (md_csr _ _ MD) (md_sym _ _ MD) (md_val _ _ MD) Hpl prio_ord (Hfr d eq_refl) Hcs)
    as (h' & Eh & Hc & _ & _).
  rewrite Eh in Hh. injection Hh as <-. split; [done|].
  pose proof (nbh_history_ok g prio mesh_data_wfg Hpl prio_ord (dom dn) (Some d) cs) as Hw.
  rewrite Eh in Hw. destruct Hw as (HN & _ & _ & Hf); [by intros ? [= <-]; apply Hfr|done|].
  destruct (ni_sort _ _ _ _ HN) as (s & Hs & ->); [by rewrite Hf|]. by apply good_urgent_list.
Qed.

Lemma judged_run n l left h f x a f' v :
  let X : gset nat := list_to_set (seed :: l) in
  let faces x := Z.of_nat (nb_in (g_row g) (g_col g) X (λ y, y ≠ x) x) in
  NoDup (seed :: l) → (∀ y, y ∈ seed :: l → y < g_n g) →
  (∀ y, y ∉ seed :: l → left !! y = dn !! y) →
  features_of k g seed l = Ok f → foldM upd (seed :: l) h0 = Ok h → x ∈ nb_cand h →
  compute_features k g x f X = Ok (faces x, a, f') →
  match n with
  | O => v = (faces x, a)
  | S n' => ∃ h' b', (l ← nbrs g x; nbh_update prio h x l) = Ok h' ∧
      best_iterative n' k g prio h' left f' ({[x]} ∪ X) 0 0%Z feats_default = Ok b' ∧
      v = ahead (faces x) a (b_faces b')
  end → judged n (seed :: l) x v.
Proof using EA WO MD Hpl Hb3 HD Hfr Hex.
  revert l h f x a f' v. induction n as [|n IH]; intros l h f x a f' v X faces Hnd Hlt Hleft Hf Hh Hx Hcf Hv.
  all: destruct (C29_lem g prio (dom dn) front (seed :: l) (md_csr _ _ MD) (md_sym _ _ MD) (md_val _ _ MD) Hpl prio_ord Hfr Hlt)
    as (h1 & Eh & _ & Hbord & _); rewrite Hh in Eh; injection Eh as <-;
    destruct (Hbord _ Hx) as (HxD & Hxl & y & Hy & Hyx);
    assert (NoDup (x :: seed :: l)) as Hnd' by (by constructor);
    assert (∀ y, y ∈ x :: seed :: l → y < g_n g) as Hlt' by (intros z [->|Hz]%elem_of_cons; auto);
    destruct (C39_ratio g dim k seed x l EA WO MD Hnd' Hlt') as (f1 & s1 & a1 & f1' & E1 & E2 & Es & _ & Hr);
    [intros Hk; apply Hex; [done|]; intros z [->%elem_of_singleton|Hz]%elem_of_union; [auto|apply Hlt; by apply elem_of_list_to_set in Hz]|];
    rewrite Hf in E1; injection E1 as <-; fold X in E2; rewrite Hcf in E2; injection E2 as _ <- <-;
    exists a; (split; [exact Hr|]).
  - done.
  - destruct Hv as (h' & b' & Eu & Eb & ->).
    assert (foldM upd (seed :: l ++ [x]) h0 = Ok h') as Hh'.
    { change (seed :: l ++ [x]) with ((seed :: l) ++ [x]). rewrite foldM_app, Hh, bind_ok. cbn [foldM]. by rewrite Eu, bind_ok. }
    assert (features_of k g seed (l ++ [x]) = Ok f') as Hf'.
    { rewrite features_of_snoc, Hf, bind_ok. fold X. by rewrite Hcf. }
    assert (NoDup (seed :: l ++ [x])) as Hnd2.
    { change (seed :: l ++ [x]) with ((seed :: l) ++ [x]). by rewrite <- Permutation_cons_append. }
    assert (∀ y, y ∈ seed :: l ++ [x] → y < g_n g) as Hlt2.
    { intros z Hz. apply Hlt'. change (seed :: l ++ [x]) with ((seed :: l) ++ [x]) in Hz. by rewrite <- Permutation_cons_append in Hz. }
    assert (∀ y, y ∉ seed :: l ++ [x] → left !! y = dn !! y) as Hleft2.
    { intros z Hz. apply Hleft. intros Hz'. apply Hz. change (seed :: l ++ [x]) with ((seed :: l) ++ [x]). apply elem_of_app. by left. }
    assert (({[x]} ∪ X : gset nat) = list_to_set (seed :: l ++ [x])) as EX.
    { unfold X. change (seed :: l ++ [x]) with ((seed :: l) ++ [x]). rewrite list_to_set_app_L.
      cbn [list_to_set]. rewrite (right_id_L ∅ (∪)). apply (comm_L (∪)). }
    rewrite EX in Eb.
    exists (nb_cand h'), (b_faces b'). split; [by apply candidates_run|]. split; [done|].
    destruct (C29_lem g prio (dom dn) front (seed :: l ++ [x]) (md_csr _ _ MD) (md_sym _ _ MD) (md_val _ _ MD) Hpl prio_ord Hfr Hlt2)
      as (h2 & Eh2 & _ & Hbord2 & _). rewrite Hh' in Eh2. injection Eh2 as <-.
    destruct (decide (nb_cand h' = [])) as [Ec|Ec].
    { left. split; [done|]. destruct n; cbn [best_iterative] in Eb; rewrite Ec in Eb; cbn [foldM] in Eb; by injection Eb as <-. }
    right. assert (∃ z, z ∈ nb_cand h') as [z Hz].
    { destruct (nb_cand h') as [|z cs]; [done|]. exists z. left. }
    destruct (Hbord2 _ Hz) as (HzD & Hzl & w & Hw & Hwz).
    destruct (C38_look g prio dim k seed (l ++ [x]) (dom dn) front left n WO mesh_data_shape Hpl Hb3 Hnd2 Hlt2 Hfr)
      as (f2 & h2 & b2 & ar2 & look & E1 & E2 & E3 & H1 & H2 & H3 & H4 & H5).
    { intros u Hu. split; [auto|]. intros Hul. rewrite Hleft2 by done. by apply elem_of_dom in Hu. }
    { exists z, w. split; [exact HzD|]. split; [exact Hzl|]. split; [exact Hw|change (z ∈ adj g w); by apply elem_of_adj]. }
    rewrite Hf' in E1. injection E1 as <-. rewrite Hh' in E2. injection E2 as <-.
    rewrite Eb in E3. injection E3 as <-.
    exists look, (b_arg b'). split_and!.
    + intros u Hu. destruct (H1 u Hu) as (fu & Hfu & Hlu).
      by apply (IH (l ++ [x]) h' f' u (ar2 u) fu (look u)).
    + eapply first_best_ext; [|exact H2]. intros u Hu. cbv beta. unfold key_of.
      destruct (Hbord2 _ Hu) as (_ & Hul & _). by rewrite Hleft2.
    + done.
Qed.
End choice.
