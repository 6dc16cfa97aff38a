(** * GrowP: the growth of one isotropic coarse cell *)

From Verif Require Export BestP SeedsP NbhP ContainerP.

(** ** The incremental compactness *)

Section compact.
Context {A : Arith}.

Lemma count_occ_nil x : count_occ_nat x [] = 0%Z.
Proof. done. Qed.
Lemma count_occ_cons x y l :
  count_occ_nat x (y :: l) = ((if decide (y = x) then 1 else 0) + count_occ_nat x l)%Z.
Proof. unfold count_occ_nat. rewrite filter_cons. case_decide; simpl; lia. Qed.
Lemma count_occ_nonneg x l : (0 <= count_occ_nat x l)%Z.
Proof. unfold count_occ_nat. lia. Qed.
Lemma count_occ_zero x l : x ∉ l → count_occ_nat x l = 0%Z.
Proof.
  induction l as [|y l IH]; intros Hx; [done|]. rewrite count_occ_cons, IH by set_solver.
  rewrite decide_False by set_solver. done.
Qed.
Lemma count_occ_pos x l : x ∈ l → (1 <= count_occ_nat x l)%Z.
Proof.
  induction l as [|y l IH]; intros Hx; [by apply elem_of_nil in Hx|]. rewrite count_occ_cons.
  pose proof (count_occ_nonneg x l). case_decide; [lia|].
  apply elem_of_cons in Hx as [->|Hx]; [done|]. specialize (IH Hx). lia.
Qed.
Lemma count_in_cons s y l :
  count_in s (y :: l) = ((if decide (y ∈ s) then 1 else 0) + count_in s l)%Z.
Proof. unfold count_in. rewrite filter_cons. case_decide; simpl; lia. Qed.
Lemma count_in_union c s l : c ∉ s →
  count_in ({[c]} ∪ s) l = (count_in s l + count_occ_nat c l)%Z.
Proof.
  intros Hc. induction l as [|y l IH]; [done|].
  rewrite !count_in_cons, count_occ_cons, IH.
  destruct (decide (y = c)) as [->|Hne].
  - rewrite decide_True by set_solver. rewrite decide_False by done. lia.
  - destruct (decide (y ∈ s)).
    + rewrite decide_True by set_solver. lia.
    + rewrite decide_False by set_solver. lia.
Qed.

Lemma compact_update_lookup tmp m c l x :
  compact_update tmp m c l !! x =
    if decide (x = c) then Some (count_in tmp l)
    else if decide (x ∈ tmp ∧ x ∈ l) then Some (default 0 (m !! x) + count_occ_nat x l)%Z
    else m !! x.
Proof.
  unfold compact_update.
  assert (∀ (k : Z) (m : gmap nat Z), foldl (λ '((k, m) : Z * gmap nat Z) n, if bool_decide (n ∈ tmp)
      then ((k + 1)%Z, <[n := (default 0 (m !! n) + 1)%Z]> m) else (k, m)) (k, m) l =
    ((k + count_in tmp l)%Z, foldl (λ (m : gmap nat Z) n, if bool_decide (n ∈ tmp)
      then <[n := (default 0 (m !! n) + 1)%Z]> m else m) m l)) as Hk.
  { clear. induction l as [|y l IH]; intros k m; simpl; [f_equal; unfold count_in; simpl; lia|].
    case_bool_decide.
    - rewrite IH, count_in_cons, decide_True by done. f_equal. lia.
    - rewrite IH, count_in_cons, decide_False by done. f_equal. }
  rewrite Hk. destruct (decide (x = c)) as [->|Hne]; [rewrite lookup_insert; f_equal; lia|].
  rewrite lookup_insert_ne by done. clear Hk. revert m. induction l as [|y l IH]; intros m; simpl.
  { rewrite decide_False by set_solver. done. }
  rewrite IH, count_occ_cons. clear IH. case_bool_decide as Hy.
  - destruct (decide (x ∈ tmp)) as [Hx|Hx].
    + destruct (decide (y = x)) as [->|Hyx].
      * rewrite lookup_insert. simpl. rewrite (decide_True (P:=x ∈ tmp ∧ x ∈ x :: l)) by set_solver.
        case_decide as Hd; [f_equal; lia|]. rewrite count_occ_zero by set_solver. try (f_equal; lia).
      * rewrite lookup_insert_ne by done.
        destruct (decide (x ∈ l)).
        -- rewrite !decide_True by set_solver. f_equal.
        -- rewrite !decide_False by set_solver. done.
    + rewrite !decide_False by set_solver. rewrite lookup_insert_ne by (intros ->; done). done.
  - destruct (decide (x ∈ tmp ∧ x ∈ l)) as [[? ?]|Hn].
    + rewrite decide_True by set_solver. rewrite decide_False by (intros ->; done). done.
    + rewrite decide_False; [done|]. intros [? Hx]. apply elem_of_cons in Hx as [->|?]; tauto.
Qed.

(** Graphs without self loops in which [x] is listed as often among the
    neighbours of [y] as [y] among those of [x]; e.g. symmetric ones without
    repeated neighbours. *)
Record simple_graph (g : graph) : Prop := {
  sg_loop : ∀ x, x ∉ adj g x;
  sg_mult : ∀ x y, count_occ_nat x (adj g y) = count_occ_nat y (adj g x);
}.

Lemma compact_update_cpt g cc c :
  simple_graph g → c ∉ cc →
  compact_update ({[c]} ∪ cc) (cpt_map g cc) c (adj g c) = cpt_map g ({[c]} ∪ cc).
Proof.
  intros [Hl Hm] Hc. apply map_eq. intros x. rewrite compact_update_lookup, !lookup_cpt_map.
  destruct (decide (x = c)) as [->|Hne].
  - rewrite decide_True by set_solver. done.
  - destruct (decide (x ∈ cc)) as [Hx|Hx].
    + rewrite (decide_True (P := x ∈ {[c]} ∪ cc)) by set_solver.
      rewrite count_in_union by done. simpl. case_decide as Hd; [by rewrite Hm|].
      f_equal. rewrite Hm, count_occ_zero by set_solver. lia.
    + rewrite (decide_False (P := x ∈ {[c]} ∪ cc)) by set_solver.
      rewrite decide_False by set_solver. done.
Qed.

End compact.

(** ** Sets reachable from the seed *)

Definition conn_from {A : Arith} (g : graph) (seed : nat) (X : gset nat) : Prop :=
  ∀ x, x ∈ X → ∃ k, walk (gedge g) (λ z, z ∈ X) (λ z, z = seed) k x.

Lemma walk_mono E (P P' S : nat → Prop) k x :
  (∀ z, P z → P' z) → walk E P S k x → walk E P' S k x.
Proof. intros HP. induction 1; [by constructor|]. econstructor; eauto. Qed.
Lemma conn_from_add {A : Arith} (g : graph) seed X c y :
  conn_from g seed X → y ∈ X → c ∈ adj g y → conn_from g seed ({[c]} ∪ X).
Proof.
  intros HX Hy Hc x Hx. apply elem_of_union in Hx as [Hx|Hx].
  - apply elem_of_singleton in Hx as ->. destruct (HX y Hy) as [k Hk]. exists (S k).
    econstructor; [eapply walk_mono; [|done]; set_solver|by apply elem_of_adj|set_solver].
  - destruct (HX x Hx) as [k Hk]. exists k. eapply walk_mono; [|done]. set_solver.
Qed.
Lemma walk_trans E (P : nat → Prop) S x y i j :
  walk E P S i x → walk E P (λ z, z = x) j y → walk E P S (j + i) y.
Proof. intros H1. induction 1; simpl; [by subst|]. econstructor; eauto. Qed.
Lemma walk_rev (E : nat → nat → Prop) (P : nat → Prop) x y k :
  (∀ a b, E a b → E b a) → P x → walk E P (λ z, z = x) k y → walk E P (λ z, z = y) k x.
Proof.
  intros Hs Hx Hw. revert y Hw. induction k as [|k IH]; intros y Hw; inversion Hw; subst; clear Hw.
  - by constructor.
  - match goal with H : walk E P _ k ?z |- _ => rename z into z'; pose proof H as Hz end.
    apply IH in Hz.
    assert (P z') as Hpz. { match goal with H : walk E P _ k z' |- _ => inversion H; subst; done end. }
    replace (S k) with (k + 1) by lia. eapply walk_trans; [|done].
    econstructor; [by constructor|by apply Hs|done].
Qed.
Lemma conn_from_connected {A : Arith} (g : graph) seed X :
  wfg g → seed ∈ X → conn_from g seed X → connected (gedge g) (λ x, x ∈ X).
Proof.
  intros WF Hs HX x y Hx Hy. destruct (HX x Hx) as [i Hi]. destruct (HX y Hy) as [j Hj].
  exists (j + i). eapply walk_trans; [|done]. apply walk_rev; [apply WF|done..].
Qed.

(** ** The loop *)

Section grow.
Context {A : Arith} {H : HashOrder}.
Context (g : graph) (prio : list W) (WF : wfg g) (WD : wfd g prio).
Context (dimc : nat) (Hdim : ∀ k c, g_cen g !! k = Some c → length c = dimc).
Context (seed : nat) (dn0 : gmap nat Z) (Hseed : seed < g_n g) (Hsd : dn0 !! seed = None).
Notation D := (dom dn0 : gset nat).
Context (HD : ∀ x, x ∈ D → x < g_n g).
Context (Hreach : ∀ cc : gset nat, seed ∈ cc → (∃ x, x ∈ D ∧ x ∉ cc) → ∃ y, border g D cc y).
Context (ip : iso_params) (max_ind : Z) (Hmin : (1 < ip_min ip <= max_ind)%Z)
  (Hmax : (max_ind <= Z.of_nat (size dn0) + 1)%Z).
Implicit Types s : grow.

(** A set that may be chosen. *)
Record grown (X : gset nat) : Prop := {
  gr_seed : seed ∈ X;
  gr_sub : ∀ x, x ∈ X → x = seed ∨ x ∈ D;
  gr_conn : conn_from g seed X;
}.

Record grow_inv s : Prop := {
  gi_h : nb_inv g prio 0 (gw_h s);
  gi_allowed : nb_allowed (gw_h s) = D;
  gi_fc : {[gw_next s]} ∪ nb_fc (gw_h s) = gw_cc s;
  gi_grown : grown (gw_cc s);
  gi_size : size (gw_cc s) = gw_size s;
  gi_dn : ∀ x, gw_dn s !! x = if decide (x ∈ gw_cc s) then None else dn0 !! x;
  gi_ft : feat_inv dimc (ip_ar ip) (gw_ft s) (gw_cc s);
  gi_cdom : ∀ x, is_Some (gw_cpt s !! x) ↔ x ∈ gw_cc s;
  gi_cpos : gw_cc s = {[seed]} ∧ gw_cpt s = {[seed := 0%Z]} ∨
    ∀ x v, gw_cpt s !! x = Some v → (1 <= v)%Z;
  gi_simple : simple_graph g → gw_cpt s = cpt_map g (gw_cc s);
  gi_arg : (Z.of_nat (gw_size s) < ip_min ip)%Z ∧ gw_maxc s = 0%Z ∧ gw_arg s = ip_min ip ∨
    (ip_min ip <= gw_arg s <= Z.of_nat (gw_size s))%Z ∧ (1 <= gw_maxc s)%Z;
  gi_dict : ∀ k, (ip_min ip <= Z.of_nat k)%Z → k ≤ gw_size s →
    ∃ X r, gw_dict s !! k = Some (X, r) ∧ grown X ∧ size X = k ∧
      (simple_graph g → Z.of_nat k = gw_arg s → is_compactness g X (gw_maxc s));
}.

Lemma grown_lt X x : grown X → x ∈ X → x < g_n g.
Proof. intros HX Hx. destruct (gr_sub _ HX x Hx) as [->|?]; auto. Qed.

Lemma grow_border s : grow_inv s → (Z.of_nat (gw_size s) < max_ind)%Z →
  ∃ y, border g D (gw_cc s) y.
Proof.
  intros HI Hs. apply Hreach; [apply (gr_seed _ (gi_grown _ HI))|].
  destruct (decide (D ∖ gw_cc s = ∅)) as [Hn|Hn].
  2:{ apply set_choose_L in Hn as [x Hx]. exists x. by apply elem_of_difference in Hx. }
  exfalso. assert (D ⊆ gw_cc s ∖ {[seed]}) as Hsub.
  { intros x Hx. apply elem_of_difference. split.
    - destruct (decide (x ∈ gw_cc s)); [done|]. exfalso.
      assert (x ∈ D ∖ gw_cc s) as Hx' by by apply elem_of_difference.
      rewrite Hn in Hx'. by apply elem_of_empty in Hx'.
    - intros Hs'. apply elem_of_singleton in Hs' as ->. apply elem_of_dom in Hx as [? Hx]. congruence. }
  apply subseteq_size in Hsub. rewrite size_dom, size_difference, size_singleton, (gi_size _ HI) in Hsub.
  - assert (0 < size (gw_cc s)); [|rewrite (gi_size _ HI) in *; lia].
    assert (size (gw_cc s) ≠ 0); [|lia]. intros He. apply size_empty_inv in He.
    pose proof (gr_seed _ (gi_grown _ HI)). set_solver.
  - intros x Hx. apply elem_of_singleton in Hx as ->. apply (gi_grown _ HI).
Qed.

Lemma grow_step_ok s :
  grow_inv s → (Z.of_nat (gw_size s) < max_ind)%Z →
  wp (grow_step ip g prio max_ind s) (λ s', grow_inv s' ∧ gw_size s' = S (gw_size s)).
Proof.
  intros HI Hsz. pose proof (grow_border s HI Hsz) as Hbord.
  pose proof (gi_grown _ HI) as HG.
  assert (∀ x, x ∈ gw_cc s → x < g_n g) as Hcc by (intros x; by apply grown_lt).
  assert (gw_next s ∈ gw_cc s) as Hnx by (rewrite <- (gi_fc _ HI); set_solver).
  unfold grow_step. rewrite (nbrs_ok g WF) by auto. rewrite bind_ok.
  wstep. eapply wp_mono.
  { apply (nbh_update_ok g prio WF); [apply WD|apply WD|apply HI|auto]. }
  intros h (HI' & Hal & Hfc & _). rewrite (gi_allowed _ HI) in Hal. rewrite (gi_fc _ HI) in Hfc.
  cbn zeta. wstep. eapply wp_mono.
  { apply (compute_best_ok g prio WF WD dimc Hdim D HD ip h (gw_dn s) (gw_ft s) (gw_cc s) _ 0); try done.
    - destruct Hbord as [y Hy]. apply (ni_nonempty _ _ _ _ HI' y). by rewrite Hal, Hfc.
    - apply (gi_ft _ HI).
    - intros x Hx Hxc. rewrite (gi_dn _ HI), decide_False by done. by apply elem_of_dom in Hx. }
  intros b Hb. set (c := b_arg b).
  assert (border g D (gw_cc s) c) as (HcD & Hcc' & y & Hy & Hyc).
  { rewrite <- Hal, <- Hfc. apply (ni_cand _ _ _ _ HI'). apply (bi_in _ _ _ _ _ _ _ Hb). }
  assert (c < g_n g) as Hc by auto.
  rewrite (nb_nbrs_ok g WF) by done. rewrite bind_ok.
  wstep. apply (n_bnd_ok g); [apply WD|done|]. intros nb _.
  rewrite (nbrs_ok g WF) by done. rewrite bind_ok.
  set (tmp := {[c]} ∪ gw_cc s). set (cpt := compact_update tmp (gw_cpt s) c (adj g c)).
  set (size' := S (gw_size s)).
  assert (∀ x, is_Some (cpt !! x) ↔ x ∈ tmp) as Hcdom.
  { intros x. unfold cpt. rewrite compact_update_lookup. pose proof (gi_cdom _ HI x) as Hx.
    assert (x ∈ tmp ↔ x = c ∨ x ∈ gw_cc s) as Ht.
    { unfold tmp. by rewrite elem_of_union, elem_of_singleton. }
    destruct (decide (x = c)) as [->|Hne].
    - split; [intros _; apply Ht; by left|]. intros _. by eexists.
    - destruct (decide (x ∈ tmp ∧ x ∈ adj g c)) as [[Ht' _]|Ht'].
      + split; [done|]. intros _. by eexists.
      + rewrite Hx, Ht. split; [by right|]. intros [?|?]; done. }
  assert (∀ x v, cpt !! x = Some v → (1 <= v)%Z) as Hcpos.
  { intros x v. unfold cpt. rewrite compact_update_lookup.
    assert (y ∈ adj g c) as Hyc' by by apply adj_sym.
    destruct (decide (x = c)) as [->|Hne].
    - intros [= <-]. assert (0 < count_in tmp (adj g c))%Z; [|lia]. apply count_in_pos.
      exists y. set_solver.
    - case_decide as Hd.
      + intros [= <-]. destruct Hd as [Hd1 Hd2]. pose proof (count_occ_pos _ _ Hd2).
        assert (0 <= default 0 (gw_cpt s !! x))%Z; [|lia].
        destruct (gw_cpt s !! x) as [v|] eqn:Hv; simpl; [|lia].
        destruct (gi_cpos _ HI) as [[H1 H2]|H1]; [|by apply H1 in Hv; lia].
        rewrite H2, lookup_singleton_Some in Hv. lia.
      + intros Hv. destruct (gi_cpos _ HI) as [[H1 H2]|H1]; [|by apply H1 in Hv].
        exfalso. apply Hd. assert (x ∈ gw_cc s) as Hx by (apply (gi_cdom _ HI); eauto).
        rewrite H1 in Hx, Hy. apply elem_of_singleton in Hx as ->, Hy as ->.
        split; [|done]. unfold tmp. rewrite H1. set_solver. }
  assert (size tmp = size') as Hsz'.
  { unfold tmp. rewrite size_union by set_solver. rewrite size_singleton, (gi_size _ HI). done. }
  assert (grown tmp) as HG'.
  { split.
    - apply elem_of_union_r, HG.
    - intros x Hx. apply elem_of_union in Hx as [Hx|Hx]; [|by apply HG].
      apply elem_of_singleton in Hx as ->. by right.
    - eapply conn_from_add; [apply HG|done..]. }
  assert (simple_graph g → cpt = cpt_map g tmp) as Hsimp.
  { intros Hs. unfold cpt. rewrite (gi_simple _ HI Hs). by apply compact_update_cpt. }
  wstep. eapply wp_mono.
  { apply map_min_ok. intros He. assert (is_Some (cpt !! c)) as [v Hv].
    { apply Hcdom. set_solver. } by rewrite He, lookup_empty in Hv. }
  intros cur Hcur. assert (1 <= cur)%Z as Hcur1.
  { destruct Hcur as [[x Hx] _]. eauto. }
  assert (2 ≤ size') as H2.
  { unfold size'. assert (gw_size s ≠ 0); [|lia]. rewrite <- (gi_size _ HI).
    intros He. apply size_empty_inv in He. set_solver. }
  assert (simple_graph g → is_compactness g tmp cur) as Hcomp.
  { intros Hs. unfold is_compactness. rewrite decide_True by lia. by rewrite <- Hsimp. }
  set (ext := (gw_ext s + _)%Z). set (elig := _ || _).
  assert (elig = bool_decide (ip_min ip <= Z.of_nat size')%Z) as Helig.
  { unfold elig. case_bool_decide as H3; [done|]. simpl. apply bool_decide_eq_false. lia. }
  clearbody elig. subst elig.
  assert (∀ x, delete c (gw_dn s) !! x = if decide (x ∈ tmp) then None else dn0 !! x) as Hdn'.
  { intros x. destruct (decide (x = c)) as [->|Hne].
    - rewrite lookup_delete, decide_True; [done|set_solver].
    - rewrite lookup_delete_ne by done. rewrite (gi_dn _ HI). unfold tmp.
      destruct (decide (x ∈ gw_cc s)).
      + rewrite decide_True by set_solver. done.
      + rewrite decide_False by set_solver. done. }
  assert ({[c]} ∪ nb_fc h = tmp) as Hfc' by by rewrite Hfc.
  set (entry := (tmp, (c, default 0%Z (gw_dn s !! c)))).
  destruct (decide (ip_min ip <= Z.of_nat size')%Z) as [He|He].
  - rewrite (bool_decide_true (ip_min ip <= Z.of_nat size')%Z) by done.
    set (res := if bool_decide (gw_maxc s < cur)%Z then _ else _).
    assert (res.2 = Z.of_nat size' ∧ res.1.1 = cur ∨
      res.2 = gw_arg s ∧ res.1.1 = gw_maxc s ∧ (1 <= gw_maxc s)%Z) as Hres.
    { unfold res. case_bool_decide as H3; [by left|]. assert (1 <= gw_maxc s)%Z by lia.
      case_bool_decide as H4; [|by right].
      destruct (_ || _); [left|by right]. done. }
    destruct res as [[maxc minext] arg]. simpl in Hres. simpl. split; [|done].
    split; simpl; try done.
    + apply (bi_feats _ _ _ _ _ _ _ Hb).
    + by right.
    + destruct Hres as [[-> ->]|(-> & -> & H3)]; right; [lia|].
      destruct (gi_arg _ HI) as [(H4 & H5 & H6)|[H4 H5]]; lia.
    + intros k Hk1 Hk2. destruct (decide (k = size')) as [->|Hne].
      * exists tmp, (c, default 0%Z (gw_dn s !! c)). rewrite lookup_insert. split_and!; [done..|].
        intros Hs Harg. destruct Hres as [[_ ->]|(-> & -> & H3)]; [auto|].
        destruct (gi_arg _ HI) as [(H4 & H5 & H6)|[H4 H5]]; lia.
      * rewrite lookup_insert_ne by done.
        destruct (gi_dict _ HI k) as (X & r & HX & HgX & HsX & Hc'); [done|lia|].
        exists X, r. split_and!; [done..|]. intros Hs Harg.
        destruct Hres as [[-> ->]|(-> & -> & H3)]; [lia|auto].
  - rewrite (bool_decide_false (ip_min ip <= Z.of_nat size')%Z) by done. simpl. split; [|done].
    split; simpl; try done.
    + apply (bi_feats _ _ _ _ _ _ _ Hb).
    + by right.
    + destruct (gi_arg _ HI) as [(H4 & H5 & H6)|[H4 H5]]; [left; split_and!; [lia|done..]|lia].
    + intros k Hk1 Hk2. lia.
Qed.

Lemma grow_loop_ok k s :
  grow_inv s → (Z.of_nat (gw_size s + k) <= max_ind)%Z →
  wp (grow_loop k ip g prio max_ind s) (λ s', grow_inv s' ∧ gw_size s' = gw_size s + k).
Proof.
  revert s. induction k as [|k IH]; intros s HI Hk; simpl; [split; [done|lia]|].
  wstep. eapply wp_mono; [apply grow_step_ok; [done|lia]|]. intros s' [HI' Hs'].
  eapply wp_mono; [apply IH; [done|lia]|]. simpl. intros s'' [? ?]. split; [done|lia].
Qed.

Lemma grow_init_ok ft ext front minext :
  (∀ d, front = Some d → (2 <= d)%Z) → feat_inv dimc (ip_ar ip) ft {[seed]} →
  grow_inv (Grow (nbh_create D front) seed 1 {[seed]} ft dn0 ext {[ seed := 0%Z ]} 0%Z
             minext (ip_min ip) ∅).
Proof.
  intros Hfr Hft. pose proof (size_singleton (C:=gset nat) seed) as Hsz1. split; simpl; try done.
  - by apply nb_inv_create.
  - set_solver.
  - split.
    + set_solver.
    + set_solver.
    + intros x Hx. apply elem_of_singleton in Hx as ->. exists 0. by constructor.
  - intros x. case_decide as Hx; [|done]. apply elem_of_singleton in Hx as ->. done.
  - intros x. rewrite elem_of_singleton. destruct (decide (x = seed)) as [->|Hne].
    + rewrite lookup_singleton. split; eauto.
    + rewrite lookup_singleton_ne by done. split; [intros [? ?]; done|done].
  - by left.
  - intros [Hl _]. apply map_eq. intros x. rewrite lookup_cpt_map.
    destruct (decide (x = seed)) as [->|Hne].
    + rewrite lookup_singleton, decide_True by set_solver. f_equal.
      pose proof (count_in_nonneg {[seed]} (adj g seed)).
      pose proof (count_in_pos {[seed]} (adj g seed)) as Hp.
      destruct (decide (0 < count_in {[seed]} (adj g seed))%Z) as [Hd|]; [|lia].
      apply Hp in Hd as (z & Hz & Hz'). apply elem_of_singleton in Hz' as ->. by apply Hl in Hz.
    + rewrite lookup_singleton_ne, decide_False by set_solver. done.
  - left. lia.
  - intros k Hk1 Hk2. lia.
Qed.

End grow.
