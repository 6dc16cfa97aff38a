(** * IsoP: the isotropic agglomeration before the correction *)

From Verif Require Export GrowP.

Section feed.
Context {A : Arith} {H : HashOrder}.
Context (g : graph) (prio : list W) (WF : wfg g) (WD : wfd g prio).
Implicit Types (p : pool) (aggl : list bool).

Lemma byord_insert_elem k x m y :
  (∃ s : Z * gset nat, s ∈ byord_insert k x m ∧ y ∈ s.2) ↔
  y = x ∨ ∃ s : Z * gset nat, s ∈ m ∧ y ∈ s.2.
Proof.
  induction m as [|[k' s] m IH]; simpl.
  - split.
    + intros (s & Hs & Hy). apply elem_of_list_singleton in Hs as ->. simpl in Hy.
      left. by apply elem_of_singleton in Hy.
    + intros [->|(s & Hs & _)]; [|by apply elem_of_nil in Hs].
      exists (k, {[x]}). split; [by apply elem_of_list_singleton|]. simpl. set_solver.
  - case_bool_decide; [|case_bool_decide].
    + split.
      * intros (s' & Hs & Hy). apply elem_of_cons in Hs as [->|Hs].
        -- simpl in Hy. left. by apply elem_of_singleton in Hy.
        -- right. by exists s'.
      * intros [->|(s' & Hs & Hy)].
        -- exists (k, {[x]}). split; [left|]. simpl. set_solver.
        -- exists s'. split; [by right|done].
    + split.
      * intros (s' & Hs & Hy). apply elem_of_cons in Hs as [->|Hs].
        -- right. exists (k', s). split; [left|done].
        -- destruct (proj1 IH) as [->|(s'' & K1 & K2)]; [eauto|by left|].
           right. exists s''. split; [by right|done].
      * intros [->|(s' & Hs & Hy)].
        -- destruct (proj2 IH (or_introl eq_refl)) as (s' & K1 & K2). exists s'. split; [by right|done].
        -- apply elem_of_cons in Hs as [->|Hs]; [exists (k', s); split; [left|done]|].
           destruct (proj2 IH) as (s'' & K1 & K2); [by eauto|]. exists s''. split; [by right|done].
    + split.
      * intros (s' & Hs & Hy). apply elem_of_cons in Hs as [->|Hs].
        -- simpl in Hy. apply elem_of_union in Hy as [Hy|Hy]; [left; by apply elem_of_singleton in Hy|].
           right. exists (k', s). split; [left|done].
        -- right. exists s'. split; [by right|done].
      * intros [->|(s' & Hs & Hy)].
        -- exists (k', {[x]} ∪ s). split; [left|]. simpl. set_solver.
        -- apply elem_of_cons in Hs as [->|Hs].
           ++ exists (k', {[x]} ∪ s). split; [left|]. simpl in *. set_solver.
           ++ exists s'. split; [by right|done].
Qed.

Lemma feed_split (dn : gmap nat Z) (l : list nat) m0 lost0 :
  let r := foldl (λ '(m, lost) n,
      match dn !! n with
      | Some o => (byord_insert o n m, lost)
      | None => (m, {[n]} ∪ lost)
      end) (m0, lost0) l in
  ∀ y, ((∃ s : Z * gset nat, s ∈ r.1 ∧ y ∈ s.2) ∨ y ∈ (r.2 : gset nat)) ↔
    y ∈ l ∨ (∃ s : Z * gset nat, s ∈ m0 ∧ y ∈ s.2) ∨ y ∈ lost0.
Proof.
  revert m0 lost0. induction l as [|x l IH]; intros m0 lost0; simpl; intros y.
  { rewrite elem_of_nil. tauto. }
  destruct (dn !! x) as [o|].
  - rewrite IH, byord_insert_elem, elem_of_cons. tauto.
  - rewrite IH, elem_of_cons, elem_of_union, elem_of_singleton. tauto.
Qed.

Notation pinv aggl p := (pool_inv (g_bnd g) aggl p).

Lemma feed_pool_ok p cc dn aggl :
  pinv aggl p → sp_top p ≠ None → length aggl = g_n g → (∀ x, x ∈ cc → x < g_n g) →
  wp (feed_pool g prio p cc dn aggl) (λ p',
    pinv aggl p' ∧ sp_top p' ≠ None ∧ sp_bp p' = sp_bp p ∧ sp_one p' = sp_one p ∧
    (∀ l c, inq p l c → inq p' l c) ∧
    (∀ x y, x ∈ cc → y ∈ adj g x → y ∉ cc → freec aggl y → ∃ l, inq p' l y)).
Proof.
  intros HI Ht Hag Hcc. unfold feed_pool.
  wstep. eapply wp_mono; [by apply neighbourhood_of_cc_ok|]. intros ns Hns.
  pose proof (feed_split dn (hset s_keys ns) [] ∅) as Hsp. cbn zeta in Hsp.
  destruct (foldl _ _ _) as [m lost]. simpl in Hsp.
  assert (∀ y, ((∃ s : Z * gset nat, s ∈ m ∧ y ∈ s.2) ∨ y ∈ lost) ↔ y ∈ ns) as Hm.
  { intros y. rewrite Hsp, elem_of_hset. setoid_rewrite elem_of_nil. set_solver. }
  clear Hsp.
  assert (∀ y, y ∈ ns → y < length (g_bnd g)) as Hlt.
  { intros y Hy. apply Hns in Hy as (_ & Hf & _). apply lookup_lt_Some in Hf.
    by rewrite (wd_bnd _ _ WD), <- Hag. }
  assert (length prio = length (g_bnd g)) as Hlen.
  { by rewrite (wd_bnd _ _ WD), (wd_prio _ _ WD). }
  wstep. eapply wp_mono.
  { apply (wp_foldM _ (λ (pre : list (Z * gset nat)) p',
      pinv aggl p' ∧ sp_top p' ≠ None ∧ sp_bp p' = sp_bp p ∧ sp_one p' = sp_one p ∧
      (∀ l c, inq p l c → inq p' l c) ∧
      (∀ s y, s ∈ pre → y ∈ s.2 → ∃ l, inq p' l y))).
    { split_and!; try done. intros s y Hs. by apply elem_of_nil in Hs. }
    intros pre [k s] post p' Heq (H1 & H2 & H3 & H4 & H5 & H6).
    case_bool_decide as Hs.
    - simpl. split_and!; try done. intros s' y Hs' Hy. apply elem_of_app in Hs' as [Hs'|Hs']; [eauto|].
      apply elem_of_list_singleton in Hs' as ->. simpl in Hy. set_solver.
    - eapply wp_mono.
      { apply order_new_seeds_inv; [done|apply WD|apply WD|done|done|].
        intros c Hc. apply Hlt, Hm. left. exists (k, s). split; [|done]. rewrite Heq. set_solver. }
      intros p'' (G1 & G2 & G3 & G4 & G5 & G6). split_and!; [done|done|congruence|congruence|eauto|].
      intros s' y Hs' Hy. apply elem_of_app in Hs' as [Hs'|Hs'].
      + destruct (H6 _ _ Hs' Hy) as [l Hl]. eauto.
      + apply elem_of_list_singleton in Hs' as ->. by apply G5. }
  intros p' (H1 & H2 & H3 & H4 & H5 & H6).
  case_bool_decide as Hlost.
  - simpl. split_and!; try done. intros x y Hx Hy Hyc Hf.
    assert (y ∈ ns) as Hyn by (apply Hns; eauto). apply Hm in Hyn as [(s & Hs & Hy')|Hy']; [eauto|set_solver].
  - eapply wp_mono.
    { apply order_new_seeds_inv; [done|apply WD|apply WD|done|done|].
      intros c Hc. apply Hlt, Hm. by right. }
    intros p'' (G1 & G2 & G3 & G4 & G5 & G6). split_and!; [done|done|congruence|congruence|eauto|].
    intros x y Hx Hy Hyc Hf.
    assert (y ∈ ns) as Hyn by (apply Hns; eauto). apply Hm in Hyn as [(s & Hs & Hy')|Hy']; [|by apply G5].
    destruct (H6 _ _ Hs Hy') as [l Hl]. eauto.
Qed.

End feed.

Section iso.
Context {A : Arith} {H : HashOrder}.
Context (g : graph) (prio : list W) (WF : wfg g) (WD : wfd g prio).
Context (ip : iso_params).
Context (Hmin : (1 < ip_min ip)%Z) (Hgoal : (ip_min ip <= ip_goal ip)%Z)
  (Hmax : (ip_goal ip <= ip_max ip)%Z) (Hdim2 : (2 <= ip_dim ip)%Z).
Implicit Types (p : pool) (aggl : list bool) (ct : container).
Notation n := (g_n g).
Notation pinv aggl p := (pool_inv (g_bnd g) aggl p).

(** What is known about the coarse cell grown from [seed]. *)
Record chosen aggl (seed : nat) (cc : gset nat) (cpt : Z) : Prop := {
  ch_seed : seed ∈ cc;
  ch_free : ∀ x, x ∈ cc → freec aggl x;
  ch_conn : connected (gedge g) (λ x, x ∈ cc);
  ch_max : (Z.of_nat (size cc) <= ip_max ip)%Z;
  ch_min : (Z.of_nat (size cc) < ip_min ip)%Z →
    ∀ x y, x ∈ cc → y ∈ adj g x → freec aggl y → y ∈ cc;
  ch_cpt : simple_graph g → is_compactness g cc cpt;
}.

Lemma choose_optimal_ok ct p seed :
  pinv (ct_aggl ct) p → sp_top p ≠ None → length (ct_aggl ct) = n →
  freec (ct_aggl ct) seed →
  wp (choose_optimal ip g prio ct p seed) (λ r,
    chosen (ct_aggl ct) seed r.1.1 r.1.2 ∧
    pinv (ct_aggl ct) r.2 ∧ sp_top r.2 ≠ None ∧ sp_bp r.2 = sp_bp p ∧ sp_one r.2 = sp_one p ∧
    (∀ l c, inq p l c → inq r.2 l c) ∧
    (∀ x y, x ∈ r.1.1 → y ∈ adj g x → y ∉ r.1.1 → freec (ct_aggl ct) y → ∃ l, inq r.2 l y)).
Proof.
  intros HI Ht Hag Hseed. set (aggl := ct_aggl ct) in *.
  assert (seed < n) as Hsn by (apply lookup_lt_Some in Hseed; lia).
  unfold choose_optimal. wstep. apply wp_massert; [apply bool_decide_eq_true; lia|].
  cbn zeta. wstep. eapply wp_mono.
  { apply (compute_neighbourhood_ok g aggl WF Hag {[seed]}); [set_solver|lia]. }
  intros [dn z] (K & _ & [Hlk Hall Hstop _]). cbn [fst snd] in *. clear z.
  set (E := gedge g) in *.
  assert (size ({[seed]} : gset nat) = 1) as Hs1 by apply size_singleton.
  assert (∀ x, x ∈ (dom dn : gset nat) → freec aggl x ∧ x ≠ seed) as HDf.
  { intros x Hx. apply elem_of_dom in Hx as [v Hx]. apply Hlk in Hx as [Hx (j & _ & _ & Hw & _)].
    split; [|set_solver]. inversion Hw; subst; [set_solver|done]. }
  assert (∀ x, x ∈ (dom dn : gset nat) → x < n) as HDn.
  { intros x Hx. destruct (HDf x Hx) as [Hf _]. apply lookup_lt_Some in Hf. lia. }
  assert (dn !! seed = None) as Hsd.
  { destruct (dn !! seed) as [v|] eqn:Hv; [|done]. apply Hlk in Hv as [Hv _]. set_solver. }
  (* a component exhausted by the search *)
  assert ((∀ j x, walk E (λ x, aggl !! x = Some false) (λ x, x ∈ ({[seed]} : gset nat)) j x →
             x ∈ ({[seed]} : gset nat) ∨ is_Some (dn !! x)) →
    ∀ x y, x ∈ ({[seed]} ∪ dom dn : gset nat) → y ∈ adj g x → freec aggl y →
      y ∈ ({[seed]} ∪ dom dn : gset nat)) as Hclosed.
  { intros Hst x y Hx Hy Hf.
    assert (∃ j, walk E (λ x, aggl !! x = Some false) (λ x, x ∈ ({[seed]} : gset nat)) j x) as [j Hj].
    { apply elem_of_union in Hx as [Hx|Hx]; [exists 0; by constructor|].
      apply elem_of_dom in Hx as [v Hx]. apply Hlk in Hx as [_ (j & _ & _ & Hw & _)]. eauto. }
    destruct (Hst (S j) y) as [?|Hd]; [|set_solver|].
    - econstructor; [done|by apply elem_of_adj|done].
    - apply elem_of_union_r. by apply elem_of_dom. }
  assert (∀ cc : gset nat, seed ∈ cc → (∃ x, x ∈ (dom dn : gset nat) ∧ x ∉ cc) →
    ∃ y, border g (dom dn) cc y) as Hreach.
  { intros cc Hsc (x & Hx & Hxc). apply elem_of_dom in Hx as [v Hx].
    apply Hlk in Hx as [_ (j & Hj & _ & Hw & _)]. clear v. revert x Hw Hxc.
    induction j as [|j IH]; intros x Hw Hxc; inversion Hw as [? Hx|j' y ? Hwy He Hf]; subst.
    { apply elem_of_singleton in Hx as ->. done. }
    destruct (decide (y ∈ cc)) as [Hy|Hy]; [|apply (IH ltac:(lia) y); done].
    exists x. split_and!; [|done|exists y; split; [done|by apply elem_of_adj]].
    apply elem_of_dom. destruct (Hall (S j) x) as [Hx|Hx]; [done..| |done].
    apply elem_of_singleton in Hx as ->. done. }
  assert (conn_from g seed ({[seed]} ∪ dom dn)) as HconnD.
  { intros x Hx.
    assert (∃ j, j ≤ K ∧ walk E (λ x, aggl !! x = Some false) (λ x, x ∈ ({[seed]} : gset nat)) j x) as (j & Hj & Hw).
    { apply elem_of_union in Hx as [Hx|Hx]; [exists 0; split; [lia|by constructor]|].
      apply elem_of_dom in Hx as [v Hx]. apply Hlk in Hx as [_ (j & Hj & _ & Hw & _)]. eauto. }
    exists j. clear Hx. revert x Hw. induction j as [|j IH]; intros x Hw;
      inversion Hw as [? Hx|j' y ? Hwy He Hf]; subst.
    { constructor. set_solver. }
    econstructor; [apply IH; [lia|done]|done|].
    destruct (Hall (S j) x) as [Hx|Hx]; [done..|set_solver|].
    apply elem_of_union_r. by apply elem_of_dom. }
  case_bool_decide as Hemp.
  { (* no free neighbour *)
    assert (dom dn = (∅ : gset nat)) as Hdd by (rewrite Hemp; apply dom_empty_L).
    assert (size dn = 0) as Hd0 by (rewrite Hemp; apply map_size_empty).
    rewrite Hdd, (right_id_L ∅ (∪)) in Hclosed. rewrite Hd0, Hs1 in Hstop. clear Hemp.
    cbn [wp fst snd]. split_and!; try done.
    - split.
      + set_solver.
      + intros x Hx. apply elem_of_singleton in Hx as ->. done.
      + apply (conn_from_connected g seed); [done|set_solver|]. intros x Hx. apply elem_of_singleton in Hx as ->.
        exists 0. by constructor.
      + rewrite Hs1. lia.
      + intros _. destruct Hstop as [Hst|[_ Hst]].
        * by apply Hclosed.
        * lia.
      + intros _. unfold is_compactness. rewrite decide_False by lia. done.
    - intros x y Hx Hy Hyc Hf. exfalso. apply Hyc. destruct Hstop as [Hst|[_ Hst]].
      + by eapply (Hclosed Hst).
      + lia. }
  case_bool_decide as Hsmall.
  { (* fewer cells than the goal are left *)
    assert (size ({[seed]} ∪ dom dn : gset nat) = 1 + size dn) as Hsz.
    { rewrite size_union, Hs1, size_dom; [done|]. intros x Hx Hx'. apply elem_of_singleton in Hx as ->.
      apply elem_of_dom in Hx' as [? ?]. congruence. }
    assert (∀ x, x ∈ ({[seed]} ∪ dom dn : gset nat) → x < n) as Hccn.
    { intros x Hx. apply elem_of_union in Hx as [Hx|Hx]; [|auto]. by apply elem_of_singleton in Hx as ->. }
    assert (∀ x y, x ∈ ({[seed]} ∪ dom dn : gset nat) → y ∈ adj g x → freec aggl y →
      y ∈ ({[seed]} ∪ dom dn : gset nat)) as Hcl.
    { destruct Hstop as [Hst|[_ Hst]]; [by apply Hclosed|]. rewrite Hs1 in Hst. lia. }
    wstep. eapply wp_mono; [by apply min_compactness_ok|]. intros cpt Hcpt. simpl.
    split_and!; try done.
    - split; try done.
      + set_solver.
      + intros x Hx. apply elem_of_union in Hx as [Hx|Hx]; [|by apply HDf].
        by apply elem_of_singleton in Hx as ->.
      + apply (conn_from_connected g seed); [done|set_solver|done].
      + rewrite Hsz. lia.
    - intros x y Hx Hy Hyc Hf. exfalso. eauto. }
  destruct (wd_dim _ _ WD) as [dimc Hdc].
  wstep. eapply wp_mono; [apply (feats_of_cell_ok g WF dimc); [apply WD..|done|apply WD|done]|]. intros ft Hft.
  set (max_ind := Z.min (ip_max ip) (Z.of_nat (size dn) + 1)).
  rewrite (nb_nbrs_ok g WF) by done. rewrite bind_ok. wstep. apply (n_bnd_ok g); [apply WD|done|]. intros nb _.
  wstep. eapply wp_mono.
  { assert (1 < ip_min ip <= max_ind)%Z as Hm1 by (unfold max_ind; lia).
    assert (max_ind <= Z.of_nat (size dn) + 1)%Z as Hm2 by (unfold max_ind; lia).
    eapply (grow_loop_ok g prio WF WD dimc Hdc seed dn Hsn Hsd HDn Hreach ip max_ind Hm1 Hm2).
    - apply (grow_init_ok g prio WF WD dimc Hdc seed dn Hsn Hsd HDn Hreach ip max_ind Hm1 Hm2); [|exact Hft].
      intros d. destruct (ip_front ip); [|done]. by intros [= <-].
    - simpl. unfold max_ind. lia. }
  intros s [HG Hs]. simpl in Hs.
  assert (gw_size s = Z.to_nat max_ind) as Hsz by (unfold max_ind in *; lia). clear Hs.
  assert (ip_min ip <= gw_arg s <= max_ind)%Z as Harg.
  { destruct (gi_arg _ _ _ _ _ _ _ HG) as [(H1 & H2 & H3)|[H1 H2]]; unfold max_ind in *; lia. }
  destruct (gi_dict _ _ _ _ _ _ _ HG (Z.to_nat (gw_arg s))) as (X & r & HX & HgX & HszX & HcX); [lia..|].
  rewrite HX. simpl.
  assert (∀ x, x ∈ X → freec aggl x) as HXf.
  { intros x Hx. destruct (gr_sub _ _ _ _ HgX x Hx) as [->|Hd]; [done|by apply HDf]. }
  wstep. eapply wp_mono.
  { apply (feed_pool_ok g prio WF WD); try done. intros x Hx. apply HXf, lookup_lt_Some in Hx. lia. }
  intros p' (G1 & G2 & G3 & G4 & G5 & G6).
  wstep. apply wp_massert; [apply bool_decide_eq_true; lia|]. simpl.
  split_and!; try done. split; try done.
  - apply HgX.
  - apply (conn_from_connected g seed); [done|apply HgX..].
  - unfold max_ind in *. lia.
  - intros Hlt. lia.
  - intros Hsimple. apply HcX; [done|lia].
Qed.

(** What is known about coarse cell [k] in the container, for the rest of the
    agglomeration; [bp] tells whether the pool has boundary priority. *)
Record iso_ok (bp : bool) ct (k : nat) (cc : ccell) : Prop := {
  io_iso : cc_iso cc = true;
  io_conn : connected (gedge g) (λ x, x ∈ cc_fcs cc);
  io_max : (Z.of_nat (size (cc_fcs cc)) <= ip_max ip)%Z;
  io_min : (Z.of_nat (size (cc_fcs cc)) < ip_min ip)%Z →
    ∀ x y, x ∈ cc_fcs cc → y ∈ adj g x → y ∉ cc_fcs cc →
      ∃ k', k' < k ∧ ct_fc2cc ct !! y = Some (Some k');
  io_cpt : simple_graph g → is_compactness g (cc_fcs cc) (cc_cpt cc);
  io_seed : bp = true → ∃ s b, s ∈ cc_fcs cc ∧ g_bnd g !! s = Some b ∧
    ∀ x bx, g_bnd g !! x = Some bx → (∀ k', k' < k → ct_fc2cc ct !! x ≠ Some (Some k')) →
      (bx <= b)%Z;
}.

(** Nothing is lost and the coarse cells of [ct] stay as they are. *)
Record ct_ext ct ct' : Prop := {
  ex_n : ct_n ct ≤ ct_n ct';
  ex_ccs : ∀ k, k < ct_n ct → ct_ccs ct' !! k = ct_ccs ct !! k;
  ex_fc : ∀ x k, ct_fc2cc ct !! x = Some (Some k) → ct_fc2cc ct' !! x = Some (Some k);
  ex_old : ∀ x k, k < ct_n ct → ct_fc2cc ct' !! x = Some (Some k) → ct_fc2cc ct !! x = Some (Some k);
  ex_th : ct_thresh ct' = ct_thresh ct;
}.
Lemma ct_ext_refl ct : ct_ext ct ct.
Proof. by split. Qed.
Lemma ct_ext_trans c1 c2 c3 : ct_ext c1 c2 → ct_ext c2 c3 → ct_ext c1 c3.
Proof.
  intros [] []. split; [lia|..].
  - intros k Hk. rewrite ex_ccs1 by lia. auto.
  - eauto.
  - intros x k Hk Hx. apply ex_old0; [done|]. apply ex_old1; [lia|done].
  - congruence.
Qed.
Lemma created_ext {m} ct s cpt an ct' :
  cont_inv m ct → (∀ x, x ∈ s → freec (ct_aggl ct) x) → created ct s cpt an ct' → ct_ext ct ct'.
Proof.
  intros HI Hs []. split.
  - lia.
  - intros k Hk. rewrite cr_ccs, lookup_insert_ne by lia. done.
  - intros x k Hx. rewrite cr_fc. destruct (decide (x ∈ s)) as [Hd|]; [|done]. exfalso.
    apply Hs in Hd. apply (free_none _ _ _ HI) in Hd. congruence.
  - intros x k Hk. rewrite cr_fc. destruct (decide (x ∈ s)) as [Hd|]; [|done]. intros [= <-]. lia.
  - done.
Qed.
Lemma iso_ok_ext bp ct ct' k cc :
  ct_ext ct ct' → k < ct_n ct → iso_ok bp ct k cc → iso_ok bp ct' k cc.
Proof.
  intros He Hk [H1 H2 H3 H4 H5 H6]. split; try done.
  - intros Hlt x y Hx Hy Hyc. destruct (H4 Hlt x y Hx Hy Hyc) as (k' & Hk' & Hf).
    exists k'. split; [done|]. by apply He.
  - intros Hb. destruct (H6 Hb) as (s & b & Hs & Hsb & Hall). exists s, b. split_and!; [done..|].
    intros x bx Hbx Hx. apply (Hall x bx Hbx). intros k' Hk' Hf. apply (Hx k' Hk'). by apply He.
Qed.

Lemma created_iso_ok ct seed s cpt bp ct' :
  cont_inv n ct → cont_inv n ct' → chosen (ct_aggl ct) seed s cpt → created ct s cpt false ct' →
  (bp = true → ∀ c b b', freec (ct_aggl ct) c → g_bnd g !! c = Some b →
     g_bnd g !! seed = Some b' → (b <= b')%Z) →
  ∃ cc, ct_ccs ct' !! ct_n ct = Some cc ∧ iso_ok bp ct' (ct_n ct) cc.
Proof.
  intros HI HI' [C1 C2 C3 C4 C5 C6] Hcr Hbp.
  pose proof (created_ext _ _ _ _ _ HI C2 Hcr) as Hext. destruct Hcr.
  eexists. rewrite cr_ccs, lookup_insert. split; [done|]. split; simpl; try done.
  - intros Hlt x y Hx Hy Hyc.
    assert (y < n) as Hyn by by eapply adj_lt.
    destruct (lookup_lt_is_Some_2 (ct_fc2cc ct) y) as [[k|] Hk]; [by rewrite (ci_flen _ _ HI)|..].
    + exists k. split; [|by apply Hext]. apply (ci_cell _ _ HI) in Hk as (cc & Hc & _).
      apply (ci_dom _ _ HI). eauto.
    + exfalso. apply Hyc. eapply C5; [done..|]. by apply (free_none _ _ _ HI).
  - intros Hb. assert (seed < length (g_bnd g)) as Hsl.
    { apply C2 in C1 as Hf. apply lookup_lt_Some in Hf.
      by rewrite (wd_bnd _ _ WD), <- (ci_alen _ _ HI). }
    apply lookup_lt_is_Some in Hsl as [b Hsb]. exists seed, b. split_and!; [done..|].
    intros x bx Hbx Hx. assert (x < n) as Hxn.
    { apply lookup_lt_Some in Hbx. by rewrite <- (wd_bnd _ _ WD). }
    apply (Hbp Hb x bx b); [|done..]. apply (free_none _ _ _ HI).
    destruct (lookup_lt_is_Some_2 (ct_fc2cc ct) x) as [[k|] Hk]; [by rewrite (ci_flen _ _ HI)|..|done].
    exfalso. apply (Hx k); [|by apply Hext].
    apply (ci_cell _ _ HI) in Hk as (cc & Hc & _). apply (ci_dom _ _ HI). eauto.
Qed.

Lemma iso_loop_ok fuel ct p :
  cont_inv n ct → pinv (ct_aggl ct) p → sp_top p ≠ None → n < fuel + ct_nagg ct →
  wp (iso_loop fuel ip g prio ct p) (λ r,
    cont_inv n r.1 ∧ ct_nagg r.1 = n ∧ ct_ext ct r.1 ∧
    ∀ k cc, ct_n ct ≤ k → ct_ccs r.1 !! k = Some cc → iso_ok (sp_bp p) r.1 k cc).
Proof.
  revert ct p. induction fuel as [|fuel IH]; intros ct p HI HP Ht Hfuel; simpl.
  { pose proof (count_true_le (ct_aggl ct)). rewrite <- (ci_nagg _ _ HI), (ci_alen _ _ HI) in *. lia. }
  case_bool_decide as Hn.
  2:{ simpl. split_and!; [done| |apply ct_ext_refl|].
      - pose proof (count_true_le (ct_aggl ct)).
        rewrite <- (ci_nagg _ _ HI), (ci_alen _ _ HI) in *. lia.
      - intros k cc Hk Hc. assert (k < ct_n ct); [|lia]. apply (ci_dom _ _ HI). eauto. }
  assert (length (ct_aggl ct) = length (g_bnd g)) as Hal.
  { by rewrite (wd_bnd _ _ WD), (ci_alen _ _ HI). }
  wstep. eapply wp_mono.
  { apply choose_new_seed_ok; try done; try apply WD.
    by rewrite (wd_bnd _ _ WD), (wd_prio _ _ WD). }
  intros [o p1] (Hb1 & Ho1 & Hres). simpl in *.
  destruct o as [seed|].
  2:{ exfalso. rewrite (ci_nagg _ _ HI) in Hn. destruct (count_true_lt (ct_aggl ct)) as [i Hi].
      { by rewrite (ci_alen _ _ HI). } by apply (Hres i). }
  destruct Hres as (HP1 & [Hfree Hspec] & Ht1).
  wstep. apply wp_massert; [by apply bool_decide_eq_true|].
  simpl. wstep. eapply wp_mono; [apply choose_optimal_ok; try done; apply HI|].
  intros [[cc cpt] p2] (Hch & HP2 & Ht2 & Hb2 & Ho2 & _). simpl in *.
  wstep. eapply wp_mono.
  { apply (create_cc_ok n ct cc cpt false); [done| |].
    - intros ->. by apply ch_seed, elem_of_empty in Hch.
    - apply Hch. }
  intros ct' [HI' Hcr].
  pose proof (created_ext _ _ _ _ _ HI (ch_free _ _ _ _ Hch) Hcr) as Hext.
  eapply wp_mono.
  { apply (IH ct' p2); [done| |done|].
    - eapply pool_inv_mono; [|done]. intros c. unfold freec. rewrite (cr_ag _ _ _ _ _ Hcr).
      by case_decide.
    - rewrite (cr_nagg _ _ _ _ _ Hcr). assert (size cc ≠ 0); [|lia].
      intros He. apply size_empty_inv in He. pose proof (ch_seed _ _ _ _ Hch). set_solver. }
  simpl. intros [ct'' p'] (HI'' & Hn'' & Hext' & Hiso). simpl in *.
  split_and!; [done..|by eapply ct_ext_trans|].
  intros k c Hk Hc. destruct (decide (k = ct_n ct)) as [->|Hne].
  - destruct (created_iso_ok ct seed cc cpt (sp_bp p) ct') as (c' & Hc' & Hok); try done.
    { intros Hbp. rewrite Hbp in Hspec. intros x b b' Hx Hxb Hsb. by eapply Hspec. }
    assert (ct_n ct < ct_n ct') as Hlt by (rewrite (cr_n _ _ _ _ _ Hcr); lia).
    rewrite (ex_ccs _ _ Hext') in Hc by done. assert (c = c') as -> by congruence.
    by eapply iso_ok_ext.
  - replace (sp_bp p) with (sp_bp p2) by congruence. apply Hiso; [|done].
    rewrite (cr_n _ _ _ _ _ Hcr). lia.
Qed.

End iso.
