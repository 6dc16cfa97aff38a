(** * CorrectP: the correction step *)

From Verif Require Export IsoP.

Lemma connected_union {A : Arith} (g : graph) (X Y : gset nat) x y :
  wfg g → connected (gedge g) (λ z, z ∈ X) → connected (gedge g) (λ z, z ∈ Y) →
  x ∈ X → y ∈ Y → gedge g x y → connected (gedge g) (λ z, z ∈ X ∪ Y).
Proof.
  intros WF HX HY Hx Hy He. apply (conn_from_connected g x); [done|set_solver|].
  intros z Hz. apply elem_of_union in Hz as [Hz|Hz].
  - destruct (HX x z Hx Hz) as [k Hk]. exists k. eapply walk_mono; [|done]. set_solver.
  - destruct (HY y z Hy Hz) as [k Hk]. exists (k + 1). eapply walk_trans.
    + econstructor; [by constructor|exact He|set_solver].
    + eapply walk_mono; [|done]. set_solver.
Qed.

Lemma connected_singleton (E : nat → nat → Prop) x : connected E (λ z, z ∈ ({[x]} : gset nat)).
Proof.
  intros a b Ha Hb. apply elem_of_singleton in Ha, Hb. subst. exists 0. by constructor.
Qed.

(** ** Choosing among candidates *)

Lemma foldl_pick {T} (f : T → T → T) (c : T) l :
  (∀ a b, f a b = a ∨ f a b = b) → foldl f c l ∈ c :: l.
Proof.
  intros Hf. revert c. induction l as [|x l IH]; intros c; simpl; [by left|].
  specialize (IH (f c x)). apply elem_of_cons in IH as [IH|IH]; [|by do 2 right].
  rewrite IH. destruct (Hf c x) as [->| ->]; [by left|by right; left].
Qed.

Lemma argmax_sub l z acc c : c ∈ (foldl argmax_step (z, acc) l).2 → c ∈ acc ∨ c ∈ l.
Proof.
  revert z acc. induction l as [|x l IH]; intros z acc; simpl; [by left|].
  unfold argmax_step at 2. simpl. case_bool_decide; [|case_bool_decide]; intros Hc; apply IH in Hc; set_solver.
Qed.
Lemma argmin_sub l z acc c : c ∈ (foldl argmin_step (z, acc) l).2 → c ∈ acc ∨ c ∈ l.
Proof.
  revert z acc. induction l as [|x l IH]; intros z acc; simpl; [by left|].
  unfold argmin_step at 2. simpl. case_bool_decide; [|case_bool_decide]; intros Hc; apply IH in Hc; set_solver.
Qed.

Lemma elem_of_sset X x : x ∈ sset X ↔ x ∈ X.
Proof. unfold sset. by rewrite merge_sort_Permutation, elem_of_elements. Qed.
Lemma sset_nil X : sset X = [] ↔ X = ∅.
Proof.
  split.
  - intros Hs. apply leibniz_equiv. intros x. rewrite <- elem_of_sset, Hs. set_solver.
  - intros ->. unfold sset. by rewrite elements_empty.
Qed.
Lemma sset_sorted X : StronglySorted (<) (sset X).
Proof.
  assert (StronglySorted (≤) (sset X)) as Hs.
  { apply Sorted_StronglySorted; [apply _|]. apply Sorted_merge_sort, _. }
  assert (NoDup (sset X)) as Hnd.
  { unfold sset. rewrite merge_sort_Permutation. apply NoDup_elements. }
  induction Hs as [|x l Hs IH Hall]; [constructor|]. apply NoDup_cons in Hnd as [Hx Hnd].
  constructor; [auto|]. rewrite Forall_forall in Hall |- *. intros y Hy.
  specialize (Hall y Hy). assert (x ≠ y) by (intros ->; done). lia.
Qed.

Lemma set_ids_ok v id l : (∀ x, x ∈ l → x < length v) →
  wp (set_ids v id l) (λ f, length f = length v ∧
    ∀ x, f !! x = if decide (x ∈ l) then Some (Some id) else v !! x).
Proof.
  intros Hl. unfold set_ids.
  set (I := λ (pre : list nat) (f : list (option nat)), length f = length v ∧
    ∀ x, f !! x = if decide (x ∈ pre) then Some (Some id) else v !! x).
  apply (wp_foldM _ I); unfold I; clear I.
  { split; [done|]. intros x. by rewrite decide_False by apply not_elem_of_nil. }
  intros pre i post f Heq [H1 H2].
  assert (i < length v) as Hi by (apply Hl; rewrite Heq; set_solver).
  apply wp_vset; [lia|]. rewrite insert_length. split; [done|].
  intros x. destruct (decide (x = i)) as [->|Hne].
  - rewrite list_lookup_insert by lia. rewrite decide_True; [done|set_solver].
  - rewrite list_lookup_insert_ne by done. rewrite H2.
    assert (x ∈ pre ↔ x ∈ pre ++ [i]) as Hiff by set_solver.
    by destruct (decide (x ∈ pre)), (decide (x ∈ pre ++ [i])); tauto || done.
Qed.

Section select.
Context {A : Arith} {H : HashOrder}.
Context (g : graph) (WF : wfg g).
Implicit Types (ct : container).
Notation n := (g_n g).

Lemma get_shared_faces_ok fc cc : (∀ x, x ∈ cc_fcs cc → x < n) →
  wp (get_shared_faces g fc cc) (λ _, True).
Proof.
  intros Hcc. unfold get_shared_faces. apply wp_foldM_inv; [done|].
  intros j k Hj _. apply elem_of_hset in Hj. rewrite nbrs_ok by auto. done.
Qed.

Record cand_ok ct (fcs neighs : gset nat) (c : cand) : Prop := {
  cd_in : cd_id c ∈ neighs;
  cd_cell : ∃ cc, ct_ccs ct !! cd_id c = Some cc ∧ cc_iso cc = true ∧
    cd_card c = cc_card cc ∧
    is_compactness g (fcs ∪ cc_fcs cc) (cd_cpt c) ∧
    cd_inc c = bool_decide (cc_cpt cc < cd_cpt c)%Z;
}.

Lemma cands_ok ct fcs sf neighs :
  (∀ k, k ∈ neighs → ∃ cc, ct_ccs ct !! k = Some cc ∧ ∀ x, x ∈ cc_fcs cc → x < n) →
  (∀ x, x ∈ fcs → x < n) →
  (∀ cc, (∀ x, x ∈ cc_fcs cc → x < n) → wp (sf cc) (λ _, True)) →
  wp (cands g ct fcs sf neighs) (λ l,
    (∀ c, c ∈ l → cand_ok ct fcs neighs c) ∧
    ∀ k cc, k ∈ neighs → ct_ccs ct !! k = Some cc → cc_iso cc = true → ∃ c, c ∈ l ∧ cd_id c = k).
Proof.
  intros Hn Hf Hsf. unfold cands. eapply wp_mono.
  { apply (wp_foldM _ (λ (pre : list nat) (l : list cand),
      (∀ c, c ∈ l → cand_ok ct fcs neighs c) ∧
      ∀ k cc, k ∈ pre → ct_ccs ct !! k = Some cc → cc_iso cc = true → ∃ c, c ∈ l ∧ cd_id c = k)).
    { split; [|intros k cc Hk]; [intros c Hc|]; by apply elem_of_nil in Hc || apply elem_of_nil in Hk. }
    intros pre k post acc Heq [H1 H2].
    assert (k ∈ neighs) as Hk by (rewrite <- elem_of_sset, Heq; set_solver).
    destruct (Hn k Hk) as (cc & Hc & Hlt). rewrite (mapat_ok _ _ _ Hc), bind_ok.
    destruct (cc_iso cc) eqn:Hiso.
    - wstep. eapply wp_mono; [by apply Hsf|]. intros s _.
      wstep. eapply wp_mono; [apply min_compactness_ok; set_solver|]. intros cpt Hcpt. simpl. split.
      + intros c Hc'. apply elem_of_app in Hc' as [Hc'|Hc']; [auto|].
        apply elem_of_list_singleton in Hc' as ->. split; simpl; [done|]. exists cc. done.
      + intros k' cc' Hk' Hc' Hi'. apply elem_of_app in Hk' as [Hk'|Hk'].
        * destruct (H2 k' cc') as (c & ? & ?); [done..|]. exists c. split; [set_solver|done].
        * apply elem_of_list_singleton in Hk' as ->. eexists. split; [by apply elem_of_app; right; left|done].
    - simpl. split; [done|]. intros k' cc' Hk' Hc' Hi'. apply elem_of_app in Hk' as [Hk'|Hk']; [eauto|].
      apply elem_of_list_singleton in Hk' as ->. congruence. }
  simpl. intros l [H1 H2]. split; [done|]. intros k cc Hk. apply H2. by rewrite elem_of_sset.
Qed.

(** What is known about the chosen coarse cell. *)
Definition pick_ok ct (fcs neighs : gset nat) (id : nat) (cpt : option Z) : Prop :=
  id ∈ neighs ∧ ∃ cc, ct_ccs ct !! id = Some cc ∧ cc_iso cc = true ∧
    ∀ c, cpt = Some c → is_compactness g (fcs ∪ cc_fcs cc) c.

Lemma cand_pick ct fcs neighs c b : cand_ok ct fcs neighs c →
  pick_ok ct fcs neighs (cd_id c) (if b : bool then Some (cd_cpt c) else None).
Proof.
  intros [H1 (cc & H2 & H3 & H4 & H5 & H6)]. split; [done|]. exists cc. split_and!; [done..|].
  intros z. destruct b; [|done]. by intros [= <-].
Qed.

Lemma select_best_whole_ok ct fcs neighs :
  (∀ k, k ∈ neighs → ∃ cc, ct_ccs ct !! k = Some cc ∧ ∀ x, x ∈ cc_fcs cc → x < n) →
  (∀ x, x ∈ fcs → x < n) →
  wp (select_best_whole g ct fcs neighs) (λ o,
    ∀ id cpt, o = Some (id, cpt) → pick_ok ct fcs neighs id cpt).
Proof.
  intros Hn Hf. unfold select_best_whole. wstep. eapply wp_mono; [by apply cands_ok|].
  intros l [Hl _]. destruct (filter _ l) as [|c l'] eqn:Hfl; simpl; [done|].
  intros id cpt [= <- <-]. set (r := foldl best_whole_step c l').
  assert (r ∈ filter (λ c, cd_inc c = true) l) as Hr.
  { rewrite Hfl. apply foldl_pick. intros a b. unfold best_whole_step. case_bool_decide; auto. }
  apply elem_of_list_filter in Hr as [_ Hr]. apply (cand_pick ct fcs neighs r true), Hl, Hr.
Qed.

Lemma select_best_ok ct fc neighs :
  (∀ k, k ∈ neighs → ∃ cc, ct_ccs ct !! k = Some cc ∧ ∀ x, x ∈ cc_fcs cc → x < n) →
  fc < n →
  wp (select_best g ct fc neighs) (λ o,
    (∀ id cpt, o = Some (id, cpt) → pick_ok ct {[fc]} neighs id cpt) ∧
    (o = None → ∀ k cc, k ∈ neighs → ct_ccs ct !! k = Some cc → cc_iso cc = false)).
Proof.
  intros Hn Hf. unfold select_best. wstep. eapply wp_mono.
  { apply cands_ok; [done|set_solver|]. apply get_shared_faces_ok. }
  intros l [Hl Hall]. simpl.
  assert (∀ r, r ∈ l → ∀ id cpt, Some (cd_id r, Some (cd_cpt r)) = Some (id, cpt) →
    pick_ok ct {[fc]} neighs id cpt) as Hpick.
  { intros r Hr id cpt [= <- <-]. apply (cand_pick ct {[fc]} neighs r true), Hl, Hr. }
  destruct (filter _ l) as [|c l'] eqn:Hfl.
  2:{ split; [|done]. set (r := foldl best_compact_step c l').
      assert (r ∈ filter (λ c, cd_inc c = true) l) as Hr.
      { rewrite Hfl. apply foldl_pick. intros a b. unfold best_compact_step.
        case_bool_decide; [auto|]. destruct (_ && _); auto. }
      apply elem_of_list_filter in Hr as [_ Hr]. by apply Hpick. }
  destruct (foldl argmax_step _ l).2 as [|c l'] eqn:Hmx.
  2:{ split; [|done]. set (r := foldl best_whole_step c l').
      assert (r ∈ (foldl argmax_step (0%Z, []) l).2) as Hr.
      { rewrite Hmx. apply foldl_pick. intros a b. unfold best_whole_step. case_bool_decide; auto. }
      apply argmax_sub in Hr as [Hr|Hr]; [by apply elem_of_nil in Hr|]. by apply Hpick. }
  destruct (foldl argmin_step _ l).2 as [|c l'] eqn:Hmn.
  2:{ split; [|done]. set (r := foldl min_id_step c l').
      assert (r ∈ (foldl argmin_step (int_max, []) l).2) as Hr.
      { rewrite Hmn. apply foldl_pick. intros a b. unfold min_id_step. case_bool_decide; auto. }
      apply argmin_sub in Hr as [Hr|Hr]; [by apply elem_of_nil in Hr|]. by apply Hpick. }
  destruct l as [|c l'].
  - split; [done|]. intros _ k cc Hk Hc. destruct (cc_iso cc) eqn:Hi; [|done].
    destruct (Hall k cc Hk Hc Hi) as (c & Hc' & _). by apply elem_of_nil in Hc'.
  - split; [|done]. intros id cpt [= <- <-]. apply (cand_pick ct {[fc]} neighs c false), Hl. by left.
Qed.

Lemma insert_cells_ok ccs id fcs cpt cc :
  ccs !! id = Some cc → (∀ x, x ∈ fcs → x < n) → (∀ x, x ∈ cc_fcs cc → x < n) →
  (∀ c, cpt = Some c → is_compactness g (fcs ∪ cc_fcs cc) c) →
  wp (insert_cells g ccs id fcs cpt) (λ ccs', ∃ c, is_compactness g (fcs ∪ cc_fcs cc) c ∧
    ccs' = <[id := CCell (fcs ∪ cc_fcs cc) (cc_card cc + Z.of_nat (size fcs)) c (cc_iso cc)]> ccs).
Proof.
  intros Hc Hf Hcc Hcpt. unfold insert_cells. rewrite Hc. cbn zeta. wstep.
  apply (wp_mono _ (is_compactness g (fcs ∪ cc_fcs cc))).
  - destruct cpt as [c|]; [by apply Hcpt|]. apply min_compactness_ok; set_solver.
  - intros c Hcc'. simpl. by exists c.
Qed.

End select.

(** ** Moving cells from the singular coarse cells to their neighbours *)

Section correct.
Context {A : Arith} {H : HashOrder}.
Context (g : graph) (WF : wfg g).
Implicit Types (ct : container) (R : gset nat).
Notation n := (g_n g).
Context (ct0 : container) (HI0 : cont_inv n ct0).
Notation f0 := (ct_fc2cc ct0).
Notation sing := (ct_sing ct0).
(** Every cell has a coarse cell, and the neighbours of a singular coarse cell
    are in coarse cells created earlier. *)
Context (Hfull : ∀ x, x < n → ∃ k, f0 !! x = Some (Some k)).
Context (Hfront : ∀ k cc x y, k ∈ sing → ct_ccs ct0 !! k = Some cc → x ∈ cc_fcs cc →
  y ∈ adj g x → y ∉ cc_fcs cc → ∃ k', k' < k ∧ f0 !! y = Some (Some k')).

Lemma sing_nbr k k' x y :
  k ∈ sing → f0 !! x = Some (Some k) → y ∈ adj g x → f0 !! y = Some (Some k') → k' ≠ k →
  k' ∉ sing ∧ k' < k.
Proof.
  intros Hk Hx Hy Hk' Hne.
  apply (ci_cell _ _ HI0) in Hx as Hxc. destruct Hxc as (cc & Hc & Hxc).
  apply (ci_cell _ _ HI0) in Hk' as Hyc. destruct Hyc as (cc' & Hc' & Hyc').
  assert (∀ z k1 k2 c1 c2, ct_ccs ct0 !! k1 = Some c1 → ct_ccs ct0 !! k2 = Some c2 → z ∈ cc_fcs c1 → z ∈ cc_fcs c2 → k1 = k2) as Hdis.
  { intros z k1 k2 c1 c2 H1 H2 H3 H4.
    assert (f0 !! z = Some (Some k1)) by (apply (ci_cell _ _ HI0); eauto).
    assert (f0 !! z = Some (Some k2)) by (apply (ci_cell _ _ HI0); eauto). congruence. }
  destruct (Hfront k cc x y Hk Hc Hxc Hy) as (k1 & Hlt & Hk1).
  { intros Hyc. apply Hne. by apply (Hdis y k' k cc' cc). }
  assert (k1 = k') as -> by congruence. split; [|done]. intros Hs.
  destruct (Hfront k' cc' y x Hs Hc' Hyc') as (k2 & Hlt2 & Hk2).
  { by apply adj_sym. }
  { intros Hxc'. apply Hne. by apply (Hdis x k' k cc' cc). }
  assert (k2 = k) by congruence. lia.
Qed.

(** What happens to a coarse cell which is not removed. *)
Record grown (cc0 cc : ccell) : Prop := {
  gn_iso : cc_iso cc = cc_iso cc0;
  gn_sub : cc_fcs cc0 ⊆ cc_fcs cc;
  gn_aniso : cc_iso cc0 = false → cc = cc0;
  gn_card : cc_card cc = Z.of_nat (size (cc_fcs cc));
  gn_conn : connected (gedge g) (λ x, x ∈ cc_fcs cc0) → connected (gedge g) (λ x, x ∈ cc_fcs cc);
  gn_cpt : cc = cc0 ∨ is_compactness g (cc_fcs cc) (cc_cpt cc);
}.

Record corr R ct : Prop := {
  cv_len : length (ct_fc2cc ct) = n;
  cv_dom : ∀ k, k ∉ R → is_Some (ct_ccs ct !! k) ↔ k < ct_n ct0;
  cv_sing : ∀ k, k ∈ sing → k ∉ R → ct_ccs ct !! k = ct_ccs ct0 !! k;
  cv_keep : ∀ k cc0, k ∉ sing → ct_ccs ct0 !! k = Some cc0 →
    ∃ cc, ct_ccs ct !! k = Some cc ∧ grown cc0 cc;
  cv_mem : ∀ k cc, k ∉ R → ct_ccs ct !! k = Some cc →
    ∀ x, x ∈ cc_fcs cc ↔ ct_fc2cc ct !! x = Some (Some k);
  cv_same : ∀ x k, k ∉ R → f0 !! x = Some (Some k) → ct_fc2cc ct !! x = Some (Some k);
  cv_mv : ∀ x k, k ∈ R → f0 !! x = Some (Some k) →
    ct_fc2cc ct !! x = Some (Some k) ∨ ∃ k', k' ∉ sing ∧ k' < ct_n ct0 ∧ ct_fc2cc ct !! x = Some (Some k');
  cv_R : ∀ k, k ∈ R → k ∈ sing;
  cv_n : ct_n ct = ct_n ct0;
  cv_ag : ct_aggl ct = ct_aggl ct0;
  cv_th : ct_thresh ct = ct_thresh ct0;
  cv_nagg : ct_nagg ct = ct_nagg ct0;
  cv_del : ct_delayed ct = ct_delayed ct0;
  cv_sg : ct_sing ct = sing;
}.

Lemma f0_lt x k : f0 !! x = Some (Some k) → x < n ∧ k < ct_n ct0.
Proof.
  intros Hx. split; [apply lookup_lt_Some in Hx; by rewrite (ci_flen _ _ HI0) in Hx|].
  apply (ci_cell _ _ HI0) in Hx as (cc & Hc & _). apply (ci_dom _ _ HI0). eauto.
Qed.
Lemma sing_iso k cc : k ∈ sing → ct_ccs ct0 !! k = Some cc → cc_iso cc = true.
Proof. intros Hk Hc. apply (ci_sing _ _ HI0) in Hk as (cc' & Hc' & Hi & _). congruence. Qed.

Lemma corr_init : corr ∅ ct0.
Proof.
  split; try done.
  - apply HI0.
  - intros k _. apply HI0.
  - intros k cc0 _ Hc. exists cc0. split; [done|]. split; try done; [|by left].
    apply (ci_card _ _ HI0 k cc0 Hc).
  - intros k cc _ Hc x. rewrite (ci_cell _ _ HI0). naive_solver.
Qed.

Lemma corr_lt R ct k cc x : corr R ct → k ∉ R → ct_ccs ct !! k = Some cc → x ∈ cc_fcs cc → x < n.
Proof.
  intros HC Hk Hc Hx. apply (cv_mem _ _ HC k cc Hk Hc) in Hx. apply lookup_lt_Some in Hx.
  by rewrite (cv_len _ _ HC) in Hx.
Qed.

(** Starting the removal of [old]. *)
Lemma corr_start R ct old : corr R ct → old ∈ sing → corr ({[old]} ∪ R) ct.
Proof.
  intros [] Ho. split; try done.
  - intros k Hk. apply cv_dom0. set_solver.
  - intros k Hk Hk'. apply cv_sing0; set_solver.
  - intros k cc Hk. apply cv_mem0. set_solver.
  - intros x k Hk. apply cv_same0. set_solver.
  - intros x k Hk Hx. destruct (decide (k ∈ R)) as [Hd|Hd]; [by apply cv_mv0|]. left. by apply cv_same0.
  - intros k Hk. apply elem_of_union in Hk as [Hk|Hk]; [|by apply cv_R0].
    by apply elem_of_singleton in Hk as ->.
Qed.

Lemma move_ok R ct old id (fcs : gset nat) cpt cc x y sl :
  corr R ct → old ∈ R → id ∉ sing → ct_ccs ct !! id = Some cc → cc_iso cc = true →
  (∀ z, z ∈ fcs → f0 !! z = Some (Some old) ∧ ct_fc2cc ct !! z = Some (Some old)) →
  connected (gedge g) (λ z, z ∈ fcs) → x ∈ fcs → y ∈ cc_fcs cc → y ∈ adj g x →
  (∀ c, cpt = Some c → is_compactness g (fcs ∪ cc_fcs cc) c) →
  (∀ z, z ∈ sl ↔ z ∈ fcs) →
  wp (f ← set_ids (ct_fc2cc ct) id sl; ccs ← insert_cells g (ct_ccs ct) id fcs cpt;
      Ok (set_ccs_ids ct ccs f)) (λ ct', corr R ct' ∧
    (∀ z, ct_fc2cc ct' !! z = if decide (z ∈ fcs) then Some (Some id) else ct_fc2cc ct !! z) ∧
    ∀ k, k ∈ sing → ct_ccs ct' !! k = ct_ccs ct !! k).
Proof.
  intros HC Ho Hid Hc Hiso Hfcs Hconn Hx Hy Hxy Hcpt Hsl.
  assert (old ∈ sing) as Hos by by apply (cv_R _ _ HC).
  assert (id ∉ R) as HidR by (intros Hi; by apply Hid, (cv_R _ _ HC)).
  assert (∀ z, z ∈ fcs → z < n) as Hlt by (intros z Hz; apply Hfcs in Hz as [Hz _]; by destruct (f0_lt _ _ Hz)).
  wstep. eapply wp_mono.
  { apply set_ids_ok. intros z Hz. rewrite (cv_len _ _ HC). by apply Hlt, Hsl. }
  intros f [Hfl Hf]. wstep. eapply wp_mono.
  { apply (insert_cells_ok g WF _ _ _ _ cc); [done..| |done]. intros z. by apply (corr_lt R ct id). }
  intros ccs' (c & Hcc & ->). simpl.
  assert (∀ z, f !! z = if decide (z ∈ fcs) then Some (Some id) else ct_fc2cc ct !! z) as Hf'.
  { intros z. rewrite Hf. pose proof (Hsl z). destruct (decide (z ∈ sl)), (decide (z ∈ fcs)); tauto || done. }
  split; [|split; [done|]].
  2:{ intros k Hk. rewrite lookup_insert_ne; [done|]. intros ->. done. }
  destruct HC. split; simpl; try done.
  - congruence.
  - intros k Hk. rewrite <- cv_dom0 by done. rewrite lookup_insert_is_Some'.
    split; [|auto]. intros [<-|?]; [eauto|done].
  - intros k Hk Hk'. assert (k ≠ id) by (intros ->; done). rewrite lookup_insert_ne by done. auto.
  - intros k cc0 Hk Hc0. destruct (decide (k = id)) as [->|Hne].
    + rewrite lookup_insert. eexists. split; [done|].
      destruct (cv_keep0 id cc0 Hk Hc0) as (cc' & Hc' & Hg). assert (cc' = cc) as -> by congruence.
      destruct Hg. split; simpl.
      * done.
      * set_solver.
      * intros Hi. congruence.
      * rewrite size_union; [lia|]. intros z Hz Hz'.
        apply Hfcs in Hz as [_ Hz]. apply (cv_mem0 id cc HidR Hc) in Hz'.
        assert (id = old) by congruence. by subst.
      * intros Hcn. apply (connected_union g fcs (cc_fcs cc) x y); auto. by apply elem_of_adj.
      * by right.
    + rewrite lookup_insert_ne by done. auto.
  - intros k cc' Hk. destruct (decide (k = id)) as [->|Hne].
    + rewrite lookup_insert. intros [= <-] z. simpl. rewrite elem_of_union, Hf', (cv_mem0 id cc HidR Hc).
      destruct (decide (z ∈ fcs)); naive_solver.
    + rewrite lookup_insert_ne by done. intros Hc' z. rewrite Hf', (cv_mem0 k cc' Hk Hc').
      destruct (decide (z ∈ fcs)) as [Hz|Hz]; [|done]. apply Hfcs in Hz as [_ Hz].
      rewrite Hz. split; [|naive_solver]. intros [= ->]. done.
  - intros z k Hk Hz. rewrite Hf'. destruct (decide (z ∈ fcs)) as [Hd|]; [|by apply cv_same0].
    apply Hfcs in Hd as [Hd _]. assert (k = old) by congruence. by subst.
  - intros z k Hk Hz. rewrite Hf'. destruct (decide (z ∈ fcs)) as [Hd|]; [|by apply cv_mv0].
    right. exists id. split_and!; [done| |done]. apply cv_dom0; eauto.
Qed.

Definition nb_ids (old i k : nat) : Prop :=
  k ≠ old ∧ ∃ y, y ∈ adj g i ∧ f0 !! y = Some (Some k).

Lemma get_neighs_cc_ok R ct old i :
  corr R ct → old ∈ sing → old ∉ R → f0 !! i = Some (Some old) →
  wp (get_neighs_cc g ct i old) (λ s, ∀ k, k ∈ s ↔ nb_ids old i k).
Proof.
  intros HC Ho HoR Hi. destruct (f0_lt _ _ Hi) as [Hin _].
  unfold get_neighs_cc. rewrite (nbrs_ok g WF) by done. rewrite bind_ok.
  eapply wp_mono.
  { apply (wp_foldM _ (λ (pre : list nat) (s : gset nat), ∀ k, k ∈ s ↔
      k ≠ old ∧ ∃ y, y ∈ pre ∧ f0 !! y = Some (Some k))).
    { set_solver. }
    intros pre j post s Heq Hs.
    assert (j ∈ adj g i) as Hj by (rewrite Heq; set_solver).
    assert (j < n) as Hjn by by eapply adj_lt.
    destruct (Hfull j Hjn) as [k Hk].
    assert (ct_fc2cc ct !! j = Some (Some k)) as Hk'.
    { apply (cv_same _ _ HC); [|done]. destruct (decide (k = old)) as [->|Hne]; [done|].
      intros HR. apply (cv_R _ _ HC) in HR. destruct (sing_nbr old k i j) as [? ?]; done. }
    rewrite (vget_ok _ _ _ Hk'), bind_ok. simpl. intros k'.
    assert ((∃ y, y ∈ pre ++ [j] ∧ f0 !! y = Some (Some k')) ↔
      (∃ y, y ∈ pre ∧ f0 !! y = Some (Some k')) ∨ k' = k) as ->.
    { split.
      - intros (y & Hy & Hyk). apply elem_of_app in Hy as [Hy|Hy]; [eauto|].
        apply elem_of_list_singleton in Hy as ->. right. congruence.
      - intros [(y & Hy & Hyk)| ->]; [exists y|exists j]; (split; [set_solver|done]). }
    destruct (decide (k = old)) as [->|Hko]; [rewrite bool_decide_false by tauto|rewrite bool_decide_true by done].
    2:{ rewrite elem_of_union, elem_of_singleton, Hs. split; [|tauto]. intros [->|?]; [auto|tauto]. }
    rewrite Hs. tauto. }
  done.
Qed.

(** No cell of [old] has a neighbour in another isotropic coarse cell. *)
Definition isolated (old i : nat) : Prop :=
  ∀ k cc, nb_ids old i k → ct_ccs ct0 !! k = Some cc → cc_iso cc = false.

Lemma nb_cell R ct old i k : corr R ct → old ∈ sing → f0 !! i = Some (Some old) → nb_ids old i k →
  k ∉ sing ∧ k ∉ R ∧ ∃ cc0 cc, ct_ccs ct0 !! k = Some cc0 ∧ ct_ccs ct !! k = Some cc ∧ grown cc0 cc ∧
    (∀ x, x ∈ cc_fcs cc → x < n) ∧ ∃ y, y ∈ adj g i ∧ y ∈ cc_fcs cc.
Proof.
  intros HC Ho Hi [Hne (y & Hy & Hk)].
  destruct (sing_nbr old k i y) as [Hs _]; [done..|].
  assert (k ∉ R) as HkR by (intros HR; by apply Hs, (cv_R _ _ HC)).
  split_and!; [done..|]. apply (ci_cell _ _ HI0) in Hk as Hc. destruct Hc as (cc0 & Hc0 & Hy0).
  destruct (cv_keep _ _ HC k cc0 Hs Hc0) as (cc & Hc & Hg). exists cc0, cc. split_and!; [done..| |].
  - intros x. by apply (corr_lt R ct k).
  - exists y. split; [done|]. by apply Hg.
Qed.

Lemma correct_cells_ok R ct old nb l :
  corr ({[old]} ∪ R) ct → old ∈ sing → NoDup l →
  (∀ i, i ∈ l → f0 !! i = Some (Some old) ∧ ct_fc2cc ct !! i = Some (Some old)) →
  (∀ i, i ∈ l → ∃ s, nb !! i = Some s ∧ ∀ k, k ∈ s ↔ nb_ids old i k) →
  wp (correct_cells g ct nb l) (λ r,
    corr ({[old]} ∪ R) r.2 ∧
    (r.1 = true → ∃ i k', i ∈ l ∧ k' ∉ sing ∧ ct_fc2cc r.2 !! i = Some (Some k')) ∧
    (r.1 = false → r.2 = ct ∧ ∀ i, i ∈ l → isolated old i) ∧
    (∀ i, i ∉ l → ct_fc2cc r.2 !! i = ct_fc2cc ct !! i) ∧
    (∀ k, k ∈ sing → ct_ccs r.2 !! k = ct_ccs ct !! k)).
Proof.
  intros HC Ho Hnd Hl Hnb. unfold correct_cells. apply (wp_foldM _ (λ (pre : list nat) (r : bool * container),
    corr ({[old]} ∪ R) r.2 ∧
    (r.1 = true → ∃ i k', i ∈ pre ∧ k' ∉ sing ∧ ct_fc2cc r.2 !! i = Some (Some k')) ∧
    (r.1 = false → r.2 = ct ∧ ∀ i, i ∈ pre → isolated old i) ∧
    (∀ i, i ∉ pre → ct_fc2cc r.2 !! i = ct_fc2cc ct !! i) ∧
    (∀ k, k ∈ sing → ct_ccs r.2 !! k = ct_ccs ct !! k))).
  { simpl. split_and!; try done. intros _. split; [done|]. intros i Hi. by apply elem_of_nil in Hi. }
  intros pre i post [rm ct'] Heq (H1 & H2 & H3 & H4 & H5). simpl in *.
  assert (i ∈ l) as Hil by (rewrite Heq; set_solver).
  assert (i ∉ pre) as Hpre.
  { rewrite Heq in Hnd. apply NoDup_app in Hnd as (_ & Hnd & _). intros Hp. apply (Hnd i Hp). by left. }
  destruct (Hl i Hil) as [Hi0 Hi]. destruct (Hnb i Hil) as (s & Hs & Hsk).
  destruct (f0_lt _ _ Hi0) as [Hin _].
  rewrite (mapat_ok _ _ _ Hs), bind_ok.
  assert (∀ k, k ∈ s → k ∉ sing ∧ k ∉ {[old]} ∪ R ∧ ∃ cc0 cc, ct_ccs ct0 !! k = Some cc0 ∧ ct_ccs ct' !! k = Some cc ∧ grown cc0 cc ∧
    (∀ x, x ∈ cc_fcs cc → x < n) ∧ ∃ y, y ∈ adj g i ∧ y ∈ cc_fcs cc) as Hcell.
  { intros k Hk. apply (nb_cell _ ct' old i k); [done..|]. by apply Hsk. }
  assert (isolated old i → wp (Ok (rm, ct')) (λ r : bool * container,
     corr ({[old]} ∪ R) r.2 ∧
    (r.1 = true → ∃ i0 k', i0 ∈ pre ++ [i] ∧ k' ∉ sing ∧ ct_fc2cc r.2 !! i0 = Some (Some k')) ∧
    (r.1 = false → r.2 = ct ∧ ∀ i0, i0 ∈ pre ++ [i] → isolated old i0) ∧
    (∀ i0, i0 ∉ pre ++ [i] → ct_fc2cc r.2 !! i0 = ct_fc2cc ct !! i0) ∧
    (∀ k, k ∈ sing → ct_ccs r.2 !! k = ct_ccs ct !! k))) as Hskip.
  { intros Hisl. simpl. split_and!; [done| | | |done].
    - intros Hr. destruct (H2 Hr) as (j & k' & ? & ? & ?). exists j, k'. split_and!; [set_solver|done..].
    - intros Hr. destruct (H3 Hr) as [? Hj]. split; [done|]. intros j Hj'.
      apply elem_of_app in Hj' as [Hj'|Hj']; [auto|]. by apply elem_of_list_singleton in Hj' as ->.
    - intros j Hj. apply H4. set_solver. }
  destruct (bool_decide (s = ∅)) eqn:Hse.
  { apply bool_decide_eq_true in Hse. apply Hskip. intros k cc Hk. apply Hsk in Hk. set_solver. }
  wstep. eapply wp_mono.
  { apply (select_best_ok g WF); [|done]. intros k Hk.
    destruct (Hcell k Hk) as (_ & _ & _ & cc & _ & Hc & _ & Hlt & _). eauto. }
  intros [[id cpt]|] [Hsome Hnone].
  - destruct (Hsome id cpt eq_refl) as [Hids (cc & Hc & Hiso & Hcpt)].
    destruct (Hcell id Hids) as (Hns & HnR & cc0 & cc' & Hc0 & Hc' & Hg & Hlt & y & Hy & Hyc).
    assert (cc' = cc) as -> by congruence.
    assert (wp (f ← set_ids (ct_fc2cc ct') id [i]; ccs ← insert_cells g (ct_ccs ct') id {[i]} cpt;
      Ok (set_ccs_ids ct' ccs f)) (λ ct'', corr ({[old]} ∪ R) ct'' ∧
      (∀ z, ct_fc2cc ct'' !! z = if decide (z ∈ ({[i]} : gset nat)) then Some (Some id) else ct_fc2cc ct' !! z) ∧
      ∀ k, k ∈ sing → ct_ccs ct'' !! k = ct_ccs ct' !! k)) as Hmv.
    { apply (move_ok _ ct' old id {[i]} cpt cc i y); try done.
      - set_solver.
      - intros z Hz. apply elem_of_singleton in Hz as ->. split; [done|]. by rewrite H4.
      - apply connected_singleton.
      - set_solver.
      - intros z. set_solver. }
    unfold set_ids in Hmv. simpl in Hmv.
    destruct (vset (ct_fc2cc ct') i (Some id)) as [f|]; simpl in *; [|done].
    destruct (insert_cells g (ct_ccs ct') id {[i]} cpt) as [ccs|]; simpl in *; [|done].
    destruct Hmv as (Hmv1 & Hmv2 & Hmv3). split_and!; [done| |done| |].
    + intros _. exists i, id. split_and!; [set_solver|done|]. rewrite Hmv2. by rewrite decide_True by set_solver.
    + intros j Hj. rewrite Hmv2. rewrite decide_False by set_solver. apply H4. set_solver.
    + intros k Hk. rewrite Hmv3 by done. auto.
  - apply Hskip. intros k cc Hk Hc. apply Hsk in Hk.
    destruct (Hcell k Hk) as (_ & _ & cc0 & cc' & Hc0 & Hc' & Hg & _).
    assert (cc0 = cc) as -> by congruence. rewrite <- (gn_iso _ _ Hg). by apply (Hnone eq_refl k).
Qed.

Lemma elem_of_map_union (nb : gmap nat (gset nat)) k :
  k ∈ map_fold (λ _ s acc, s ∪ acc) ∅ nb ↔ ∃ i s, nb !! i = Some s ∧ k ∈ s.
Proof.
  revert k. apply (map_fold_ind (λ (r : gset nat) (nb : gmap nat (gset nat)), ∀ k, k ∈ r ↔ ∃ i s, nb !! i = Some s ∧ k ∈ s)).
  - intros k. split; [set_solver|]. intros (i & s & Hi & _). by rewrite lookup_empty in Hi.
  - intros i s m r Hi IH k. rewrite elem_of_union, IH. split.
    + intros [Hk|(j & s' & Hj & Hk)].
      * exists i, s. by rewrite lookup_insert.
      * exists j, s'. rewrite lookup_insert_ne; [done|]. intros ->. congruence.
    + intros (j & s' & Hj & Hk). apply lookup_insert_Some in Hj as [[<- <-]|[Hne Hj]]; [by left|].
      right. eauto.
Qed.

Lemma correct_whole_ok R ct old cur nb :
  corr R ct → old ∈ sing → old ∉ R → ct_ccs ct0 !! old = Some cur →
  connected (gedge g) (λ z, z ∈ cc_fcs cur) →
  (∀ i s, nb !! i = Some s → i ∈ cc_fcs cur ∧ ∀ k, k ∈ s ↔ nb_ids old i k) →
  wp (correct_whole g ct (cc_fcs cur) nb) (λ r,
    (r.1 = false → r.2 = ct) ∧
    (r.1 = true → corr ({[old]} ∪ R) r.2 ∧
      (∀ k, k ∈ sing → ct_ccs r.2 !! k = ct_ccs ct !! k) ∧
      ∃ k', k' ∉ sing ∧ ∀ x, ct_fc2cc r.2 !! x = if decide (x ∈ cc_fcs cur) then Some (Some k') else ct_fc2cc ct !! x)).
Proof.
  intros HC Ho HoR Hcur Hconn Hnb. unfold correct_whole. cbn zeta.
  set (glob := map_fold _ ∅ nb).
  assert (∀ k, k ∈ glob ↔ ∃ i s, nb !! i = Some s ∧ k ∈ s) as Hglob by apply elem_of_map_union.
  clearbody glob. case_bool_decide; [done|].
  assert (∀ z, z ∈ cc_fcs cur → f0 !! z = Some (Some old)) as Hf0.
  { intros z Hz. apply (ci_cell _ _ HI0). eauto. }
  assert (∀ z, z ∈ cc_fcs cur → z < n) as Hcn.
  { intros z Hz. apply Hf0, f0_lt in Hz. by destruct Hz. }
  assert (∀ k, k ∈ glob → k ∉ sing ∧ ∃ cc i, ct_ccs ct !! k = Some cc ∧ i ∈ cc_fcs cur ∧
    (∀ x, x ∈ cc_fcs cc → x < n) ∧ ∃ y, y ∈ adj g i ∧ y ∈ cc_fcs cc) as Hcell.
  { intros k Hk. apply Hglob in Hk as (i & s & Hi & Hk). apply Hnb in Hi as [Hic Hi]. apply Hi in Hk.
    destruct (nb_cell R ct old i k) as (? & ? & cc0 & cc & ? & ? & ? & ? & ?); auto.
    split; [done|]. exists cc, i. done. }
  wstep. eapply wp_mono.
  { apply (select_best_whole_ok g WF); [|done]. intros k Hk. destruct (Hcell k Hk) as (_ & cc & i & ? & ? & ? & ?). eauto. }
  intros [[id cpt]|] Hpick; [|done].
  destruct (Hpick id cpt eq_refl) as [Hid (cc & Hc & Hiso & Hcpt)].
  destruct (Hcell id Hid) as (Hns & cc' & i & Hc' & Hic & Hlt & y & Hy & Hyc).
  assert (cc' = cc) as -> by congruence.
  assert (wp (f ← set_ids (ct_fc2cc ct) id (hset s_corr_fcs (cc_fcs cur)); ccs ← insert_cells g (ct_ccs ct) id (cc_fcs cur) cpt;
      Ok (set_ccs_ids ct ccs f)) (λ ct', corr ({[old]} ∪ R) ct' ∧
    (∀ z, ct_fc2cc ct' !! z = if decide (z ∈ cc_fcs cur) then Some (Some id) else ct_fc2cc ct !! z) ∧
    ∀ k, k ∈ sing → ct_ccs ct' !! k = ct_ccs ct !! k)) as Hmv.
  { apply (move_ok _ ct old id (cc_fcs cur) cpt cc i y); try done.
    - by apply corr_start.
    - set_solver.
    - intros z Hz. split; [auto|]. apply (cv_same _ _ HC); auto.
    - intros z. apply elem_of_hset. }
  destruct (set_ids _ _ _) as [f|]; simpl in *; [|done].
  destruct (insert_cells _ _ _ _ _) as [ccs|]; simpl in *; [|done].
  destruct Hmv as (Hmv1 & Hmv2 & Hmv3). split; [done|]. intros _. split_and!; [done..|]. by exists id.
Qed.

(** The state of the loop over the singular coarse cells after [pre]. *)
Record corr_loop (pre : list nat) R ct : Prop := {
  cl_corr : corr R ct;
  cl_R : ∀ k, k ∈ R → k ∈ pre ∧ ct_ccs ct !! k = None;
  cl_orphan : ∀ k x cc, k ∈ R → ct_ccs ct0 !! k = Some cc → x ∈ cc_fcs cc →
    ct_fc2cc ct !! x = Some (Some k) → 1 < size (cc_fcs cc);
  cl_kept : ∀ k cc i, k ∈ pre → k ∉ R → ct_ccs ct0 !! k = Some cc → i ∈ cc_fcs cc → isolated k i;
}.

Lemma correct_step_ok pre R ct old post :
  sing = pre ++ old :: post →
  (∀ k cc, k ∈ sing → ct_ccs ct0 !! k = Some cc → connected (gedge g) (λ z, z ∈ cc_fcs cc)) →
  corr_loop pre R ct →
  wp (correct_step g ct R old) (λ r, corr_loop (pre ++ [old]) r.1 r.2).
Proof.
  intros Heq Hsc [HC HR Horph Hkept].
  assert (old ∈ sing) as Ho by (rewrite Heq; set_solver).
  assert (old ∉ pre) as Hop.
  { pose proof (ci_sing_nd _ _ HI0) as Hs. rewrite Heq in Hs. clear -Hs. intros Hp.
    induction pre as [|a pre IH]; [by apply elem_of_nil in Hp|].
    simpl in Hs. apply StronglySorted_inv in Hs as [Hs Hall].
    apply elem_of_cons in Hp as [<-|Hp]; [|auto].
    rewrite Forall_forall in Hall. specialize (Hall old). assert (old < old); [|lia].
    apply Hall. set_solver. }
  assert (old ∉ R) as HoR by (intros HoR; by apply HR in HoR as [? _]).
  pose proof (cv_sing _ _ HC old Ho HoR) as Hcc.
  apply (ci_sing _ _ HI0) in Ho as Hcur. destruct Hcur as (cur & Hcur & Hiso & Hth).
  destruct (ci_card _ _ HI0 _ _ Hcur) as [Hcard Hne].
  assert (∀ z, z ∈ cc_fcs cur ↔ f0 !! z = Some (Some old)) as Hf0.
  { intros z. rewrite (ci_cell _ _ HI0). naive_solver. }
  assert (∀ z, z ∈ cc_fcs cur → ct_fc2cc ct !! z = Some (Some old)) as Hf1.
  { intros z Hz. apply (cv_same _ _ HC); [done|]. by apply Hf0. }
  unfold correct_step. rewrite (mapat_ok _ _ cur) by congruence. rewrite bind_ok.
  rewrite (cv_th _ _ HC), bool_decide_true by done. cbn zeta.
  wstep. eapply wp_mono.
  { apply (wp_foldM _ (λ (pre : list nat) (m : gmap nat (gset nat)),
      (∀ i, i ∈ pre → is_Some (m !! i)) ∧
      ∀ i s, m !! i = Some s → i ∈ pre ∧ ∀ k, k ∈ s ↔ nb_ids old i k)).
    { split; [intros i Hi; by apply elem_of_nil in Hi|]. intros i s Hi. by rewrite lookup_empty in Hi. }
    intros pre' i post' m Heq' [H1 H2].
    assert (i ∈ cc_fcs cur) as Hi by (rewrite <- (elem_of_hset s_corr_fcs), Heq'; set_solver).
    wstep. eapply wp_mono; [apply (get_neighs_cc_ok R ct old i); [done..|by apply Hf0]|].
    intros s Hs. simpl. split.
    - intros j Hj. apply lookup_insert_is_Some'. apply elem_of_app in Hj as [Hj|Hj]; [auto|].
      apply elem_of_list_singleton in Hj as ->. by left.
    - intros j s' Hj. apply lookup_insert_Some in Hj as [[<- <-]|[Hne' Hj]].
      + split; [set_solver|done].
      + apply H2 in Hj as [? ?]. split; [set_solver|done]. }
  intros nb [Hnb1 Hnb2].
  assert (∀ i, i ∈ cc_fcs cur → ∃ s, nb !! i = Some s ∧ ∀ k, k ∈ s ↔ nb_ids old i k) as Hnb.
  { intros i Hi. destruct (Hnb1 i) as [s Hs]; [by apply elem_of_hset|]. exists s. split; [done|].
    by apply Hnb2. }
  assert (∀ i s, nb !! i = Some s → i ∈ cc_fcs cur ∧ ∀ k, k ∈ s ↔ nb_ids old i k) as Hnb'.
  { intros i s Hs. apply Hnb2 in Hs as [Hi ?]. by rewrite elem_of_hset in Hi. }
  clear Hnb1 Hnb2.
  (* the end of the removal *)
  assert (∀ ct', corr ({[old]} ∪ R) ct' →
    (∀ x, x ∉ cc_fcs cur → ct_fc2cc ct' !! x = ct_fc2cc ct !! x) →
    (∀ k, k ∈ R → ct_ccs ct' !! k = ct_ccs ct !! k) →
    (size (cc_fcs cur) = 1 → ∀ x, x ∈ cc_fcs cur → ct_fc2cc ct' !! x ≠ Some (Some old)) →
    corr_loop (pre ++ [old]) ({[old]} ∪ R) (set_ccs_ids ct' (delete old (ct_ccs ct')) (ct_fc2cc ct'))) as Hend.
  { intros ct' HC' Hout Hrem Hone. split; simpl.
    - destruct HC'. split; simpl; try done.
      + intros k Hk. rewrite lookup_delete_ne by set_solver. by apply cv_dom0.
      + intros k Hk Hk'. rewrite lookup_delete_ne by set_solver. by apply cv_sing0.
      + intros k cc0 Hk. rewrite lookup_delete_ne by (intros ->; done). by apply cv_keep0.
      + intros k cc Hk. rewrite lookup_delete_ne by set_solver. by apply cv_mem0.
    - intros k Hk. apply elem_of_union in Hk as [Hk|Hk].
      + apply elem_of_singleton in Hk as ->. split; [set_solver|]. by rewrite lookup_delete.
      + destruct (HR k Hk) as [Hk1 Hk2]. split; [set_solver|].
        destruct (decide (k = old)) as [->|]; [by rewrite lookup_delete|].
        rewrite lookup_delete_ne by done. by rewrite Hrem.
    - intros k x cc Hk Hc Hx Hf. apply elem_of_union in Hk as [Hk|Hk].
      + apply elem_of_singleton in Hk as ->. assert (cc = cur) as -> by congruence.
        destruct (decide (size (cc_fcs cur) = 1)) as [He|]; [by destruct (Hone He x Hx)|].
        assert (size (cc_fcs cur) ≠ 0) by (intros He; by apply Hne, leibniz_equiv, size_empty_inv). lia.
      + assert (k ≠ old) by (intros ->; done).
        apply (Horph k x cc Hk Hc Hx). rewrite <- Hout; [done|]. intros Hx'.
        assert (f0 !! x = Some (Some k)) as Hxk by (apply (ci_cell _ _ HI0); eauto).
        apply Hf0 in Hx'. congruence.
    - intros k cc i Hk HkR Hc Hi. apply elem_of_app in Hk as [Hk|Hk].
      + eapply Hkept; [done| |done..]. set_solver.
      + apply elem_of_list_singleton in Hk as ->. set_solver. }
  (* nothing done *)
  assert ((∀ i, i ∈ cc_fcs cur → isolated old i) → corr_loop (pre ++ [old]) R ct) as Hnothing.
  { intros Hisl. split; [done| |done|].
    - intros k Hk. apply HR in Hk as [??]. split; [set_solver|done].
    - intros k cc i Hk HkR Hc Hi. apply elem_of_app in Hk as [Hk|Hk]; [by eapply Hkept|].
      apply elem_of_list_singleton in Hk as ->. assert (cc = cur) as -> by congruence. auto. }
  assert (∀ i, i ∈ hkeys s_corr_by_fc nb ↔ i ∈ cc_fcs cur) as Hkeys.
  { intros i. rewrite elem_of_hkeys. split.
    - intros [s Hs]. by apply Hnb' in Hs as [??].
    - intros Hi. destruct (Hnb i Hi) as (s & ? & _). eauto. }
  wstep. apply (wp_mono _ (λ r : bool * container, (r.1 = false → r.2 = ct) ∧
    (r.1 = true → corr ({[old]} ∪ R) r.2 ∧
      (∀ k, k ∈ sing → ct_ccs r.2 !! k = ct_ccs ct !! k) ∧
      ∃ k', k' ∉ sing ∧ ∀ x, ct_fc2cc r.2 !! x = if decide (x ∈ cc_fcs cur) then Some (Some k') else ct_fc2cc ct !! x))).
  { case_bool_decide; [|done]. apply correct_whole_ok; try done. by apply (Hsc old). }
  intros [w ct1] [Hw1 Hw2]. simpl in *. destruct w.
  - destruct (Hw2 eq_refl) as (HC1 & Hs1 & k' & Hk' & Hf'). simpl. apply Hend; try done.
    + intros x Hx. rewrite Hf'. by rewrite decide_False.
    + intros k Hk. by apply Hs1, (cv_R _ _ HC).
    + intros _ x Hx. rewrite Hf', decide_True by done. intros [= ->]. done.
  - assert (ct1 = ct) as -> by auto. wstep. eapply wp_mono.
    { apply (correct_cells_ok R ct old); [by apply corr_start|done|apply NoDup_hkeys|..].
      - intros i Hi. apply Hkeys in Hi. split; [by apply Hf0|auto].
      - intros i Hi. by apply Hnb, Hkeys. }
    intros [rm ct2] (HC2 & Hrm1 & Hrm2 & Hout & Hs2). simpl in *. destruct rm; simpl.
    + apply Hend; try done.
      * intros x Hx. apply Hout. by rewrite Hkeys.
      * intros k Hk. by apply Hs2, (cv_R _ _ HC).
      * intros He x Hx. destruct (Hrm1 eq_refl) as (i & k' & Hi & Hk' & Hik). apply Hkeys in Hi.
        assert (i = x) as <-.
        { apply size_1_elem_of in He as [z Hz]. apply leibniz_equiv in Hz. rewrite Hz in *. set_solver. }
        rewrite Hik. intros [= ->]. done.
    + destruct (Hrm2 eq_refl) as [-> Hisl]. apply Hnothing. intros i Hi. by apply Hisl, Hkeys.
Qed.

Lemma correct_loop_ok :
  (∀ k cc, k ∈ sing → ct_ccs ct0 !! k = Some cc → connected (gedge g) (λ z, z ∈ cc_fcs cc)) →
  wp (foldM (λ '(rem, ct) old, correct_step g ct rem old) sing (∅, ct0)) (λ r, corr_loop sing r.1 r.2).
Proof.
  intros Hsc. apply (wp_foldM _ (λ (pre : list nat) (r : gset nat * container), corr_loop pre r.1 r.2)).
  - split; simpl; [apply corr_init|set_solver|set_solver|]. intros k cc i Hk. by apply elem_of_nil in Hk.
  - intros pre old post [R ct] Heq HL. by eapply correct_step_ok.
Qed.


(** ** Renumbering *)

Lemma renumber_ok keys new ccs f m :
  length f = m → StronglySorted (<) keys →
  (∀ k, k ∈ keys ↔ is_Some (ccs !! k) ∧ new ≤ k) →
  (∀ k cc x, k ∈ keys → ccs !! k = Some cc → x ∈ cc_fcs cc → x < m) →
  (∀ k k' cc cc' x, k ∈ keys → k' ∈ keys → ccs !! k = Some cc → ccs !! k' = Some cc' →
    x ∈ cc_fcs cc → x ∈ cc_fcs cc' → k = k') →
  wp (renumber keys new ccs f) (λ r,
    (∀ k, k < new → r.1 !! k = ccs !! k) ∧
    (∀ j, r.1 !! (new + j) = keys !! j ≫= λ k, ccs !! k) ∧
    length r.2 = m ∧
    (∀ x j k cc, keys !! j = Some k → ccs !! k = Some cc → x ∈ cc_fcs cc → r.2 !! x = Some (Some (new + j))) ∧
    (∀ x, (∀ k cc, k ∈ keys → ccs !! k = Some cc → x ∉ cc_fcs cc) → r.2 !! x = f !! x)).
Proof.
  intros Hm Hs. revert new ccs f Hm. induction Hs as [|k keys Hs IH Hall]; intros new ccs f Hm Hk Hlt Hdis.
  { simpl. split_and!; try done. intros j. destruct (ccs !! (new + j)) as [cc|] eqn:Hc; [|done].
    assert (new + j ∈ []) as Hin; [|by apply elem_of_nil in Hin]. apply Hk. split; [eauto|lia]. }
  simpl. destruct (proj1 (Hk k)) as [[cc Hc] Hnk]; [by left|].
  rewrite (mapat_ok _ _ _ Hc), bind_ok. wstep. eapply wp_mono.
  { apply set_ids_ok. intros x Hx. apply elem_of_hset in Hx. rewrite Hm.
    by apply (Hlt k cc x); [left|..]. }
  intros f' [Hfl Hf].
  assert (∀ x, f' !! x = if decide (x ∈ cc_fcs cc) then Some (Some new) else f !! x) as Hf'.
  { intros x. rewrite Hf. pose proof (elem_of_hset s_corr_fcs (cc_fcs cc) x).
    destruct (decide (x ∈ hset s_corr_fcs (cc_fcs cc))), (decide (x ∈ cc_fcs cc)); tauto || done. }
  clear Hf. rewrite Forall_forall in Hall.
  assert (delete k ccs !! new = None) as Hnone.
  { destruct (decide (k = new)) as [->|Hne]; [by rewrite lookup_delete|]. rewrite lookup_delete_ne by done.
    destruct (ccs !! new) as [c|] eqn:Hcn; [|done]. assert (new ∈ k :: keys) as Hin by (apply Hk; split; [eauto|lia]).
    apply elem_of_cons in Hin as [Hin|Hin]; [congruence|]. apply Hall in Hin. lia. }
  rewrite Hnone.
  assert (∀ k', k' ∈ keys → <[new:=cc]> (delete k ccs) !! k' = ccs !! k') as Hsame.
  { intros k' Hk'. apply Hall in Hk'. rewrite lookup_insert_ne, lookup_delete_ne by lia. done. }
  eapply wp_mono.
  { apply (IH (S new) (<[new:=cc]> (delete k ccs)) f').
    - congruence.
    - intros k'. split.
      + intros Hk'. rewrite Hsame by done. apply Hall in Hk' as Hlt'. destruct (proj1 (Hk k')) as [? _]; [by right|].
        split; [done|lia].
      + intros [Hsm Hle]. rewrite lookup_insert_ne in Hsm by lia.
        destruct (decide (k = k')) as [<-|Hne]; [by rewrite lookup_delete in Hsm; apply is_Some_None in Hsm|].
        rewrite lookup_delete_ne in Hsm by done.
        assert (k' ∈ k :: keys) as Hin by (apply Hk; split; [done|lia]).
        apply elem_of_cons in Hin as [->|Hin]; done.
    - intros k' cc' x Hk' Hc' Hx. rewrite Hsame in Hc' by done. by apply (Hlt k' cc' x); [right|..].
    - intros k1 k2 c1 c2 x Hk1 Hk2 Hc1 Hc2. rewrite Hsame in Hc1, Hc2 by done.
      apply Hdis; [by right|by right|done..]. }
  intros [ccs' f''] (H1 & H2 & H3 & H4 & H5). simpl in *. split_and!.
  - intros k' Hk'. rewrite H1 by lia. rewrite lookup_insert_ne, lookup_delete_ne by lia. done.
  - intros [|j].
    + rewrite Nat.add_0_r, H1 by lia. by rewrite lookup_insert.
    + replace (new + S j) with (S (new + j)) by lia. rewrite H2. simpl.
      destruct (keys !! j) as [k'|] eqn:Hj; [|done]. simpl. apply Hsame. by eapply elem_of_list_lookup_2.
  - done.
  - intros x [|j] k' cc' Hj Hc' Hx; simpl in Hj.
    + simplify_eq. rewrite Nat.add_0_r, H5, Hf'; [by rewrite decide_True|].
      intros k2 c2 Hk2 Hc2 Hx2. rewrite Hsame in Hc2 by done.
      assert (k' = k2) as <- by (eapply (Hdis k' k2); [left|by right|done..]). apply Hall in Hk2. lia.
    + replace (new + S j) with (S (new + j)) by lia. apply (H4 x j k' cc'); [done| |done].
      rewrite Hsame; [done|]. by eapply elem_of_list_lookup_2.
  - intros x Hx. rewrite H5, Hf'.
    + rewrite decide_False; [done|]. apply (Hx k); [left|done].
    + intros k' c' Hk' Hc'. rewrite Hsame in Hc' by done. apply (Hx k'); [by right|done].
Qed.

Lemma sorted_rank keys j k :
  StronglySorted (<) keys → keys !! j = Some k → length (filter (λ k', k' < k) keys) = j.
Proof.
  intros Hs. revert j. induction Hs as [|a keys Hs IH Hall]; intros [|j]; simpl; [done..| |].
  - intros [= ->]. rewrite filter_cons_False by lia. rewrite Forall_forall in Hall.
    destruct (filter _ keys) as [|b l] eqn:Hf; [done|]. assert (b ∈ filter (λ k', k' < k) keys) as Hb by (rewrite Hf; left).
    apply elem_of_list_filter in Hb as [? Hb]. apply Hall in Hb. lia.
  - intros Hk. rewrite Forall_forall in Hall. assert (a < k) by (apply Hall; by eapply elem_of_list_lookup_2).
    rewrite filter_cons_True by done. simpl. f_equal. by apply IH.
Qed.
Lemma StronglySorted_filter (P : nat → Prop) `{∀ x, Decision (P x)} l :
  StronglySorted (<) l → StronglySorted (<) (filter P l).
Proof.
  induction 1 as [|a l Hs IH Hall]; [constructor|]. rewrite filter_cons. case_decide; [|done].
  constructor; [done|]. rewrite Forall_forall in Hall |- *. intros x Hx.
  apply elem_of_list_filter in Hx as [_ Hx]. auto.
Qed.

(** The effect of the renumbering of [ct1]; [rho] gives the new identifiers. *)
Record renumbered R ct1 ct' (rho : nat → nat) (nc : nat) : Prop := {
  rn_ccs : ∀ k, k < ct_n ct0 → k ∉ R → ct_ccs ct' !! rho k = ct_ccs ct1 !! k;
  rn_mono : ∀ k k', k < k' → k < ct_n ct0 → k' < ct_n ct0 → k ∉ R → k' ∉ R → rho k < rho k';
  rn_low : ∀ k, (∀ r, r ∈ R → k < r) → rho k = k;
  rn_dom : ∀ j, is_Some (ct_ccs ct' !! j) ↔ j < nc;
  rn_surj : ∀ j, j < nc → ∃ k, k < ct_n ct0 ∧ k ∉ R ∧ rho k = j;
  rn_lt : ∀ k, k < ct_n ct0 → k ∉ R → rho k < nc;
  rn_fc : ∀ x k, k < ct_n ct0 → k ∉ R → ct_fc2cc ct1 !! x = Some (Some k) →
    ct_fc2cc ct' !! x = Some (Some (rho k));
  rn_orphan : ∀ x k, k ∈ R → ct_fc2cc ct1 !! x = Some (Some k) → ct_fc2cc ct' !! x = Some (Some k);
  rn_len : length (ct_fc2cc ct') = n;
  rn_n : ct_n ct' = ct_n ct1;
  rn_ag : ct_aggl ct' = ct_aggl ct1;
  rn_th : ct_thresh ct' = ct_thresh ct1;
  rn_nagg : ct_nagg ct' = ct_nagg ct1;
  rn_del : ct_delayed ct' = ct_delayed ct1;
  rn_sing : ct_sing ct' = ct_sing ct1;
}.

Lemma correct_renumber_ok R ct1 :
  corr R ct1 → (∀ k, k ∈ R → ct_ccs ct1 !! k = None) →
  wp (correct_renumber ct1 R) (λ ct', ∃ rho nc, renumbered R ct1 ct' rho nc).
Proof.
  intros HC HR. unfold correct_renumber.
  assert (∀ r, r ∈ R → r < ct_n ct0) as HRn.
  { intros r Hr. apply (cv_R _ _ HC) in Hr. apply (ci_sing _ _ HI0) in Hr as (cc & Hc & _).
    apply (ci_dom _ _ HI0). eauto. }
  destruct (sset R) as [|first rest] eqn:HsR.
  { apply sset_nil in HsR as ->. simpl. exists (λ k, k), (ct_n ct0). split; try done; try set_solver.
    - intros j. apply (cv_dom _ _ HC). set_solver.
    - apply HC. }
  assert (first ∈ R) as Hfirst by (rewrite <- elem_of_sset, HsR; left).
  assert (∀ r, r ∈ R → first ≤ r) as Hmin.
  { intros r Hr. rewrite <- elem_of_sset, HsR in Hr. pose proof (sset_sorted R) as Hs. rewrite HsR in Hs.
    apply StronglySorted_inv in Hs as [_ Hall]. rewrite Forall_forall in Hall.
    apply elem_of_cons in Hr as [->|Hr]; [lia|]. apply Hall in Hr. lia. }
  wstep. apply (wp_mono _ (λ st, st = first)).
  { case_bool_decide; [|simpl; lia]. destruct (proj2 (cv_dom _ _ HC (first - 1) ltac:(intros Hr; apply Hmin in Hr; lia))) as [c ->]; [|done].
    pose proof (HRn _ Hfirst). lia. }
  intros ? ->. set (keys := filter (λ k, first ≤ k) (skeys (ct_ccs ct1))).
  assert (∀ k, k ∈ keys ↔ is_Some (ct_ccs ct1 !! k) ∧ first ≤ k) as Hkeys.
  { intros k. unfold keys, skeys. rewrite elem_of_list_filter, elem_of_sset, elem_of_dom. tauto. }
  assert (∀ k, k ∈ keys → k ∉ R) as HkR.
  { intros k Hk HkR. apply Hkeys in Hk as [[c Hc] _]. rewrite (HR k HkR) in Hc. done. }
  assert (∀ k, first ≤ k → k < ct_n ct0 → k ∉ R → k ∈ keys) as Hin.
  { intros k Hk Hkn HkR'. apply Hkeys. split; [|done]. by apply (cv_dom _ _ HC). }
  assert (StronglySorted (<) keys) as Hsort by apply StronglySorted_filter, sset_sorted.
  wstep. eapply wp_mono.
  { apply (renumber_ok keys first _ _ n); [apply HC|done|done|..].
    - intros k cc x Hk. apply (corr_lt R ct1); [done|auto].
    - intros k k' cc cc' x Hk Hk' Hc Hc' Hx Hx'. apply (cv_mem _ _ HC k cc) in Hx; [|auto|done].
      apply (cv_mem _ _ HC k' cc') in Hx'; [|auto|done]. congruence. }
  intros [ccs' f'] (H1 & H2 & H3 & H4 & H5). simpl in *.
  set (rho := λ k, if decide (k < first) then k else first + length (filter (λ k', k' < k) keys)).
  assert (∀ j k, keys !! j = Some k → rho k = first + j) as Hrho.
  { intros j k Hk. unfold rho. assert (first ≤ k) by by eapply Hkeys, elem_of_list_lookup_2.
    rewrite decide_False by lia. by rewrite (sorted_rank _ _ _ Hsort Hk). }
  assert (∀ k, k < first → rho k = k) as Hrho0 by (intros k Hk; unfold rho; by rewrite decide_True).
  assert (∀ k, k < ct_n ct0 → k ∉ R → k < first ∨ ∃ j, keys !! j = Some k ∧ rho k = first + j) as Hcase.
  { intros k Hk HkR'. destruct (decide (k < first)) as [|Hge]; [by left|]. right.
    assert (k ∈ keys) as Hkk by (apply Hin; [lia|done..]). apply elem_of_list_lookup in Hkk as [j Hj]. eauto. }
  exists rho, (first + length keys). split; simpl; try done.
  - intros k Hk HkR'. destruct (Hcase k Hk HkR') as [Hlt|(j & Hj & ->)]; [by rewrite Hrho0, H1|].
    by rewrite H2, Hj.
  - intros k k' Hkk Hk Hk' HkR1 HkR2.
    destruct (Hcase k Hk HkR1) as [Hlt|(j & Hj & ->)], (Hcase k' Hk' HkR2) as [Hlt'|(j' & Hj' & ->)];
      rewrite ?Hrho0 by done; [done|lia| |].
    + assert (first ≤ k) by by eapply Hkeys, elem_of_list_lookup_2. lia.
    + rewrite <- (sorted_rank _ _ _ Hsort Hj), <- (sorted_rank _ _ _ Hsort Hj').
      assert (j < j'); [|pose proof (sorted_rank _ _ _ Hsort Hj); pose proof (sorted_rank _ _ _ Hsort Hj'); lia].
      apply Nat.nle_gt. intros Hle. assert (k' ≤ k); [|lia].
      destruct (decide (j' = j)) as [->|]; [assert (k = k') by congruence; lia|].
      assert (k' < k); [|lia].
      eapply (elem_of_StronglySorted_app (<) (take j keys) (drop j keys)); [by rewrite take_drop|..].
      * apply elem_of_list_lookup. exists j'. rewrite lookup_take by lia. done.
      * apply elem_of_list_lookup. exists 0. rewrite lookup_drop, Nat.add_0_r. done.
  - intros k Hk. apply Hrho0. auto.
  - intros j. destruct (decide (j < first)) as [Hlt|Hge].
    + rewrite H1 by done. rewrite (cv_dom _ _ HC) by (intros Hr; apply Hmin in Hr; lia).
      pose proof (HRn _ Hfirst). lia.
    + replace j with (first + (j - first)) at 1 by lia. rewrite H2. split.
      * intros [c Hc]. apply bind_Some in Hc as (k & Hk & _). apply lookup_lt_Some in Hk. lia.
      * intros Hlt. destruct (lookup_lt_is_Some_2 keys (j - first)) as [k Hk]; [lia|]. rewrite Hk. simpl.
        by eapply Hkeys, elem_of_list_lookup_2.
  - intros j Hj. destruct (decide (j < first)) as [Hlt|Hge].
    + exists j. pose proof (HRn _ Hfirst). split_and!; [lia| |by apply Hrho0]. intros Hr. apply Hmin in Hr. lia.
    + destruct (lookup_lt_is_Some_2 keys (j - first)) as [k Hk]; [lia|]. exists k.
      assert (k ∈ keys) as Hkk by by eapply elem_of_list_lookup_2. split_and!; [|auto|].
      * apply (cv_dom _ _ HC); [auto|]. by apply Hkeys.
      * rewrite (Hrho _ _ Hk). lia.
  - intros k Hk HkR'. destruct (Hcase k Hk HkR') as [Hlt|(j & Hj & ->)]; [rewrite Hrho0 by done; lia|].
    apply lookup_lt_Some in Hj. lia.
  - intros x k Hk HkR' Hx. destruct (proj2 (cv_dom _ _ HC k HkR') Hk) as [cc Hc].
    apply (cv_mem _ _ HC k cc HkR' Hc) in Hx as Hxc.
    destruct (Hcase k Hk HkR') as [Hlt|(j & Hj & ->)]; [|by eapply H4].
    rewrite Hrho0 by done. rewrite H5; [done|]. intros k' c' Hk' Hc' Hx'.
    apply (cv_mem _ _ HC k' c') in Hx'; [|auto|done]. apply Hkeys in Hk' as [_ ?].
    assert (k = k') by congruence. lia.
  - intros x k Hk Hx. rewrite H5; [done|]. intros k' c' Hk' Hc' Hx'.
    apply (cv_mem _ _ HC k' c') in Hx'; [|auto|done]. assert (k = k') by congruence. subst.
    by apply (HkR k').
Qed.

Lemma correct_ok :
  (∀ k cc, k ∈ sing → ct_ccs ct0 !! k = Some cc → connected (gedge g) (λ z, z ∈ cc_fcs cc)) →
  wp (correct g ct0) (λ ct', ∃ R ct1 rho nc, corr_loop sing R ct1 ∧ renumbered R ct1 ct' rho nc).
Proof.
  intros Hsc. unfold correct. wstep. eapply wp_mono; [by apply correct_loop_ok|].
  intros [R ct1] HL. simpl in *. eapply wp_mono.
  { apply (correct_renumber_ok R ct1); [apply HL|]. intros k Hk. by apply (cl_R _ _ _ HL). }
  intros ct' (rho & nc & Hr). by exists R, ct1, rho, nc.
Qed.

End correct.
