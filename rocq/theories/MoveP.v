(** * MoveP: which coarse cell the corrected cells join (C41) *)

From Verif Require Import SpecSub SpecMove GraphP.
From Verif Require Export CorrectP GrowP.

Lemma wp_and {T} (m : res T) (P Q : T → Prop) : wp m P → wp m Q → wp m (λ r, P r ∧ Q r).
Proof. destruct m; simpl; tauto. Qed.

Lemma sorted_snoc {T} (R : T → T → Prop) l a : StronglySorted R l → (∀ x, x ∈ l → R x a) → StronglySorted R (l ++ [a]).
Proof.
  induction 1 as [|b l Hs IH Hall]; intros Hl; [repeat constructor|]. simpl. constructor.
  - apply IH. intros x Hx. apply Hl. by right.
  - rewrite Forall_app. split; [done|]. repeat constructor. apply Hl. by left.
Qed.

Lemma filter_sorted {T} (R : T → T → Prop) (P : T → Prop) `{∀ x, Decision (P x)} (l : list T) :
  StronglySorted R l → StronglySorted R (filter P l).
Proof.
  induction 1 as [|a l Hs IH Hall]; [constructor|]. rewrite filter_cons. case_decide; [|done].
  constructor; [done|]. rewrite Forall_forall in Hall |- *. intros x Hx.
  apply elem_of_list_filter in Hx as [_ Hx]. auto.
Qed.

(** ** The best of a list of candidates sorted by number *)

(** [lt] is a strict order with transitive incomparability; the first of the
    best elements is found. *)
Record swo {T} (lt : T → T → bool) : Prop := {
  sw_irr : ∀ a, lt a a = false;
  sw_tr : ∀ a b c, lt a b = true → lt b c = true → lt a c = true;
  sw_inc : ∀ a b c, lt a b = false → lt b c = false → lt a c = false;
}.
Lemma foldl_first {T} (lt : T → T → bool) (idx : T → nat) c l : swo lt →
  StronglySorted (λ a b, idx a < idx b) (c :: l) →
  let r := foldl (λ cur c, if lt c cur then c else cur) c l in
  r ∈ c :: l ∧ ∀ d, d ∈ c :: l → idx d ≠ idx r → lt r d = true ∨ lt d r = false ∧ idx r < idx d.
Proof.
  intros HL. revert c. induction l as [|a l IH] using rev_ind; intros c Hs; cbn zeta.
  { simpl. split; [left|]. intros d Hd. apply elem_of_list_singleton in Hd as ->. done. }
  assert (StronglySorted (λ a b, idx a < idx b) (c :: l) ∧ ∀ d, d ∈ c :: l → idx d < idx a) as [Hs1 Hs2].
  { change (c :: l ++ [a]) with ((c :: l) ++ [a]) in Hs. split.
    - by eapply StronglySorted_app_inv_l.
    - intros d Hd. eapply (elem_of_StronglySorted_app (λ a b, idx a < idx b)); [done|done|by left]. }
  specialize (IH c Hs1). cbn zeta in IH. rewrite foldl_app. simpl. set (r := foldl _ c l) in *.
  destruct IH as [Hr Hb]. assert (∀ d, d ∈ c :: l ++ [a] ↔ d ∈ c :: l ∨ d = a) as Hin.
  { intros d. rewrite !elem_of_cons, elem_of_app, elem_of_list_singleton. tauto. }
  destruct (lt a r) eqn:Ha.
  - split; [rewrite Hin; by right|]. intros d Hd Hne. rewrite Hin in Hd. destruct Hd as [Hd| ->]; [|done].
    destruct (decide (idx d = idx r)) as [He|He].
    { assert (d = r) as ->; [|by left]. clear -Hs1 Hd Hr He. clearbody r. revert He Hd Hr Hs1. generalize (c :: l). clear.
      intros l0 He Hd Hr Hs. revert He Hd Hr. induction Hs as [|b l0 Hs IH Hall]; [by intros _ ?%elem_of_nil|]. rewrite Forall_forall in Hall.
      rewrite !elem_of_cons. intros He [-> |Hd] [-> |Hr]; [done|apply Hall in Hr; lia|apply Hall in Hd; lia|auto]. }
    left. destruct (Hb d Hd He) as [H1|[H1 _]]; [by eapply sw_tr|].
    destruct (lt a d) eqn:Had; [done|]. pose proof (sw_inc _ HL a d r Had H1). congruence.
  - split; [rewrite Hin; by left|]. intros d Hd Hne. rewrite Hin in Hd. destruct Hd as [Hd| ->]; [by apply Hb|].
    right. split; [done|]. by apply Hs2.
Qed.

Lemma argmax_eq l : (∀ c, c ∈ l → (0 <= cd_sf c)%Z) →
  let r := foldl argmax_step (0%Z, []) l in
  r.2 = filter (λ c, cd_sf c = r.1) l ∧ (∀ c, c ∈ l → (cd_sf c <= r.1)%Z) ∧ (l ≠ [] → r.2 ≠ []).
Proof.
  cbn zeta. induction l as [|a l IH] using rev_ind; intros Hl.
  { split; [done|]. split; [by intros c ?%elem_of_nil|done]. }
  rewrite foldl_app. simpl. set (r := foldl argmax_step _ l) in *.
  destruct IH as (H1 & H2 & H3); [intros; apply Hl; set_solver|].
  assert (0 <= cd_sf a)%Z as Ha by (apply Hl; set_solver).
  unfold argmax_step. case_bool_decide as Hc; [|case_bool_decide as Hc2]; simpl.
  - split_and!; [| |done].
    + rewrite filter_app, filter_cons_True by done. assert (filter (λ c, cd_sf c = cd_sf a) l = []) as ->; [|done].
      destruct (filter (λ c, cd_sf c = cd_sf a) l) as [|b l'] eqn:Hf; [done|].
      assert (b ∈ filter (λ c, cd_sf c = cd_sf a) l) as Hb by (rewrite Hf; left).
      apply elem_of_list_filter in Hb as [Hb1 Hb2]. apply H2 in Hb2. lia.
    + intros c Hcin. apply elem_of_app in Hcin as [Hcin|Hcin]; [apply H2 in Hcin; lia|].
      apply elem_of_list_singleton in Hcin as ->. lia.
  - split_and!.
    + rewrite filter_app, filter_cons_True by done. by rewrite <- H1.
    + intros c Hcin. apply elem_of_app in Hcin as [Hcin|Hcin]; [by apply H2|].
      apply elem_of_list_singleton in Hcin as ->. lia.
    + intros _ He. by apply app_eq_nil in He as [_ ?].
  - split_and!.
    + rewrite filter_app, filter_cons_False by done. by rewrite app_nil_r.
    + intros c Hcin. apply elem_of_app in Hcin as [Hcin|Hcin]; [by apply H2|].
      apply elem_of_list_singleton in Hcin as ->. lia.
    + intros _. destruct l as [|b l']; [|by apply H3]. simpl in r. subst r. simpl in *. lia.
Qed.

Section move.
Context {A : Arith} {H : HashOrder}.
Context (g : graph) (WF : wfg g) (HS : simple_graph g).
Implicit Types (ct : container).
Notation n := (g_n g).
Notation row := (g_row g).
Notation col := (g_col g).

Lemma cpt_iff X c : is_compactness g X c ↔ compactness row col X c.
Proof using.
  clear. unfold is_compactness, compactness. cbn zeta. destruct (decide (1 < size X)); [|done].
  unfold is_min. split; intros [(x & Hx) Hm]; split.
  - exists x. rewrite lookup_cpt_map in Hx. destruct (decide (x ∈ X)); [|done]. split; [done|].
    injection Hx as <-. done.
  - intros y Hy. apply (Hm y). by rewrite lookup_cpt_map, decide_True.
  - exists x. destruct Hx as [Hx <-]. by rewrite lookup_cpt_map, decide_True.
  - intros y v Hy. rewrite lookup_cpt_map in Hy. destruct (decide (y ∈ X)); [|done].
    injection Hy as <-. by apply Hm.
Qed.
Lemma cpt_unique X a b : compactness row col X a → compactness row col X b → a = b.
Proof using.
  clear. unfold compactness. cbn zeta. destruct (decide (1 < size X)); [|congruence].
  intros [(x & Hx & <-) H1] [(y & Hy & <-) H2]. apply Z.le_antisymm; auto.
Qed.
Lemma gains_iff X Y a b : compactness row col Y a → compactness row col (X ∪ Y) b → gains row col X Y ↔ (a < b)%Z.
Proof using.
  clear. intros Ha Hb. split; [|intros; by exists a, b]. intros (a' & b' & Ha' & Hb' & Hlt).
  by rewrite (cpt_unique _ _ _ Ha Ha'), (cpt_unique _ _ _ Hb Hb').
Qed.

Lemma shared_ok fc cc : (∀ x, x ∈ cc_fcs cc → x < n) →
  get_shared_faces g fc cc = Ok (Z.of_nat (faces_with row col fc (cc_fcs cc))).
Proof.
  intros Hcc. unfold get_shared_faces, faces_with. change (nb_list row col fc) with (adj g fc).
  pose proof (NoDup_hset s_sharedf (cc_fcs cc)) as Hnd.
  assert (∀ y, y ∈ hset s_sharedf (cc_fcs cc) ↔ y ∈ cc_fcs cc) as Hm by (intros; apply elem_of_hset).
  revert Hnd Hm. generalize (hset s_sharedf (cc_fcs cc)). intros l Hnd Hm.
  transitivity (Ok (0 + Z.of_nat (length (filter (λ y, y ∈ l) (adj g fc))))%Z).
  2:{ f_equal. rewrite Z.add_0_l. do 2 f_equal. apply list_filter_iff. intros y. by rewrite Hm. }
  assert (∀ y, y ∈ l → y < n) as Hlt by (intros y Hy; by apply Hcc, Hm). clear Hm Hcc cc.
  generalize 0%Z. induction Hnd as [|y l Hy Hnd IH]; intros k.
  { simpl. f_equal. assert (filter (λ y, y ∈ []) (adj g fc) = []) as ->; [|simpl; lia].
    destruct (filter (λ y, y ∈ []) (adj g fc)) as [|b l'] eqn:Hf; [done|].
    assert (b ∈ filter (λ y, y ∈ []) (adj g fc)) as Hb by (rewrite Hf; left).
    apply elem_of_list_filter in Hb as [Hb _]. by apply elem_of_nil in Hb. }
  cbn [foldM]. rewrite (nbrs_ok g WF) by (apply Hlt; left). rewrite !bind_ok.
  rewrite IH by (intros; apply Hlt; by right). f_equal. rewrite <- Z.add_assoc. f_equal.
  rewrite (sg_mult _ HS fc y). unfold count_occ_nat. rewrite <- Nat2Z.inj_add. f_equal.
  clear -Hy. induction (adj g fc) as [|a r IHr]; [done|]. rewrite !filter_cons.
  destruct (decide (a = y)) as [->|Hne].
  - rewrite (decide_False (P := y ∈ l)) by done. rewrite (decide_True (P := y ∈ y :: l)) by left. simpl. lia.
  - destruct (decide (a ∈ l)).
    + rewrite decide_True by (by right). simpl. lia.
    + rewrite decide_False by (rewrite elem_of_cons; tauto). done.
Qed.

(** ** The candidates *)

(** The kept coarse cells of [ct] are those of the vector [f]. *)
Definition view ct (f : list nat) : Prop := ct_fc2cc ct = Some <$> f.
Lemma view_lookup ct f x k : view ct f → ct_fc2cc ct !! x = Some (Some k) ↔ f !! x = Some k.
Proof using.
  clear. intros Hv. rewrite Hv, list_lookup_fmap. destruct (f !! x); simpl; split; congruence.
Qed.
Lemma elem_of_cells_in f k x : x ∈ cells_in f k ↔ f !! x = Some k.
Proof using.
  clear. unfold cells_in. rewrite elem_of_list_to_set, elem_of_list_filter, elem_of_seq. split; [tauto|].
  intros Hx. split; [done|]. apply lookup_lt_Some in Hx. lia.
Qed.

(** What is needed of the coarse cells of [neighs] to choose among them. *)
Definition sound_cells ct f (neighs : gset nat) : Prop :=
  ∀ k, k ∈ neighs → ∃ cc, ct_ccs ct !! k = Some cc ∧ cc_fcs cc = cells_in f k ∧ (∀ x, x ∈ cc_fcs cc → x < n) ∧
    (cc_iso cc = true → cc_card cc = Z.of_nat (size (cc_fcs cc)) ∧ is_compactness g (cc_fcs cc) (cc_cpt cc)).
Definition is_iso ct (k : nat) : Prop := ∃ cc, ct_ccs ct !! k = Some cc ∧ cc_iso cc = true.

Record cand_is f (fcs : gset nat) (sf : nat → Z) (c : cand) : Prop := {
  cx_card : cd_card c = Z.of_nat (size (cells_in f (cd_id c)));
  cx_sf : cd_sf c = sf (cd_id c);
  cx_cpt : compactness row col (fcs ∪ cells_in f (cd_id c)) (cd_cpt c);
  cx_inc : cd_inc c = true ↔ gains row col fcs (cells_in f (cd_id c));
}.

Lemma cands_is ct f fcs (sf : ccell → res Z) (v : nat → Z) neighs :
  sound_cells ct f neighs → (∀ x, x ∈ fcs → x < n) →
  (∀ k cc, k ∈ neighs → ct_ccs ct !! k = Some cc → sf cc = Ok (v k)) →
  wp (cands g ct fcs sf neighs) (λ l,
    (∀ c, c ∈ l → cd_id c ∈ neighs ∧ is_iso ct (cd_id c) ∧ cand_is f fcs v c) ∧
    (∀ k, k ∈ neighs → is_iso ct k → ∃ c, c ∈ l ∧ cd_id c = k) ∧
    StronglySorted (λ a b, cd_id a < cd_id b) l).
Proof.
  intros Hn Hf Hsf. unfold cands. eapply wp_mono.
  { apply (wp_foldM _ (λ (pre : list nat) (l : list cand),
      (∀ c, c ∈ l → cd_id c ∈ pre ∧ is_iso ct (cd_id c) ∧ cand_is f fcs v c) ∧
      (∀ k, k ∈ pre → is_iso ct k → ∃ c, c ∈ l ∧ cd_id c = k) ∧
      StronglySorted (λ a b, cd_id a < cd_id b) l)).
    { split_and!; [by intros c ?%elem_of_nil|by intros k ?%elem_of_nil|constructor]. }
    intros pre k post acc Heq (H1 & H2 & H3).
    assert (k ∈ neighs) as Hk by (rewrite <- elem_of_sset, Heq; set_solver).
    assert (∀ j, j ∈ pre → j < k) as Hlt.
    { intros j Hj. pose proof (sset_sorted neighs) as Hs. rewrite Heq in Hs.
      eapply (elem_of_StronglySorted_app (<)); [exact Hs|done|by left]. }
    destruct (Hn k Hk) as (cc & Hc & Hb & Hx & Hok). rewrite (mapat_ok _ _ _ Hc), bind_ok.
    destruct (cc_iso cc) eqn:Hiso.
    - rewrite (Hsf k cc Hk Hc), bind_ok. destruct (Hok eq_refl) as [Hcard Hcpt].
      wstep. eapply wp_mono; [apply min_compactness_ok; set_solver|]. intros cpt Hcpt'. simpl.
      apply cpt_iff in Hcpt, Hcpt'. rewrite Hb in *. split_and!.
      + intros c Hc'. apply elem_of_app in Hc' as [Hc'|Hc'].
        * destruct (H1 c Hc') as (? & ? & ?). split_and!; [set_solver|done..].
        * apply elem_of_list_singleton in Hc' as ->. cbn [cd_id]. split; [set_solver|]. split; [by exists cc|].
          split; cbn [cd_card cd_sf cd_cpt cd_inc cd_id]; try done. rewrite bool_decide_eq_true. by rewrite gains_iff.
      + intros j Hj Hi. apply elem_of_app in Hj as [Hj|Hj].
        * destruct (H2 j Hj Hi) as (c & ? & ?). exists c. split; [set_solver|done].
        * apply elem_of_list_singleton in Hj as ->. eexists. split; [by apply elem_of_app; right; left|done].
      + apply sorted_snoc; [done|]. intros a Ha. simpl. apply Hlt. by apply H1.
    - simpl. split_and!; [| |done].
      + intros c Hc'. destruct (H1 c Hc') as (? & ? & ?). split_and!; [set_solver|done..].
      + intros j Hj Hi. apply elem_of_app in Hj as [Hj|Hj]; [eauto|].
        apply elem_of_list_singleton in Hj as ->. destruct Hi as (cc' & ? & ?). congruence. }
  simpl. intros l (H1 & H2 & H3). split_and!; [| |done].
  - intros c Hc. destruct (H1 c Hc) as (Hi & ? & ?). split_and!; [|done..]. by rewrite <- elem_of_sset.
  - intros k Hk. apply H2. by rewrite elem_of_sset.
Qed.


Definition card_lt (c cur : cand) : bool := bool_decide (cd_card c < cd_card cur)%Z.
Definition face_lt (c cur : cand) : bool :=
  bool_decide (cd_sf cur < cd_sf c)%Z || bool_decide (cd_sf c = cd_sf cur) && card_lt c cur.
Lemma card_swo : swo card_lt.
Proof using.
  clear. unfold card_lt. split; intros *; rewrite ?bool_decide_eq_true, ?bool_decide_eq_false; lia.
Qed.
Lemma face_true c d : face_lt c d = true ↔ (cd_sf d < cd_sf c ∨ cd_sf c = cd_sf d ∧ cd_card c < cd_card d)%Z.
Proof using. clear. unfold face_lt, card_lt. rewrite orb_true_iff, andb_true_iff, !bool_decide_eq_true. done. Qed.
Lemma face_false c d : face_lt c d = false ↔ ¬ (cd_sf d < cd_sf c ∨ cd_sf c = cd_sf d ∧ cd_card c < cd_card d)%Z.
Proof using. clear. rewrite <- face_true. by destruct (face_lt c d). Qed.
Lemma face_swo : swo face_lt.
Proof using.
  clear. split; intros *; rewrite ?face_true, ?face_false; lia.
Qed.

Lemma select_whole_joins ct f fcs neighs :
  sound_cells ct f neighs → (∀ x, x ∈ fcs → x < n) →
  wp (select_best_whole g ct fcs neighs) (λ o,
    match o with
    | Some (id, _) => joins_whole row col (λ k, k ∈ neighs ∧ is_iso ct k) f fcs id
    | None => ∀ k, k ∈ neighs → is_iso ct k → ¬ gains row col fcs (cells_in f k)
    end).
Proof.
  intros Hn Hf. unfold select_best_whole. wstep. eapply wp_mono; [by apply (cands_is ct f fcs _ (λ _, 0%Z))|].
  intros l (H1 & H2 & H3). destruct (filter _ l) as [|c l'] eqn:Hfl; simpl.
  { intros k Hk Hi Hg. destruct (H2 k Hk Hi) as (c & Hc & <-). apply (cx_inc _ _ _ _ (proj2 (proj2 (H1 c Hc)))) in Hg.
    assert (c ∈ filter (λ c, cd_inc c = true) l) as Hin by (by apply elem_of_list_filter).
    rewrite Hfl in Hin. by apply elem_of_nil in Hin. }
  pose proof (filter_sorted _ (λ c, cd_inc c = true) _ H3) as Hs. rewrite Hfl in Hs.
  pose proof (foldl_first card_lt cd_id c l' card_swo Hs) as Hr. cbn zeta in Hr.
  change (foldl (λ cur c, if card_lt c cur then c else cur) c l') with (foldl best_whole_step c l') in Hr.
  set (r := foldl best_whole_step c l') in *. rewrite <- Hfl in Hr. destruct Hr as [Hr Hb].
  apply elem_of_list_filter in Hr as [Hri Hr]. destruct (H1 r Hr) as (Hrn & Hriso & Hrx).
  split_and!; [done..|by apply (cx_inc _ _ _ _ Hrx)|].
  intros k [Hk Hi] Hg Hne. destruct (H2 k Hk Hi) as (d & Hd & <-). destruct (H1 d Hd) as (_ & _ & Hdx).
  destruct (Hb d) as [Hlt|[Hlt Hid]]; [|done|..].
  { apply elem_of_list_filter. split; [|done]. by apply (cx_inc _ _ _ _ Hdx). }
  - unfold card_lt in Hlt. rewrite bool_decide_eq_true, (cx_card _ _ _ _ Hrx), (cx_card _ _ _ _ Hdx) in Hlt. left. lia.
  - unfold card_lt in Hlt. rewrite bool_decide_eq_false, (cx_card _ _ _ _ Hrx), (cx_card _ _ _ _ Hdx) in Hlt.
    unfold smaller. lia.
Qed.

Lemma select_joins ct f fc neighs :
  sound_cells ct f neighs → fc < n →
  wp (select_best g ct fc neighs) (λ o,
    match o with
    | Some (id, _) => joins row col (λ k, k ∈ neighs ∧ is_iso ct k) f fc id
    | None => ∀ k, k ∈ neighs → ¬ is_iso ct k
    end).
Proof.
  intros Hn Hf. unfold select_best. wstep. eapply wp_mono.
  { apply (cands_is ct f {[fc]} _ (λ k, Z.of_nat (faces_with row col fc (cells_in f k)))); [done|set_solver|].
    intros k cc Hk Hc. destruct (Hn k Hk) as (cc' & Hc' & Hb & Hx & _). assert (cc' = cc) as -> by congruence.
    rewrite shared_ok by done. by rewrite Hb. }
  intros l (H1 & H2 & H3). simpl.
  (* the choice among some of the candidates *)
  assert (∀ r, r ∈ l →
    (∀ d, d ∈ l → cd_id d ≠ cd_id r → cd_inc r = true ∧ cd_inc d = false ∨ cd_inc r = cd_inc d ∧
      (cd_sf d < cd_sf r ∨ cd_sf d = cd_sf r ∧ (cd_card r < cd_card d ∨ cd_card r = cd_card d ∧ (cd_id r < cd_id d)%nat))%Z) →
    joins row col (λ k, k ∈ neighs ∧ is_iso ct k) f fc (cd_id r)) as Hpick.
  { intros r Hr Hb. destruct (H1 r Hr) as (Hrn & Hriso & Hrx). split; [done|].
    intros k [Hk Hi] Hne. destruct (H2 k Hk Hi) as (d & Hd & <-). destruct (H1 d Hd) as (_ & _ & Hdx).
    unfold rather. cbv beta zeta. rewrite <- (cx_inc _ _ _ _ Hrx), <- (cx_inc _ _ _ _ Hdx).
    destruct (Hb d Hd Hne) as [[-> ->]|[-> Hc]]; [by left|]. right. split; [done|].
    rewrite (cx_sf _ _ _ _ Hrx), (cx_sf _ _ _ _ Hdx), (cx_card _ _ _ _ Hrx), (cx_card _ _ _ _ Hdx) in Hc.
    unfold smaller. lia. }
  destruct (filter _ l) as [|c l'] eqn:Hfl.
  2:{ pose proof (filter_sorted _ (λ c, cd_inc c = true) _ H3) as Hs. rewrite Hfl in Hs.
      pose proof (foldl_first face_lt cd_id c l' face_swo Hs) as Hr. cbn zeta in Hr.
      assert (foldl (λ cur c, if face_lt c cur then c else cur) c l' = foldl best_compact_step c l') as He.
      { clear. revert c. induction l' as [|d l' IH]; intros c; [done|]. simpl. rewrite IH. f_equal.
        unfold face_lt, best_compact_step, card_lt. repeat case_bool_decide; done. }
      rewrite He in Hr. clear He. set (r := foldl best_compact_step c l') in *. rewrite <- Hfl in Hr. destruct Hr as [Hr Hb].
      apply elem_of_list_filter in Hr as [Hri Hr]. apply Hpick; [done|]. intros d Hd Hne.
      destruct (cd_inc d) eqn:Hdi; [|by left]. right. split; [done|].
      destruct (Hb d) as [Hlt|[Hlt Hid]]; [by apply elem_of_list_filter|done|..].
      - apply face_true in Hlt. lia.
      - apply face_false in Hlt. lia. }
  assert (∀ d, d ∈ l → cd_inc d = false) as Hni.
  { intros d Hd. destruct (cd_inc d) eqn:Hdi; [|done].
    assert (d ∈ filter (λ c, cd_inc c = true) l) as Hin by (by apply elem_of_list_filter).
    rewrite Hfl in Hin. by apply elem_of_nil in Hin. }
  destruct (argmax_eq l) as (Hm1 & Hm2 & Hm3).
  { intros c Hc. rewrite (cx_sf _ _ _ _ (proj2 (proj2 (H1 c Hc)))). lia. }
  set (m := foldl argmax_step (0%Z, []) l) in *.
  destruct m.2 as [|c l'] eqn:Hmx.
  2:{ pose proof (filter_sorted _ (λ c, cd_sf c = m.1) _ H3) as Hs. rewrite <- Hm1 in Hs.
      pose proof (foldl_first card_lt cd_id c l' card_swo Hs) as Hr. cbn zeta in Hr.
      change (foldl (λ cur c, if card_lt c cur then c else cur) c l') with (foldl best_whole_step c l') in Hr.
      set (r := foldl best_whole_step c l') in *. rewrite Hm1 in Hr. destruct Hr as [Hr Hb].
      apply elem_of_list_filter in Hr as [Hri Hr]. apply Hpick; [done|]. intros d Hd Hne. right.
      split; [by rewrite !Hni|]. pose proof (Hm2 d Hd).
      destruct (decide (cd_sf d = m.1)) as [He|He]; [|lia]. right. split; [lia|].
      destruct (Hb d) as [Hlt|[Hlt Hid]]; [by apply elem_of_list_filter|done|..];
        unfold card_lt in Hlt; rewrite ?bool_decide_eq_true, ?bool_decide_eq_false in Hlt; lia. }
  assert (l = []) as ->. { destruct l; [done|]. by destruct Hm3. }
  simpl. intros k Hk Hi. destruct (H2 k Hk Hi) as (c & Hc & _). by apply elem_of_nil in Hc.
Qed.
End move.

(** ** The loop over the coarse cells which are too small *)

Section steps.
Context {A : Arith} {H : HashOrder}.
Context (g : graph) (WF : wfg g) (HS : simple_graph g).
Implicit Types (ct : container) (R : gset nat).
Notation n := (g_n g).
Notation row := (g_row g).
Notation col := (g_col g).
Context (ct0 : container) (HI0 : cont_inv n ct0).
Notation f0 := (ct_fc2cc ct0).
Notation sing := (ct_sing ct0).
Context (Hfull : ∀ x, x < n → ∃ k, f0 !! x = Some (Some k)).
Context (Hfront : ∀ k cc x y, k ∈ sing → ct_ccs ct0 !! k = Some cc → x ∈ cc_fcs cc →
  y ∈ adj g x → y ∉ cc_fcs cc → ∃ k', k' < k ∧ f0 !! y = Some (Some k')).
Context (Hcpt0 : ∀ k cc, ct_ccs ct0 !! k = Some cc → cc_iso cc = true → is_compactness g (cc_fcs cc) (cc_cpt cc)).
Notation iso := (is_iso ct0).
Notation corr := (corr g ct0).
Notation corr_loop := (corr_loop g ct0).
Notation nb_ids := (nb_ids g ct0).

(** A kept coarse cell next to a cell of [old]. *)
Lemma nb_sound R ct f old (neighs : gset nat) : corr R ct → view ct f → old ∈ sing →
  (∀ k, k ∈ neighs → ∃ i, f0 !! i = Some (Some old) ∧ nb_ids old i k) →
  sound_cells g ct f neighs ∧ ∀ k, k ∈ neighs → is_iso ct k ↔ iso k.
Proof.
  intros HC Hv Ho Hn.
  assert (∀ k, k ∈ neighs → k ∉ R ∧ ∃ cc0 cc, ct_ccs ct0 !! k = Some cc0 ∧ ct_ccs ct !! k = Some cc ∧ CorrectP.grown g cc0 cc ∧
    ∀ x, x ∈ cc_fcs cc → x < n) as Hcell.
  { intros k Hk. destruct (Hn k Hk) as (i & Hi & Hnb).
    destruct (nb_cell g WF ct0 HI0 Hfront R ct old i k HC Ho Hi Hnb) as (_ & HR & cc0 & cc & ? & ? & ? & ? & _).
    split; [done|]. by exists cc0, cc. }
  split.
  - intros k Hk. destruct (Hcell k Hk) as (HR & cc0 & cc & Hc0 & Hc & Hg & Hlt). exists cc.
    split; [done|]. split.
    { apply set_eq. intros x. rewrite (cv_mem _ _ _ _ HC k cc HR Hc), elem_of_cells_in. by apply view_lookup. }
    split; [done|]. intros Hi. split; [apply Hg|].
    destruct (gn_cpt _ _ _ Hg) as [-> |?]; [|done]. by apply (Hcpt0 k).
  - intros k Hk. destruct (Hcell k Hk) as (HR & cc0 & cc & Hc0 & Hc & Hg & Hlt).
    pose proof (gn_iso _ _ _ Hg) as He. split; intros (c & ? & ?).
    + exists cc0. split; [done|]. congruence.
    + exists cc. split; [done|]. congruence.
Qed.

(** What [old] is next to when its turn comes. *)
Lemma nb_beside R ct f old i k : corr R ct → view ct f → old ∈ sing → old ∉ R → f0 !! i = Some (Some old) →
  nb_ids old i k ∧ iso k ↔ beside row col iso f old {[i]} k.
Proof.
  intros HC Hv Ho HoR Hi. unfold nb_ids, beside. split.
  - intros [(Hne & y & Hy & Hk) Hiso]. split; [done|]. split; [done|]. exists i, y.
    split; [set_solver|]. split; [by apply elem_of_adj|].
    destruct (sing_nbr g WF ct0 HI0 Hfront old k i y) as [Hs _]; [done..|].
    apply (view_lookup ct f _ _ Hv). apply (cv_same _ _ _ _ HC); [|done]. intros HR. by apply Hs, (cv_R _ _ _ _ HC).
  - intros (Hne & Hiso & x & y & Hx & He & Hy). apply elem_of_singleton in Hx as ->. split; [|done]. split; [done|].
    exists y. assert (y ∈ adj g i) as Hya by (by apply elem_of_adj). split; [done|].
    apply (view_lookup ct f _ _ Hv) in Hy.
    assert (y < n) as Hyn by (by eapply adj_lt). destruct (Hfull y Hyn) as [k' Hk'].
    destruct (decide (k' = old)) as [-> |Hko].
    { apply (cv_same _ _ _ _ HC) in Hk'; [|done]. congruence. }
    destruct (sing_nbr g WF ct0 HI0 Hfront old k' i y) as [Hs _]; [done..|].
    assert (ct_fc2cc ct !! y = Some (Some k')) as Hky.
    { apply (cv_same _ _ _ _ HC); [|done]. intros HR. by apply Hs, (cv_R _ _ _ _ HC). }
    congruence.
Qed.

Lemma joins_ext (P Q : nat → Prop) f x k : (∀ j, P j ↔ Q j) → joins row col P f x k → joins row col Q f x k.
Proof using. clear. intros He [H1 H2]. split; [by apply He|]. intros j Hj. by apply H2, He. Qed.
Lemma joins_whole_ext (P Q : nat → Prop) f X k : (∀ j, P j ↔ Q j) →
  joins_whole row col P f X k → joins_whole row col Q f X k.
Proof using. clear. intros He (H1 & H2 & H3). split; [by apply He|]. split; [done|]. intros j Hj. by apply H3, He. Qed.

Lemma obo_snoc_move f1 old l f x k f' : one_by_one row col iso f1 old l f f' →
  joins row col (beside row col iso f1 old {[x]}) f' x k → one_by_one row col iso f1 old (l ++ [x]) f (<[x := k]> f').
Proof using.
  clear. intros Hl Hj. induction Hl as [f|y j l f f' Hy Hl IH|y l f f' Hy Hl IH]; simpl.
  - eapply obo_move; [done|constructor].
  - eapply obo_move; [done|by apply IH].
  - eapply obo_stay; [done|by apply IH].
Qed.
Lemma obo_snoc_stay f1 old l f x f' : one_by_one row col iso f1 old l f f' →
  (∀ k, ¬ beside row col iso f1 old {[x]} k) → one_by_one row col iso f1 old (l ++ [x]) f f'.
Proof using.
  clear. intros Hl Hj. induction Hl as [f|y j l f f' Hy Hl IH|y l f f' Hy Hl IH]; simpl.
  - eapply obo_stay; [done|constructor].
  - eapply obo_move; [done|by apply IH].
  - eapply obo_stay; [done|by apply IH].
Qed.

Lemma view_insert ct ccs f f' x k : view ct f → vset (ct_fc2cc ct) x (Some k) = Ok f' →
  view (set_ccs_ids ct ccs f') (<[x := k]> f).
Proof using.
  clear. unfold view. intros Hv Hs. apply vset_inv in Hs as [_ ->]. cbn [ct_fc2cc set_ccs_ids]. by rewrite Hv, list_fmap_insert.
Qed.

(** Cell by cell. *)
Lemma correct_cells_moves R ct f old nb l :
  corr R ct → view ct f → old ∈ sing → old ∉ R → NoDup l →
  (∀ i, i ∈ l → f0 !! i = Some (Some old) ∧ ct_fc2cc ct !! i = Some (Some old)) →
  (∀ i, i ∈ l → ∃ s, nb !! i = Some s ∧ ∀ k, k ∈ s ↔ nb_ids old i k) →
  wp (correct_cells g ct nb l) (λ r, ∃ f', view r.2 f' ∧ one_by_one row col iso f old l f f' ∧
    (r.1 = true ↔ ∃ x, x ∈ l ∧ f' !! x ≠ Some old)).
Proof.
  intros HC Hv Ho HoR Hnd Hl Hnb. eapply wp_mono.
  { unfold correct_cells. apply (wp_foldM _ (λ (pre : list nat) (r : bool * container),
      corr ({[old]} ∪ R) r.2 ∧ (∀ i, i ∉ pre → ct_fc2cc r.2 !! i = ct_fc2cc ct !! i) ∧
      ∃ f', view r.2 f' ∧ one_by_one row col iso f old pre f f' ∧
        (r.1 = true ↔ ∃ x, x ∈ pre ∧ f' !! x ≠ Some old))).
    { simpl. split; [by apply corr_start|]. split; [done|]. exists f. split; [done|]. split; [constructor|].
      split; [done|]. intros (x & Hx & _). by apply elem_of_nil in Hx. }
    intros pre i post [rm ct'] Heq (H1 & H2 & f' & H3 & H4 & H5). cbn [fst snd] in *.
    assert (i ∈ l) as Hil by (rewrite Heq; set_solver).
    assert (i ∉ pre) as Hpre.
    { rewrite Heq in Hnd. apply NoDup_app in Hnd as (_ & Hnd & _). intros Hp. apply (Hnd i Hp). by left. }
    destruct (Hl i Hil) as [Hi0 Hi]. destruct (Hnb i Hil) as (s & Hs & Hsk).
    assert (i < n) as Hin. { apply lookup_lt_Some in Hi0. by rewrite (ci_flen _ _ HI0) in Hi0. }
    rewrite (mapat_ok _ _ _ Hs), bind_ok.
    destruct (nb_sound ({[old]} ∪ R) ct' f' old s H1 H3 Ho) as [Hsc Hiso].
    { intros k Hk. exists i. split; [done|]. by apply Hsk. }
    assert (∀ k, k ∈ s ∧ is_iso ct' k ↔ beside row col iso f old {[i]} k) as Hbe.
    { intros k. rewrite <- (nb_beside R ct f old i k) by done. rewrite <- Hsk. split; intros [Hk ?]; (split; [done|]); by apply Hiso. }
    assert (f' !! i = Some old) as Hfi. { apply (view_lookup ct' f' _ _ H3). by rewrite H2. }
    assert ((∀ k, ¬ beside row col iso f old {[i]} k) → wp (Ok (rm, ct')) (λ r : bool * container,
      corr ({[old]} ∪ R) r.2 ∧ (∀ j, j ∉ pre ++ [i] → ct_fc2cc r.2 !! j = ct_fc2cc ct !! j) ∧
      ∃ f', view r.2 f' ∧ one_by_one row col iso f old (pre ++ [i]) f f' ∧
        (r.1 = true ↔ ∃ x, x ∈ pre ++ [i] ∧ f' !! x ≠ Some old))) as Hskip.
    { intros Hno. cbn [wp fst snd]. split; [done|]. split; [intros; apply H2; set_solver|]. exists f'. split; [done|].
      split; [by apply obo_snoc_stay|]. rewrite H5. split; intros (x & Hx & Hne).
      - exists x. split; [set_solver|done].
      - exists x. split; [|done]. apply elem_of_app in Hx as [Hx|Hx]; [done|]. apply elem_of_list_singleton in Hx as ->. done. }
    destruct (bool_decide (s = ∅)) eqn:Hse.
    { apply bool_decide_eq_true in Hse. apply Hskip. intros k Hk. apply Hbe in Hk. set_solver. }
    wstep. eapply wp_mono.
    { apply wp_and; [by apply (select_joins g WF HS ct' f')|]. apply (select_best_ok g WF); [|done].
      intros k Hk. destruct (Hsc k Hk) as (cc & ? & ? & ? & ?). eauto. }
    intros [[id cpt]|] [Hj [Hsome _]].
    2:{ apply Hskip. intros k Hk. apply Hbe in Hk as [Hk ?]. by apply (Hj k). }
    apply (joins_ext _ _ _ _ _ Hbe) in Hj.
    destruct (Hsome id cpt eq_refl) as [Hids (cc & Hc & Hisoc & Hcpt)].
    destruct (nb_cell g WF ct0 HI0 Hfront ({[old]} ∪ R) ct' old i id H1 Ho Hi0) as (Hns & HnR & cc0 & cc' & Hc0 & Hc' & Hg & Hlt & y & Hy & Hyc).
    { by apply Hsk. }
    assert (cc' = cc) as -> by congruence.
    assert (wp (f ← set_ids (ct_fc2cc ct') id [i]; ccs ← insert_cells g (ct_ccs ct') id {[i]} cpt;
      Ok (set_ccs_ids ct' ccs f)) (λ ct'', corr ({[old]} ∪ R) ct'' ∧
      (∀ z, ct_fc2cc ct'' !! z = if decide (z ∈ ({[i]} : gset nat)) then Some (Some id) else ct_fc2cc ct' !! z) ∧
      ∀ k, k ∈ sing → ct_ccs ct'' !! k = ct_ccs ct' !! k)) as Hmv.
    { apply (move_ok g WF ct0 HI0 Hfull Hfront _ ct' old id {[i]} cpt cc i y); try done.
      - set_solver.
      - intros z Hz. apply elem_of_singleton in Hz as ->. split; [done|]. by rewrite H2.
      - apply connected_singleton.
      - set_solver.
      - intros z. set_solver. }
    unfold set_ids in Hmv. cbn [foldM] in Hmv.
    destruct (vset (ct_fc2cc ct') i (Some id)) as [fv|] eqn:Evs; simpl in Hmv |- *; [|done].
    destruct (insert_cells g (ct_ccs ct') id {[i]} cpt) as [ccs|]; simpl in Hmv |- *; [|done].
    destruct Hmv as (Hmv1 & Hmv2 & Hmv3). split; [done|]. split.
    { intros j Hjn. rewrite Hmv2. rewrite decide_False by set_solver. apply H2. set_solver. }
    exists (<[i := id]> f'). split; [by apply view_insert|]. split; [by apply obo_snoc_move|].
    split; [|done]. intros _. exists i. split; [set_solver|]. rewrite list_lookup_insert by (by eapply lookup_lt_Some).
    intros [= ->]. by apply Hns. }
  intros r (_ & _ & H3). exact H3.
Qed.

(** The whole coarse cell. *)
Lemma correct_whole_moves R ct f old cur nb :
  corr R ct → view ct f → old ∈ sing → old ∉ R → ct_ccs ct0 !! old = Some cur →
  connected (gedge g) (λ z, z ∈ cc_fcs cur) →
  (∀ i s, nb !! i = Some s → i ∈ cc_fcs cur ∧ ∀ k, k ∈ s ↔ nb_ids old i k) →
  (∀ i, i ∈ cc_fcs cur → is_Some (nb !! i)) →
  wp (correct_whole g ct (cc_fcs cur) nb) (λ r,
    (r.1 = false → r.2 = ct ∧ ∀ k, beside row col iso f old (cc_fcs cur) k → ¬ gains row col (cc_fcs cur) (cells_in f k)) ∧
    (r.1 = true → ∃ k, joins_whole row col (beside row col iso f old (cc_fcs cur)) f (cc_fcs cur) k ∧
      view r.2 ((λ c, if decide (c = old) then k else c) <$> f))).
Proof.
  intros HC Hv Ho HoR Hcur Hconn Hnb Hnb2. unfold correct_whole. cbn zeta.
  set (glob := map_fold _ ∅ nb).
  assert (∀ k, k ∈ glob ↔ ∃ i s, nb !! i = Some s ∧ k ∈ s) as Hglob by apply (elem_of_map_union g WF ct0 HI0 Hfull Hfront).
  clearbody glob.
  assert (∀ z, z ∈ cc_fcs cur ↔ f0 !! z = Some (Some old)) as Hf0.
  { intros z. rewrite (ci_cell _ _ HI0). naive_solver. }
  assert (∀ k, k ∈ glob ↔ ∃ i, i ∈ cc_fcs cur ∧ nb_ids old i k) as Hgl.
  { intros k. rewrite Hglob. split.
    - intros (i & s & Hs & Hk). destruct (Hnb i s Hs) as [Hi Hsk]. exists i. split; [done|]. by apply Hsk.
    - intros (i & Hi & Hk). destruct (Hnb2 i Hi) as [s Hs]. exists i, s. split; [done|]. by apply (Hnb i s Hs). }
  destruct (nb_sound R ct f old glob HC Hv Ho) as [Hsc Hiso].
  { intros k Hk. apply Hgl in Hk as (i & Hi & Hk). exists i. split; [by apply Hf0|done]. }
  assert (∀ k, k ∈ glob ∧ is_iso ct k ↔ beside row col iso f old (cc_fcs cur) k) as Hbe.
  { intros k. split.
    - intros [Hk Hi]. apply Hiso in Hi; [|done]. apply Hgl in Hk as (i & Hic & Hk).
      destruct (proj1 (nb_beside R ct f old i k HC Hv Ho HoR (proj1 (Hf0 i) Hic)) (conj Hk Hi)) as (? & ? & x & y & Hx & ?).
      apply elem_of_singleton in Hx as ->. split; [done|]. split; [done|]. by exists i, y.
    - intros (Hne & Hi & x & y & Hx & He & Hy).
      destruct (proj2 (nb_beside R ct f old x k HC Hv Ho HoR (proj1 (Hf0 x) Hx))) as [Hk _].
      { split; [done|]. split; [done|]. exists x, y. split; [set_solver|done]. }
      assert (k ∈ glob) as Hkg by (apply Hgl; eauto). split; [done|]. by apply Hiso. }
  case_bool_decide as Hge.
  { cbn [wp fst snd]. split; [|done]. intros _. split; [done|]. intros k Hk. apply Hbe in Hk. set_solver. }
  assert (∀ z, z ∈ cc_fcs cur → z < n) as Hcn.
  { intros z Hz. apply Hf0, lookup_lt_Some in Hz. by rewrite (ci_flen _ _ HI0) in Hz. }
  wstep. eapply wp_mono.
  { apply wp_and; [by apply (select_whole_joins g WF HS ct f)|]. apply (select_best_whole_ok g WF); [|done].
    intros k Hk. destruct (Hsc k Hk) as (cc & ? & ? & ? & ?). eauto. }
  intros [[id cpt]|] [Hj Hpick].
  2:{ cbn [wp fst snd]. split; [|done]. intros _. split; [done|]. intros k Hk. apply Hbe in Hk as [??]. by apply Hj. }
  apply (joins_whole_ext _ _ _ _ _ Hbe) in Hj.
  destruct (Hpick id cpt eq_refl) as [Hid (cc & Hc & Hisoc & Hcpt)].
  wstep. eapply wp_mono.
  { apply set_ids_ok. intros z Hz. rewrite (cv_len _ _ _ _ HC). by apply Hcn, (elem_of_hset s_corr_fcs). }
  intros fv [Hfl Hfv]. wstep. eapply wp_mono.
  { apply (insert_cells_ok g WF _ _ _ _ cc); [done..| |done].
    destruct (Hsc id Hid) as (cc' & Hc' & _ & Hlt & _). assert (cc' = cc) as -> by congruence. done. }
  intros ccs _. cbn [wp fst snd]. split; [done|]. intros _. exists id. split; [done|].
  unfold view. cbn [set_ccs_ids ct_fc2cc]. apply list_eq. intros x. rewrite Hfv, !list_lookup_fmap.
  rewrite (Hv : ct_fc2cc ct = _), list_lookup_fmap.
  assert (x ∈ hset s_corr_fcs (cc_fcs cur) ↔ f !! x = Some old) as Hx.
  { rewrite elem_of_hset, Hf0, <- (view_lookup ct f x old Hv). split.
    - apply (cv_same _ _ _ _ HC). done.
    - intros Hx. assert (x < n) as Hxn by (apply lookup_lt_Some in Hx; by rewrite (cv_len _ _ _ _ HC) in Hx).
      destruct (Hfull x Hxn) as [k Hk]. destruct (decide (k ∈ R)) as [HkR|HkR].
      + destruct (cv_mv _ _ _ _ HC x k HkR Hk) as [Hx'|(k' & Hk' & _ & Hx')]; [congruence|].
        assert (k' = old) as -> by congruence. done.
      + apply (cv_same _ _ _ _ HC) in Hk as Hx'; [|done]. congruence. }
  destruct (decide (x ∈ _)) as [Hd|Hd].
  - apply Hx in Hd. rewrite Hd. simpl. by rewrite decide_True.
  - destruct (f !! x) as [c|] eqn:Hfx; [|done]. simpl. rewrite decide_False; [done|]. intros ->. by apply Hd, Hx.
Qed.

(** One coarse cell. *)
Lemma correct_step_moves pre R ct f old post :
  sing = pre ++ old :: post →
  (∀ k cc, k ∈ sing → ct_ccs ct0 !! k = Some cc → connected (gedge g) (λ z, z ∈ cc_fcs cc)) →
  corr_loop pre R ct → view ct f →
  wp (correct_step g ct R old) (λ r, ∃ f', view r.2 f' ∧ absorbed row col iso f old f' ∧
    (∀ k, k ∈ r.1 ↔ k ∈ R ∨ k = old ∧ ∃ x, f !! x = Some old ∧ f' !! x ≠ Some old)).
Proof.
  intros Heq Hsc HL Hv. pose proof HL as [HC HR Horph Hkept].
  assert (old ∈ sing) as Ho by (rewrite Heq; set_solver).
  assert (old ∉ pre) as Hop.
  { pose proof (ci_sing_nd _ _ HI0) as Hs. rewrite Heq in Hs. intros Hp.
    assert (old < old); [|lia]. eapply (elem_of_StronglySorted_app (<)); [exact Hs|done|by left]. }
  assert (old ∉ R) as HoR by (intros HoR; by apply HR in HoR as [? _]).
  pose proof (cv_sing _ _ _ _ HC old Ho HoR) as Hcc.
  apply (ci_sing _ _ HI0) in Ho as Hcur. destruct Hcur as (cur & Hcur & Hiso & Hth).
  destruct (ci_card _ _ HI0 _ _ Hcur) as [Hcard Hne].
  assert (∀ z, z ∈ cc_fcs cur ↔ f0 !! z = Some (Some old)) as Hf0.
  { intros z. rewrite (ci_cell _ _ HI0). naive_solver. }
  assert (∀ z, z ∈ cc_fcs cur → ct_fc2cc ct !! z = Some (Some old)) as Hf1.
  { intros z Hz. apply (cv_same _ _ _ _ HC); [done|]. by apply Hf0. }
  assert (cc_fcs cur = cells_in f old) as Hblk.
  { apply set_eq. intros x. rewrite elem_of_cells_in, <- (view_lookup ct f x old Hv).
    rewrite <- (cv_mem _ _ _ _ HC old cur HoR) by congruence. done. }
  unfold correct_step. rewrite (mapat_ok _ _ cur) by congruence. rewrite bind_ok.
  rewrite (cv_th _ _ _ _ HC), bool_decide_true by done. cbn zeta.
  wstep. eapply wp_mono.
  { apply (wp_foldM _ (λ (pre : list nat) (m : gmap nat (gset nat)),
      (∀ i, i ∈ pre → is_Some (m !! i)) ∧
      ∀ i s, m !! i = Some s → i ∈ pre ∧ ∀ k, k ∈ s ↔ nb_ids old i k)).
    { split; [intros i Hi; by apply elem_of_nil in Hi|]. intros i s Hi. by rewrite lookup_empty in Hi. }
    intros pre' i post' m Heq' [H1 H2].
    assert (i ∈ cc_fcs cur) as Hi by (rewrite <- (elem_of_hset s_corr_fcs), Heq'; set_solver).
    wstep. eapply wp_mono; [apply (get_neighs_cc_ok g WF ct0 HI0 Hfull Hfront R ct old i); [done..|by apply Hf0]|].
    intros s Hs. simpl. split.
    - intros j Hj. apply lookup_insert_is_Some'. apply elem_of_app in Hj as [Hj|Hj]; [auto|].
      apply elem_of_list_singleton in Hj as ->. by left.
    - intros j s' Hj. apply lookup_insert_Some in Hj as [[<- <-]|[Hne' Hj]].
      + split; [set_solver|done].
      + apply H2 in Hj as [? ?]. split; [set_solver|done]. }
  intros nb [Hnb1 Hnb2].
  assert (∀ i, i ∈ cc_fcs cur → ∃ s, nb !! i = Some s ∧ ∀ k, k ∈ s ↔ nb_ids old i k) as Hnb.
  { intros i Hi. destruct (Hnb1 i) as [s Hs]; [by apply elem_of_hset|]. exists s. split; [done|].
    by apply Hnb2. }
  assert (∀ i s, nb !! i = Some s → i ∈ cc_fcs cur ∧ ∀ k, k ∈ s ↔ nb_ids old i k) as Hnb'.
  { intros i s Hs. apply Hnb2 in Hs as [Hi ?]. by rewrite elem_of_hset in Hi. }
  clear Hnb1 Hnb2.
  assert (∀ i, i ∈ hkeys s_corr_by_fc nb ↔ i ∈ cc_fcs cur) as Hkeys.
  { intros i. rewrite elem_of_hkeys. split.
    - intros [s Hs]. by apply Hnb' in Hs as [??].
    - intros Hi. destruct (Hnb i Hi) as (s & ? & _). eauto. }
  wstep. apply (wp_mono _ (λ r : bool * container,
    (r.1 = false → r.2 = ct ∧ (size (cc_fcs cur) = 1 ∨
      ∀ k, beside row col iso f old (cc_fcs cur) k → ¬ gains row col (cc_fcs cur) (cells_in f k))) ∧
    (r.1 = true → 1 < size (cc_fcs cur) ∧ ∃ k, joins_whole row col (beside row col iso f old (cc_fcs cur)) f (cc_fcs cur) k ∧
      view r.2 ((λ c, if decide (c = old) then k else c) <$> f)))).
  { case_bool_decide as Hs1.
    - eapply wp_mono; [apply (correct_whole_moves R ct f old cur nb); try done|].
      + by apply (Hsc old).
      + intros i Hi. destruct (Hnb i Hi) as (s & ? & _). eauto.
      + intros r [H1 H2]. split.
        * intros Hr. destruct (H1 Hr) as [? ?]. split; [done|]. by right.
        * intros Hr. split; [lia|]. by apply H2.
    - cbn [wp fst snd]. split; [|done]. intros _. split; [done|]. left.
      assert (size (cc_fcs cur) ≠ 0) by (intros He; by apply Hne, leibniz_equiv, size_empty_inv). lia. }
  intros [w ct1] [Hw1 Hw2]. cbn [fst snd] in *. destruct w.
  - destruct (Hw2 eq_refl) as (Hsz & k & Hj & Hv'). cbn [wp fst snd mbind]. simpl.
    eexists. split; [exact Hv'|]. split.
    + left. rewrite <- Hblk. split; [done|]. by exists k.
    + assert (k ≠ old) as Hkold by (by destruct Hj as [[? _] _]).
      destruct (set_choose_L (cc_fcs cur)) as [x Hx]; [done|].
      intros j. rewrite elem_of_union, elem_of_singleton. split; [|tauto]. intros [-> |?]; [|by left]. right. split; [done|].
      exists x. rewrite Hblk, elem_of_cells_in in Hx. split; [done|].
      rewrite list_lookup_fmap, Hx. simpl. rewrite decide_True by done. congruence.
  - destruct (Hw1 eq_refl) as [-> Hnw]. wstep. eapply wp_mono.
    { apply (correct_cells_moves R ct f old nb); try done; [apply NoDup_hkeys|..].
      - intros i Hi. apply Hkeys in Hi. split; [by apply Hf0|auto].
      - intros i Hi. by apply Hnb, Hkeys. }
    intros [rm ct2] (f' & Hv' & Hobo & Hrm). cbn [fst snd] in *.
    assert (absorbed row col iso f old f') as Habs.
    { right. rewrite <- Hblk. split; [done|]. exists (hkeys s_corr_by_fc nb). split; [apply NoDup_hkeys|]. done. }
    assert (rm = true ↔ ∃ x, f !! x = Some old ∧ f' !! x ≠ Some old) as Hrm'.
    { rewrite Hrm. split; intros (x & Hx & Hn'); exists x; (split; [|done]).
      - apply Hkeys in Hx. by rewrite Hblk, elem_of_cells_in in Hx.
      - apply Hkeys. by rewrite Hblk, elem_of_cells_in. }
    destruct rm; cbn [wp fst snd]; exists f'; (split; [done|]); (split; [done|]); intros j.
    + rewrite elem_of_union, elem_of_singleton. destruct Hrm' as [Hrm' _]. specialize (Hrm' eq_refl). tauto.
    + split; [tauto|]. intros [?|[_ Hx]]; [done|]. apply Hrm' in Hx. done.
Qed.

Lemma obo_other f1 old l f f' x : one_by_one row col iso f1 old l f f' → x ∉ l → f' !! x = f !! x.
Proof using.
  clear. induction 1 as [f|y j l f f' Hy Hobo IH|y l f f' Hy Hobo IH]; intros Hx; [done|..].
  - apply not_elem_of_cons in Hx as [Hxy Hx]. rewrite IH by done. by apply list_lookup_insert_ne.
  - apply not_elem_of_cons in Hx as [Hxy Hx]. auto.
Qed.
Lemma absorbed_other f old f' x k : absorbed row col iso f old f' → f !! x = Some k → k ≠ old → f' !! x = Some k.
Proof using.
  clear. intros [(_ & j & _ & ->)|(_ & l & _ & Hl & Hobo)] Hx Hk.
  { rewrite list_lookup_fmap, Hx. simpl. by rewrite decide_False. }
  rewrite (obo_other _ _ _ _ _ _ Hobo); [done|]. intros Hin. apply Hl, elem_of_cells_in in Hin. congruence.
Qed.
Lemma absorbed_snoc l f f1 old f2 : absorbed_all row col iso l f f1 → absorbed row col iso f1 old f2 →
  absorbed_all row col iso (l ++ [old]) f f2.
Proof using.
  clear. induction 1; intros Hs; simpl; [econstructor; [done|constructor]|]. econstructor; [done|auto].
Qed.

(** All of them. *)
Lemma correct_moves v : view ct0 v →
  (∀ k cc, k ∈ sing → ct_ccs ct0 !! k = Some cc → connected (gedge g) (λ z, z ∈ cc_fcs cc)) →
  wp (correct g ct0) (λ ct', ∃ R ct1 rho nc v1, corr_loop sing R ct1 ∧ renumbered g ct0 R ct1 ct' rho nc ∧
    view ct1 v1 ∧ absorbed_all row col iso sing v v1 ∧
    ∀ k, k ∈ R ↔ k ∈ sing ∧ ∃ x, v !! x = Some k ∧ v1 !! x ≠ Some k).
Proof.
  intros Hv Hsc. unfold correct. wstep. eapply wp_mono.
  { apply (wp_foldM _ (λ (pre : list nat) (r : gset nat * container), corr_loop pre r.1 r.2 ∧
      ∃ v1, view r.2 v1 ∧ absorbed_all row col iso pre v v1 ∧
        ∀ k, k ∈ r.1 ↔ k ∈ pre ∧ ∃ x, v !! x = Some k ∧ v1 !! x ≠ Some k)).
    { split.
      - split; simpl; [by apply corr_init|set_solver|set_solver|]. intros k cc i Hk. by apply elem_of_nil in Hk.
      - exists v. split; [done|]. split; [constructor|]. simpl. set_solver. }
    intros pre old post [R ct] Heq [HL (v1 & Hv1 & Ha & HR)]. cbn [fst snd] in *.
    assert (old ∉ pre) as Hop.
    { pose proof (ci_sing_nd _ _ HI0) as Hs. rewrite Heq in Hs. intros Hp.
      assert (old < old); [|lia]. eapply (elem_of_StronglySorted_app (<)); [exact Hs|done|by left]. }
    assert (old ∈ sing) as Ho by (rewrite Heq; set_solver).
    assert (old ∉ R) as HoR by (intros Hd; by apply HR in Hd as [? _]).
    pose proof (cl_corr _ _ _ _ _ HL) as HC.
    assert (∀ x, v !! x = Some old ↔ v1 !! x = Some old) as Hold.
    { intros x. rewrite <- (view_lookup ct0 v x old Hv), <- (view_lookup ct v1 x old Hv1). split.
      - by apply (cv_same _ _ _ _ HC).
      - intros Hx. assert (x < n) as Hxn by (apply lookup_lt_Some in Hx; by rewrite (cv_len _ _ _ _ HC) in Hx).
        destruct (Hfull x Hxn) as [k Hk]. destruct (decide (k ∈ R)) as [HkR|HkR].
        + destruct (cv_mv _ _ _ _ HC x k HkR Hk) as [Hx'|(k' & Hk' & _ & Hx')]; [congruence|].
          assert (k' = old) as -> by congruence. done.
        + apply (cv_same _ _ _ _ HC) in Hk as Hx'; [|done]. congruence. }
    eapply wp_mono.
    { apply wp_and; [by apply (correct_step_ok g WF ct0 HI0 Hfull Hfront pre R ct old post)|].
      by apply (correct_step_moves pre R ct v1 old post). }
    intros [R' ct'] [HL' (v2 & Hv2 & Hab & HR')]. cbn [fst snd] in *. split; [done|].
    exists v2. split; [done|]. split; [by eapply absorbed_snoc|]. intros k. rewrite HR', HR, elem_of_app, elem_of_list_singleton.
    split.
    - intros [[Hk (x & Hx & Hx1)]|[-> (x & Hx & Hx2)]].
      + split; [by left|]. exists x. split; [done|]. intros Hx2. apply Hx1.
        assert (k ≠ old) as Hko by (intros ->; done).
        destruct (v1 !! x) as [c|] eqn:Hc.
        * destruct (decide (c = old)) as [-> |Hne].
          -- apply Hold in Hc. congruence.
          -- rewrite (absorbed_other _ _ _ _ _ Hab Hc Hne) in Hx2. congruence.
        * exfalso. apply lookup_ge_None in Hc. apply lookup_lt_Some in Hx.
          assert (length v = n ∧ length v1 = n) as [E1 E2]; [|lia].
          pose proof (cv_len _ _ _ _ HC) as E2. pose proof (ci_flen _ _ HI0) as E1.
          rewrite (Hv1 : ct_fc2cc ct = _), fmap_length in E2. rewrite (Hv : f0 = _), fmap_length in E1. done.
      + split; [by right|]. exists x. split; [by apply Hold|done].
    - intros [[Hk| ->] (x & Hx & Hx2)].
      + left. split; [done|]. exists x. split; [done|]. intros Hx1. apply Hx2.
        apply (absorbed_other _ _ _ _ _ Hab Hx1). by intros ->.
      + right. split; [done|]. exists x. split; [by apply Hold|done]. }
  intros [R ct1] [HL (v1 & Hv1 & Ha & HR)]. cbn [fst snd] in *. eapply wp_mono.
  { apply (correct_renumber_ok g WF ct0 HI0 Hfull Hfront R ct1); [apply HL|]. intros k Hk. by apply (cl_R _ _ _ _ _ HL). }
  intros ct' (rho & nc & Hr). by exists R, ct1, rho, nc, v1.
Qed.

(** The new numbers. *)
Lemma rho_rank R ct1 ct' rho nc k : renumbered g ct0 R ct1 ct' rho nc →
  k < ct_n ct0 → k ∉ R → rho k = rank R k.
Proof using.
  clear. intros HR Hk HkR. unfold rank. set (l := filter (λ j, j ∉ R) (seq 0 k)).
  assert (∀ j, j ∈ l ↔ j ∉ R ∧ j < k) as Hl.
  { intros j. unfold l. rewrite elem_of_list_filter, elem_of_seq. intuition lia. }
  assert (∀ a b, a ∉ R → b ∉ R → a < ct_n ct0 → b < ct_n ct0 → rho a = rho b → a = b) as Hinj.
  { intros a b Ha Hb Ha' Hb' He. destruct (lt_eq_lt_dec a b) as [[Hlt| ->]|Hlt]; [|done|].
    - pose proof (rn_mono _ _ _ _ _ _ _ HR a b Hlt Ha' Hb' Ha Hb). lia.
    - pose proof (rn_mono _ _ _ _ _ _ _ HR b a Hlt Hb' Ha' Hb Ha). lia. }
  assert (rho <$> l ≡ₚ seq 0 (rho k)) as HP.
  { apply NoDup_Permutation.
    - assert (NoDup l) as Hnd by (apply NoDup_filter, NoDup_seq).
      assert (∀ j, j ∈ l → j ∉ R ∧ j < k) as Hl' by (intros j; apply Hl). clearbody l. clear Hl.
      induction Hnd as [|a l Ha Hnd IH]; [constructor|]. cbn [fmap list_fmap]. constructor.
      + intros Hin. apply elem_of_list_fmap in Hin as (b & He & Hb).
        destruct (Hl' a) as [??]; [by left|]. destruct (Hl' b) as [??]; [by right|].
        assert (a = b) as -> by (apply Hinj; auto; lia). done.
      + apply IH. intros j Hj. apply Hl'. by right.
    - apply NoDup_seq.
    - intros j. rewrite elem_of_list_fmap, elem_of_seq. split.
      + intros (a & -> & Ha). apply Hl in Ha as [Ha Hak]. split; [lia|]. simpl.
        apply (rn_mono _ _ _ _ _ _ _ HR); auto. lia.
      + intros [_ Hj]. simpl in Hj.
        destruct (rn_surj _ _ _ _ _ _ _ HR j) as (a & Ha & HaR & <-).
        { pose proof (rn_lt _ _ _ _ _ _ _ HR k Hk HkR). lia. }
        exists a. split; [done|]. apply Hl. split; [done|].
        destruct (lt_eq_lt_dec a k) as [[Hlt| ->]|Hlt]; [done|lia|].
        pose proof (rn_mono _ _ _ _ _ _ _ HR k a Hlt Hk Ha HkR HaR). lia. }
  apply Permutation_length in HP. rewrite fmap_length, seq_length in HP. done.
Qed.
End steps.
