(** * DepT: proofs about the deprecated containers *)

From Verif Require Import Lib Deprec SpecDep.

Lemma foldM_snoc {X Y} (f : Y → X → res Y) l (x : X) (y : Y) :
  foldM f (l ++ [x]) y = (r ← foldM f l y; f r x).
Proof.
  rewrite foldM_app. destruct (foldM f l y); simpl; [|done]. by destruct (f _ x).
Qed.

(** ** Queue *)
Lemma pushed_app {T} (l k : list (qop T)) : pushed (l ++ k) = pushed l ++ pushed k.
Proof. apply omap_app. Qed.
Lemma pops_app {T} (l k : list (qop T)) : pops (l ++ k) = pops l + pops k.
Proof. unfold pops. by rewrite omap_app, app_length. Qed.

Lemma C48_queue_lem {T} (m1 : T) (ops : list (qop T)) :
  (∀ k, pops (take k ops) ≤ length (pushed (take k ops))) →
  q_run m1 ops = (take (pops ops) (pushed ops), drop (pops ops) (pushed ops)).
Proof.
  induction ops as [|o ops IH] using rev_ind; intros Hk; [done|].
  unfold q_run in *. rewrite fold_left_app. simpl.
  assert (Hpre : ∀ k, pops (take k ops) ≤ length (pushed (take k ops))).
  { intros k. specialize (Hk (k `min` length ops)).
    rewrite take_app_le in Hk by lia.
    destruct (decide (k ≤ length ops)).
    - rewrite Nat.min_l in Hk by lia. done.
    - rewrite Nat.min_r in Hk by lia. rewrite take_ge in * by lia. done. }
  rewrite (IH Hpre).
  specialize (Hpre (length ops)). rewrite take_ge in Hpre by lia.
  specialize (Hk (length (ops ++ [o]))). rewrite take_ge in Hk by lia.
  rewrite pushed_app, pops_app in Hk. rewrite pushed_app, pops_app.
  destruct o as [x|].
  - change (pushed [QPush x]) with [x]. change (pops [QPush x]) with 0.
    rewrite Nat.add_0_r. simpl. rewrite take_app_le, drop_app_le by lia. done.
  - change (pushed [QPop]) with (@nil T) in *. change (pops [@QPop T]) with 1 in *.
    rewrite app_nil_r in *. simpl.
    destruct (lookup_lt_is_Some_2 (pushed ops) (pops ops)) as [x Hx]; [lia|].
    rewrite (drop_S _ x _ Hx). simpl. rewrite Nat.add_1_r.
    rewrite (take_S_r _ _ x Hx). done.
Qed.

Lemma C48_queue_reads_lem {T} (m1 : T) (q : list T) :
  q_top m1 q = (q_pop m1 q).1 ∧ q_top m1 q = default m1 (head q) ∧
  (q_pop m1 q).2 = tail q ∧ (q_empty q = true ↔ q = []).
Proof. by destruct q. Qed.

(** ** Priority_Pair *)
Lemma C48_priority_pair_lem {A B} (lta eqa : A → A → bool) (ltb eqb : B → B → bool) :
  (∀ x y, eqa x y ↔ x = y) → (∀ x y, eqb x y ↔ x = y) →
  (∀ x, ¬ lta x x) → (∀ x y z, lta x y → lta y z → lta x z) → (∀ x y, lta x y ∨ x = y ∨ lta y x) →
  (∀ x, ¬ ltb x x) → (∀ x y z, ltb x y → ltb y z → ltb x z) → (∀ x y, ltb x y ∨ x = y ∨ ltb y x) →
  (∀ a b, pp_lt lta ltb a b ↔ lta b.1 a.1 ∨ (a.1 = b.1 ∧ ltb a.2 b.2)) ∧
  (∀ a b, pp_eq eqa eqb a b ↔ a = b) ∧
  (∀ a, ¬ pp_lt lta ltb a a) ∧
  (∀ a b c, pp_lt lta ltb a b → pp_lt lta ltb b c → pp_lt lta ltb a c) ∧
  (∀ a b, pp_lt lta ltb a b ∨ a = b ∨ pp_lt lta ltb b a).
Proof.
  intros Ea Eb Ia Ta Ca Ib Tb Cb.
  assert (HL : ∀ a b, pp_lt lta ltb a b ↔ lta b.1 a.1 ∨ (a.1 = b.1 ∧ ltb a.2 b.2)).
  { intros [a1 a2] [b1 b2]. unfold pp_lt. simpl.
    destruct (lta b1 a1) eqn:E1; [split; [by left|done]|].
    destruct (lta a1 b1) eqn:E2.
    - split; [done|]. intros [H|[-> H]]; [done|]. exfalso. apply (Ia b1). by rewrite E2.
    - destruct (Ca a1 b1) as [H|[-> |H]]; [by rewrite E2 in H| |by rewrite E1 in H].
      split; [by right|]. by intros [H|[_ H]]. }
  split; [done|]. split_and!.
  - intros [a1 a2] [b1 b2]. unfold pp_eq. simpl.
    rewrite andb_True, Ea, Eb. split; [by intros [-> ->]|by intros [= -> ->]].
  - intros [a1 a2]. rewrite HL. simpl. intros [H|[_ H]]; [by eapply Ia|by eapply Ib].
  - intros [a1 a2] [b1 b2] [c1 c2]. rewrite !HL. simpl.
    intros [H1|[-> H1]] [H2|[-> H2]]; eauto.
  - intros [a1 a2] [b1 b2]. rewrite !HL. simpl.
    destruct (Ca a1 b1) as [H|[-> |H]]; [by right; right; left| |by left; left].
    destruct (Cb a2 b2) as [H|[-> |H]]; [by left; right|by right; left|by right; right; right].
Qed.

(** ** Bimap *)
Section bimap.
Context {A B : Type} `{Countable A} `{Countable B}.
Implicit Types (s : bimap A B) (m : list (A * B)).

Record brep s m : Prop := {
  br_na : NoDup m.*1;
  br_nb : NoDup m.*2;
  br_pair : ∀ a b, (a, b) ∈ m → ∃ ka kb, bm_b s !! a = Some kb ∧ bm_a s !! b = Some ka ∧
      bm_na s !! ka = Some (b, Some kb) ∧ bm_nb s !! kb = Some (a, Some ka);
  br_b : ∀ a k, bm_b s !! a = Some k → a ∈ m.*1;
  br_a : ∀ b k, bm_a s !! b = Some k → b ∈ m.*2;
  br_nexta : ∀ k n, bm_na s !! k = Some n → k < bm_next s;
  br_nextb : ∀ k n, bm_nb s !! k = Some n → k < bm_next s;
}.

Lemma in_fst m a : a ∈ m.*1 ↔ ∃ b, (a, b) ∈ m.
Proof.
  rewrite elem_of_list_fmap. split.
  - intros ([x y] & -> & Hp). by exists y.
  - intros [b Hb]. by exists (a, b).
Qed.
Lemma in_snd m b : b ∈ m.*2 ↔ ∃ a, (a, b) ∈ m.
Proof.
  rewrite elem_of_list_fmap. split.
  - intros ([x y] & -> & Hp). by exists x.
  - intros [a Ha]. by exists (a, b).
Qed.
Lemma nd_fst m a b b' : NoDup m.*1 → (a, b) ∈ m → (a, b') ∈ m → b = b'.
Proof.
  induction m as [|[x y] m IH]; intros Hnd H1 H2; [by apply elem_of_nil in H1|].
  simpl in Hnd. apply NoDup_cons in Hnd as [Hx Hnd].
  apply elem_of_cons in H1 as [[= <- <-]|H1], H2 as [[= Hb]|H2]; auto.
  - destruct Hx. apply in_fst. eauto.
  - destruct Hx. subst. apply in_fst. eauto.
Qed.
Lemma nd_snd m a a' b : NoDup m.*2 → (a, b) ∈ m → (a', b) ∈ m → a = a'.
Proof.
  induction m as [|[x y] m IH]; intros Hnd H1 H2; [by apply elem_of_nil in H1|].
  simpl in Hnd. apply NoDup_cons in Hnd as [Hx Hnd].
  apply elem_of_cons in H1 as [[= <- <-]|H1], H2 as [[= Hb]|H2]; auto.
  - destruct Hx. apply in_snd. eauto.
  - destruct Hx. subst. apply in_snd. eauto.
Qed.

Lemma brep_new : brep bm_new [].
Proof. split; try constructor; try (intros; set_solver). Qed.

Lemma brep_holds s m : brep s m → holds s m.
Proof.
  intros HR. unfold holds.
  assert (HB : ∀ a b, (a, b) ∈ m → bm_getB s a = Ok b).
  { intros a b Hab. destruct (br_pair _ _ HR _ _ Hab) as (ka & kb & E1 & E2 & E3 & E4).
    unfold bm_getB. by rewrite E1, E4, E3. }
  assert (HA : ∀ a b, (a, b) ∈ m → bm_getA s b = Ok a).
  { intros a b Hab. destruct (br_pair _ _ HR _ _ Hab) as (ka & kb & E1 & E2 & E3 & E4).
    unfold bm_getA. by rewrite E2, E3, E4. }
  assert (HB' : ∀ a, a ∉ m.*1 → bm_getB s a = Err EUB).
  { intros a Ha. unfold bm_getB. destruct (bm_b s !! a) eqn:E; [|done].
    by apply (br_b _ _ HR) in E. }
  assert (HA' : ∀ b, b ∉ m.*2 → bm_getA s b = Err EUB).
  { intros a Ha. unfold bm_getA. destruct (bm_a s !! a) eqn:E; [|done].
    by apply (br_a _ _ HR) in E. }
  split_and!; auto.
  - intros a b. split; [|apply HB]. intros Hg.
    destruct (decide (a ∈ m.*1)) as [Ha|Ha]; [|by rewrite (HB' _ Ha) in Hg].
    apply in_fst in Ha as [b' Hb']. rewrite (HB _ _ Hb') in Hg. by injection Hg as <-.
  - intros a b. split; [|apply HA]. intros Hg.
    destruct (decide (b ∈ m.*2)) as [Ha|Ha]; [|by rewrite (HA' _ Ha) in Hg].
    apply in_snd in Ha as [b' Hb']. rewrite (HA _ _ Hb') in Hg. by injection Hg as <-.
  - unfold bm_lung. rewrite <- (fmap_length fst m), <- size_dom.
    rewrite <- (size_list_to_set (C := gset A) m.*1) by apply (br_na _ _ HR).
    f_equal. apply set_eq. intros a. rewrite elem_of_dom, elem_of_list_to_set. split.
    + intros [k Hk]. by eapply br_b.
    + intros Ha. apply in_fst in Ha as [b Hb].
      destruct (br_pair _ _ HR _ _ Hb) as (ka & kb & E1 & _). by eexists.
  - unfold bm_empty. rewrite bool_decide_eq_true. split.
    + intros He. destruct m as [|[a b] m]; [done|].
      destruct (br_pair _ _ HR a b) as (ka & kb & E1 & E2 & _); [left|].
      by rewrite He, lookup_empty in E2.
    + intros ->. apply map_eq. intros b. rewrite lookup_empty.
      destruct (bm_a s !! b) eqn:E; [|done]. apply (br_a _ _ HR) in E. by apply elem_of_nil in E.
Qed.

Lemma brep_insert s m a b :
  brep s m → bop_fits m (BInsert a b) → brep (bm_insert s a b) (bop_spec m (BInsert a b)).
Proof.
  intros HR [Hab|[Ha Hb]]; simpl.
  - rewrite decide_True by done.
    destruct (br_pair _ _ HR _ _ Hab) as (ka & kb & E1 & E2 & E3 & E4).
    unfold bm_insert, bm_nodeA. rewrite E2. simpl. unfold bm_nodeB. rewrite E1.
    rewrite (insert_id (bm_na s)) by done. by destruct s.
  - rewrite decide_False by (intros ?; apply Ha, in_fst; eauto).
    assert (E1 : bm_b s !! a = None).
    { destruct (bm_b s !! a) eqn:E; [|done]. by apply (br_b _ _ HR) in E. }
    assert (E2 : bm_a s !! b = None).
    { destruct (bm_a s !! b) eqn:E; [|done]. by apply (br_a _ _ HR) in E. }
    unfold bm_insert, bm_nodeA. rewrite E2. simpl. unfold bm_nodeB. simpl. rewrite E1. simpl.
    split; simpl.
    + constructor; [done|apply HR].
    + constructor; [done|apply HR].
    + intros x y Hxy. apply elem_of_cons in Hxy as [[= -> ->]|Hxy].
      { exists (bm_next s), (S (bm_next s)). by rewrite !lookup_insert. }
      destruct (br_pair _ _ HR _ _ Hxy) as (ka & kb & F1 & F2 & F3 & F4).
      assert (x ≠ a) by (intros ->; congruence).
      assert (y ≠ b) by (intros ->; congruence).
      pose proof (br_nexta _ _ HR _ _ F3). pose proof (br_nextb _ _ HR _ _ F4).
      exists ka, kb. rewrite !lookup_insert_ne by lia || done. done.
    + intros x k. rewrite lookup_insert_Some. intros [[-> _]|[_ Hx]]; [left|].
      right. by eapply br_b.
    + intros x k. rewrite lookup_insert_Some. intros [[-> _]|[_ Hx]]; [left|].
      right. by eapply br_a.
    + intros k n. rewrite !lookup_insert_Some.
      intros [[<- _]|[_ [[<- _]|[_ Hx]]]]; [lia..|]. apply (br_nexta _ _ HR) in Hx. lia.
    + intros k n. rewrite !lookup_insert_Some.
      intros [[<- _]|[_ Hx]]; [lia|]. apply (br_nextb _ _ HR) in Hx. lia.
Qed.

Lemma map_id_on {T} (f : T → T) (l : list T) : (∀ x, x ∈ l → f x = x) → map f l = l.
Proof.
  induction l as [|x l IH]; intros Hl; [done|]. simpl. rewrite Hl by left. f_equal.
  apply IH. intros y Hy. apply Hl. by right.
Qed.

Lemma brep_updateB s m a a' :
  brep s m → bop_fits m (BUpdateB a a') → brep (bm_updateB s a a') (bop_spec m (BUpdateB a a')).
Proof.
  intros HR Hfit. simpl in *. unfold bm_updateB.
  destruct (bm_b s !! a) as [k|] eqn:E1; cycle 1.
  { rewrite map_id_on; [done|]. intros [x y] Hxy. simpl. case_decide as Hx; [|done]. subst.
    destruct (br_pair _ _ HR _ _ Hxy) as (ka & kb & F1 & _). congruence. }
  pose proof (br_b _ _ HR _ _ E1) as Ha. apply in_fst in Ha as [b Hab].
  destruct (br_pair _ _ HR _ _ Hab) as (ka & kb & F1 & F2 & F3 & F4).
  rewrite E1 in F1. injection F1 as ->. rewrite F4.
  assert (Hfit' : a' = a ∨ a' ∉ m.*1).
  { destruct Hfit as [?|[Hn|?]]; [by left| |by right]. destruct Hn. apply in_fst. eauto. }
  assert (E5 : delete a (bm_b s) !! a' = None).
  { apply lookup_delete_None. destruct Hfit' as [-> |Hn]; [by left|]. right.
    destruct (bm_b s !! a') eqn:E; [|done]. by apply (br_b _ _ HR) in E. }
  rewrite E5.
  assert (Hmap1 : ∀ x y, (x, y) ∈ map (λ p, if decide (p.1 = a) then (a', p.2) else p) m ↔
            (x = a' ∧ y = b) ∨ (x ≠ a ∧ (x, y) ∈ m)).
  { intros x y. rewrite elem_of_list_In, in_map_iff. split.
    - intros ([u v] & Hu & Hin). simpl in Hu. apply elem_of_list_In in Hin.
      case_decide as Hd.
      + injection Hu as <- <-. subst. left. split; [done|].
        by apply (nd_fst m a v b (br_na _ _ HR)).
      + injection Hu as <- <-. by right.
    - intros [[-> ->]|[Hx Hin]].
      + exists (a, b). simpl. rewrite decide_True by done. split; [done|by apply elem_of_list_In].
      + exists (x, y). simpl. rewrite decide_False by done. split; [done|by apply elem_of_list_In]. }
  split; simpl.
  - clear E5 F4 F3 F2 E1 Hmap1 Hfit. pose proof (br_na _ _ HR) as Hnd.
    assert (Hneq : ∀ x y, (x, y) ∈ m → x ≠ a → x ≠ a').
    { intros x y Hxy Hx ->. destruct Hfit' as [-> |Hn]; [done|]. apply Hn, in_fst. eauto. }
    clear HR Hfit' Hab. induction m as [|[x y] m IH]; [constructor|].
    simpl in Hnd. apply NoDup_cons in Hnd as [Hx Hnd]. simpl.
    constructor; cycle 1.
    { apply IH; [done|]. intros u v Huv. apply (Hneq u v). by right. }
    rewrite in_fst. intros [v Hv]. apply elem_of_list_In, in_map_iff in Hv as ([u w] & Hu & Hin).
    apply elem_of_list_In in Hin. simpl in Hu.
    destruct (decide (u = a)) as [D1|D1]; destruct (decide (x = a)) as [D2|D2];
      simpl in *; injection Hu; intros; clear Hu.
    + apply Hx, in_fst. exists w. congruence.
    + apply (Hneq x y); [left|done|congruence].
    + apply (Hneq u w); [by right|done|congruence].
    + apply Hx, in_fst. exists w. congruence.
  - assert (Hs : (map (λ p, if decide (p.1 = a) then (a', p.2) else p) m).*2 = m.*2).
    { clear. induction m as [|[x y] m IH]; [done|]. simpl in *. unfold fmap in *. simpl in *. rewrite IH. by case_decide. }
    unfold fmap in *. rewrite Hs. apply HR.
  - intros x y. rewrite Hmap1. intros [[-> ->]|[Hx Hin]].
    + exists ka, kb. by rewrite !lookup_insert.
    + destruct (br_pair _ _ HR _ _ Hin) as (ka' & kb' & G1 & G2 & G3 & G4).
      assert (x ≠ a').
      { intros ->. destruct Hfit' as [-> |Hn]; [done|]. apply Hn, in_fst. eauto. }
      assert (kb' ≠ kb) by (intros ->; congruence).
      exists ka', kb'. rewrite !lookup_insert_ne, lookup_delete_ne by done. done.
  - intros x k. rewrite lookup_insert_Some, lookup_delete_Some. rewrite in_fst.
    intros [[<- _]|[Hn [Hx Hk]]].
    + exists b. rewrite Hmap1. by left.
    + apply (br_b _ _ HR) in Hk. apply in_fst in Hk as [y Hy]. exists y. rewrite Hmap1. by right.
  - intros y k Hk. apply (br_a _ _ HR) in Hk. apply in_snd in Hk as [x Hx].
    rewrite in_snd. destruct (decide (x = a)) as [-> |].
    + exists a'. rewrite Hmap1. left. split; [done|]. by eapply nd_fst; [apply HR|..].
    + exists x. rewrite Hmap1. by right.
  - apply HR.
  - intros k n. rewrite lookup_insert_Some. intros [[<- _]|[_ Hk]]; eapply br_nextb; eauto.
Qed.

Lemma brep_updateA s m b b' :
  brep s m → bop_fits m (BUpdateA b b') → brep (bm_updateA s b b') (bop_spec m (BUpdateA b b')).
Proof.
  intros HR Hfit. simpl in *. unfold bm_updateA.
  destruct (bm_a s !! b) as [k|] eqn:E1; cycle 1.
  { rewrite map_id_on; [done|]. intros [x y] Hxy. simpl. case_decide as Hx; [|done]. subst.
    destruct (br_pair _ _ HR _ _ Hxy) as (ka & kb & _ & F1 & _). congruence. }
  pose proof (br_a _ _ HR _ _ E1) as Ha. apply in_snd in Ha as [a Hab].
  destruct (br_pair _ _ HR _ _ Hab) as (ka & kb & F1 & F2 & F3 & F4).
  rewrite E1 in F2. injection F2 as ->. rewrite F3.
  assert (Hfit' : b' = b ∨ b' ∉ m.*2).
  { destruct Hfit as [?|[Hn|?]]; [by left| |by right]. destruct Hn. apply in_snd. eauto. }
  assert (E5 : delete b (bm_a s) !! b' = None).
  { apply lookup_delete_None. destruct Hfit' as [-> |Hn]; [by left|]. right.
    destruct (bm_a s !! b') eqn:E; [|done]. by apply (br_a _ _ HR) in E. }
  rewrite E5.
  assert (Hmap1 : ∀ x y, (x, y) ∈ map (λ p, if decide (p.2 = b) then (p.1, b') else p) m ↔
            (x = a ∧ y = b') ∨ (y ≠ b ∧ (x, y) ∈ m)).
  { intros x y. rewrite elem_of_list_In, in_map_iff. split.
    - intros ([u v] & Hu & Hin). simpl in Hu. apply elem_of_list_In in Hin.
      case_decide as Hd.
      + injection Hu as <- <-. subst. left. split; [|done].
        by apply (nd_snd m u a b (br_nb _ _ HR)).
      + injection Hu as <- <-. by right.
    - intros [[-> ->]|[Hx Hin]].
      + exists (a, b). simpl. rewrite decide_True by done. split; [done|by apply elem_of_list_In].
      + exists (x, y). simpl. rewrite decide_False by done. split; [done|by apply elem_of_list_In]. }
  split; simpl.
  - assert (Hs : (map (λ p, if decide (p.2 = b) then (p.1, b') else p) m).*1 = m.*1).
    { clear. induction m as [|[x y] m IH]; [done|]. simpl in *. unfold fmap in *. simpl in *. rewrite IH. by case_decide. }
    unfold fmap in *. rewrite Hs. apply HR.
  - clear E5 F4 F3 F1 E1 Hmap1 Hfit. pose proof (br_nb _ _ HR) as Hnd.
    assert (Hneq : ∀ x y, (x, y) ∈ m → y ≠ b → y ≠ b').
    { intros x y Hxy Hx ->. destruct Hfit' as [-> |Hn]; [done|]. apply Hn, in_snd. eauto. }
    clear HR Hfit' Hab. induction m as [|[x y] m IH]; [constructor|].
    simpl in Hnd. apply NoDup_cons in Hnd as [Hx Hnd]. simpl.
    constructor; cycle 1.
    { apply IH; [done|]. intros u v Huv. apply (Hneq u v). by right. }
    rewrite in_snd. intros [v Hv]. apply elem_of_list_In, in_map_iff in Hv as ([u w] & Hu & Hin).
    apply elem_of_list_In in Hin. simpl in Hu.
    destruct (decide (w = b)) as [D1|D1]; destruct (decide (y = b)) as [D2|D2];
      simpl in *; injection Hu; intros; clear Hu.
    + apply Hx, in_snd. exists u. congruence.
    + apply (Hneq x y); [left|done|congruence].
    + apply (Hneq u w); [by right|done|congruence].
    + apply Hx, in_snd. exists u. congruence.
  - intros x y. rewrite Hmap1. intros [[-> ->]|[Hx Hin]].
    + exists ka, kb. by rewrite !lookup_insert.
    + destruct (br_pair _ _ HR _ _ Hin) as (ka' & kb' & G1 & G2 & G3 & G4).
      assert (y ≠ b').
      { intros ->. destruct Hfit' as [-> |Hn]; [done|]. apply Hn, in_snd. eauto. }
      assert (ka' ≠ ka) by (intros ->; congruence).
      exists ka', kb'. rewrite !lookup_insert_ne, lookup_delete_ne by done. done.
  - intros x k Hk. apply (br_b _ _ HR) in Hk. apply in_fst in Hk as [y Hy].
    rewrite in_fst. destruct (decide (y = b)) as [-> |].
    + exists b'. rewrite Hmap1. left. split; [|done]. by eapply nd_snd; [apply HR|..].
    + exists y. rewrite Hmap1. by right.
  - intros x k. rewrite lookup_insert_Some, lookup_delete_Some. rewrite in_snd.
    intros [[<- _]|[Hn [Hx Hk]]].
    + exists a. rewrite Hmap1. by left.
    + apply (br_a _ _ HR) in Hk. apply in_snd in Hk as [y Hy]. exists y. rewrite Hmap1. by right.
  - intros k n. rewrite lookup_insert_Some. intros [[<- _]|[_ Hk]]; eapply br_nexta; eauto.
  - apply HR.
Qed.

Lemma sublist_nd {T} (l k : list T) : l `sublist_of` k → NoDup k → NoDup l.
Proof.
  induction 1 as [|x l k Hlk IH|x l k Hlk IH]; [done|..];
    intros [Hx Hnd]%NoDup_cons; [|by apply IH].
  constructor; [|by apply IH]. intros Hl. apply Hx.
  eapply elem_of_submseteq; [done|by apply sublist_submseteq].
Qed.
Lemma brep_erase s m a :
  brep s m → bop_fits m (BErase a) →
  ∃ s', bm_eraseB s a = Ok s' ∧ brep s' (bop_spec m (BErase a)).
Proof.
  intros HR Ha. simpl in Ha. apply in_fst in Ha as [b Hab].
  destruct (br_pair _ _ HR _ _ Hab) as (ka & kb & F1 & F2 & F3 & F4).
  unfold bm_eraseB, bm_getB. rewrite F1, F4, F3. simpl. rewrite F2.
  eexists. split; [done|].
  assert (Hsub : filter (λ p : A * B, p.1 ≠ a) m `sublist_of` m).
  { clear. induction m as [|p m IH]; [done|]. rewrite filter_cons.
    case_decide; [by apply sublist_skip|by apply sublist_cons]. }
  split; simpl.
  - eapply sublist_nd; [by apply fmap_sublist|apply HR].
  - eapply sublist_nd; [by apply fmap_sublist|apply HR].
  - intros x y Hxy. apply elem_of_list_filter in Hxy as [Hx Hxy]. simpl in Hx.
    destruct (br_pair _ _ HR _ _ Hxy) as (ka' & kb' & G1 & G2 & G3 & G4).
    assert (y ≠ b).
    { intros ->. apply Hx. by eapply nd_snd; [apply HR|..]. }
    assert (ka' ≠ ka) by (intros ->; congruence).
    assert (kb' ≠ kb) by (intros ->; congruence).
    exists ka', kb'. rewrite !lookup_delete_ne by done. done.
  - intros x k. rewrite lookup_delete_Some. intros [Hx Hk].
    apply (br_b _ _ HR) in Hk. apply in_fst in Hk as [y Hy]. apply in_fst. exists y.
    apply elem_of_list_filter. by split.
  - intros y k. rewrite lookup_delete_Some. intros [Hy Hk].
    apply (br_a _ _ HR) in Hk. apply in_snd in Hk as [x Hx]. apply in_snd. exists x.
    apply elem_of_list_filter. split; [|done]. simpl. intros ->. apply Hy.
    by eapply nd_fst; [apply HR|..].
  - intros k n. rewrite lookup_delete_Some. intros [_ Hk]. by eapply br_nexta.
  - intros k n. rewrite lookup_delete_Some. intros [_ Hk]. by eapply br_nextb.
Qed.

Lemma bops_brep ops m : bops_fit ops m → ∃ s, foldM bop_run ops bm_new = Ok s ∧ brep s m.
Proof.
  induction 1 as [|l m o Hl (s & Hs & HR) Ho]; [exists bm_new; split; [done|apply brep_new]|].
  rewrite foldM_snoc, Hs. simpl.
  destruct o as [a b|a a'|b b'|a].
  - eexists. split; [done|]. by apply brep_insert.
  - eexists. split; [done|]. by apply brep_updateB.
  - eexists. split; [done|]. by apply brep_updateA.
  - by apply brep_erase.
Qed.

Lemma C49_bimap_lem (ops : list (bop A B)) m :
  bops_fit ops m → ∃ s, foldM bop_run ops bm_new = Ok s ∧ holds s m.
Proof. intros (s & Hs & HR)%bops_brep. exists s. split; [done|]. by apply brep_holds. Qed.

(** Insertions whose keys clash leave a container which holds no list of
    pairs. *)
Lemma C49_clash_lem (ops : list (bop A B)) m (s : bimap A B) a b :
  bops_fit ops m → foldM bop_run ops bm_new = Ok s → ¬ bop_fits m (BInsert a b) →
  ¬ ∃ m', holds (bm_insert s a b) m'.
Proof.
  intros (s' & Hs' & HR)%bops_brep Hs Hfit [m' Hm]. rewrite Hs in Hs'. injection Hs' as <-.
  simpl in Hfit. destruct Hm as (HB & _ & HA & _).
  destruct (bm_b s !! a) as [kb|] eqn:Ea.
  - (* the first key is there *)
    pose proof (br_b _ _ HR _ _ Ea) as Ha. apply in_fst in Ha as [b0 Hab].
    assert (b0 ≠ b) by (intros ->; apply Hfit; by left).
    destruct (br_pair _ _ HR _ _ Hab) as (ka & kb' & F1 & F2 & F3 & F4).
    rewrite Ea in F1. injection F1 as <-.
    destruct (bm_a s !! b) as [kx|] eqn:Eb.
    + assert (Hk : kx ≠ ka).
      { intros ->. pose proof (br_a _ _ HR _ _ Eb) as Hb. apply in_snd in Hb as [a1 Hb1].
        destruct (br_pair _ _ HR _ _ Hb1) as (? & ? & _ & G2 & G3 & _). congruence. }
      assert (G1 : bm_getA (bm_insert s a b) b = Ok a).
      { unfold bm_insert, bm_nodeA. rewrite Eb. simpl. unfold bm_nodeB. rewrite Ea.
        unfold bm_getA. simpl. by rewrite Eb, lookup_insert, F4. }
      assert (G2 : bm_getB (bm_insert s a b) a = Ok b0).
      { unfold bm_insert, bm_nodeA. rewrite Eb. simpl. unfold bm_nodeB. rewrite Ea.
        unfold bm_getB. simpl. by rewrite Ea, F4, lookup_insert_ne, F3. }
      apply HA in G1. apply HB in G1. congruence.
    + pose proof (br_nexta _ _ HR _ _ F3) as Hlt.
      assert (G1 : bm_getA (bm_insert s a b) b = Ok a).
      { unfold bm_insert, bm_nodeA. rewrite Eb. simpl. unfold bm_nodeB. simpl. rewrite Ea.
        unfold bm_getA. simpl. by rewrite lookup_insert, lookup_insert, F4. }
      assert (G2 : bm_getB (bm_insert s a b) a = Ok b0).
      { unfold bm_insert, bm_nodeA. rewrite Eb. simpl. unfold bm_nodeB. simpl. rewrite Ea.
        unfold bm_getB. simpl. rewrite Ea, F4, !lookup_insert_ne by lia. by rewrite F3. }
      apply HA in G1. apply HB in G1. congruence.
  - (* the second key is there *)
    destruct (bm_a s !! b) as [ka|] eqn:Eb; cycle 1.
    { apply Hfit. right. split.
      - intros Ha. apply in_fst in Ha as [y Hy].
        destruct (br_pair _ _ HR _ _ Hy) as (? & ? & ? & _). congruence.
      - intros Ha. apply in_snd in Ha as [y Hy].
        destruct (br_pair _ _ HR _ _ Hy) as (? & ? & _ & ? & _). congruence. }
    pose proof (br_a _ _ HR _ _ Eb) as Hb. apply in_snd in Hb as [a0 Hab].
    destruct (br_pair _ _ HR _ _ Hab) as (ka' & kb & F1 & F2 & F3 & F4).
    rewrite Eb in F2. injection F2 as <-.
    assert (a0 ≠ a) by (intros ->; congruence).
    pose proof (br_nextb _ _ HR _ _ F4) as Hlt.
    assert (G1 : bm_getA (bm_insert s a b) b = Ok a).
    { unfold bm_insert, bm_nodeA. rewrite Eb. simpl. unfold bm_nodeB. simpl. rewrite Ea.
      unfold bm_getA. simpl. by rewrite Eb, !lookup_insert. }
    assert (G2 : bm_getB (bm_insert s a b) a0 = Ok b).
    { unfold bm_insert, bm_nodeA. rewrite Eb. simpl. unfold bm_nodeB. simpl. rewrite Ea.
      unfold bm_getB. simpl. rewrite lookup_insert_ne by done. rewrite F1.
      rewrite lookup_insert_ne by lia. rewrite F4. by rewrite lookup_insert. }
    apply HB in G2. apply HA in G2. congruence.
Qed.
End bimap.
