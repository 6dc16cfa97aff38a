(** * DetT: the rules of C40 and C45 leave no choice (C51) *)

From Verif Require Import Features Neigh Iso Main Spec SpecSub SpecFeat SpecBest SpecPool SpecGrow SpecFeed SpecLine FeatU.

(** ** Lists *)

Lemma sorted_unique (R : nat → nat → Prop) : (∀ x y, R x y → R y x → False) →
  ∀ l1 l2, StronglySorted R l1 → StronglySorted R l2 → (∀ x, x ∈ l1 ↔ x ∈ l2) → l1 = l2.
Proof.
  intros Has l1. induction l1 as [|x l1 IH]; intros [|y l2] S1 S2 E.
  - done.
  - exfalso. apply (not_elem_of_nil y), E. left.
  - exfalso. apply (not_elem_of_nil x), E. left.
  - apply StronglySorted_inv in S1 as [S1 F1], S2 as [S2 F2]. rewrite Forall_forall in F1, F2.
    assert (x = y) as ->.
    { destruct (decide (x = y)) as [|Hn]; [done|exfalso].
      assert (x ∈ y :: l2) as Hx by (apply E; left). assert (y ∈ x :: l1) as Hy by (apply E; left).
      apply elem_of_cons in Hx as [->|Hx]; [done|]. apply elem_of_cons in Hy as [->|Hy]; [done|].
      eapply Has; [by apply F1|by apply F2]. }
    f_equal. apply IH; [done|done|]. intros z. split; intros Hz.
    + assert (z ∈ y :: l2) as Hz' by (apply E; by right). apply elem_of_cons in Hz' as [->|]; [|done].
      exfalso. eapply Has; by apply F1.
    + assert (z ∈ y :: l1) as Hz' by (apply E; by right). apply elem_of_cons in Hz' as [->|]; [|done].
      exfalso. eapply Has; by apply F2.
Qed.

Lemma split_unique (P : nat → Prop) pre1 s1 post1 pre2 s2 post2 :
  pre1 ++ s1 :: post1 = pre2 ++ s2 :: post2 → P s1 → P s2 →
  (∀ c, c ∈ pre1 → ¬ P c) → (∀ c, c ∈ pre2 → ¬ P c) → s1 = s2 ∧ post1 = post2.
Proof.
  revert pre2. induction pre1 as [|x pre1 IH]; intros [|y pre2] E P1 P2 N1 N2; simplify_eq/=.
  - done.
  - exfalso. apply (N2 y); [left|done].
  - exfalso. apply (N1 s2); [left|done].
  - eapply IH; eauto; intros c Hc; [apply N1|apply N2]; by right.
Qed.

Section det.
Context {A : Arith} {H : HashOrder}.
Context (WO : weak_order wlt (λ _ : W, True)).

Lemma wlt_asym x y : wlt x y = true → wlt y x = true → False.
Proof. intros H1 H2. assert (wlt x x = true) as E by (eapply (wo_tr _ _ WO); eauto). by rewrite (wo_irr _ _ WO) in E. Qed.

(** ** The queues *)
Section pool.
Context (prio : list W) (bnd : list Z).

Lemma more_urgent_asym x y : more_urgent prio x y → more_urgent prio y x → False.
Proof.
  intros (wx & wy & X1 & Y1 & O1) (wy' & wx' & Y2 & X2 & O2). simplify_eq.
  destruct O1 as [O1|(O1 & O1' & L1)], O2 as [O2|(O2 & O2' & L2)]; try congruence; [by eapply wlt_asym|lia].
Qed.
Lemma queued_before_asym d x y : queued_before prio bnd d x y → queued_before prio bnd d y x → False.
Proof.
  intros [N1|(E1 & bx & b_y & X1 & Y1 & O1)] [N2|(E2 & bx' & b_y' & X2 & Y2 & O2)].
  - destruct (d x), (d y); simpl in *; done || lia.
  - rewrite E2 in N1. destruct (d x); simpl in *; done || lia.
  - rewrite E1 in N2. destruct (d y); simpl in *; done || lia.
  - simplify_eq. destruct O1 as [O1|[E3 O1]], O2 as [O2|[E4 O2]]; try lia. by eapply more_urgent_asym.
Qed.
Lemma listing_unique P l1 l2 : listing prio P l1 → listing prio P l2 → l1 = l2.
Proof.
  intros [E1 S1] [E2 S2]. eapply sorted_unique; [apply more_urgent_asym|done|done|].
  intros x. by rewrite E1, E2.
Qed.

Lemma emptied_unique P p p1 p2 : (∀ l, P l ∨ ¬ P l) → emptied P p p1 → emptied P p p2 →
  sp_q p1 = sp_q p2 ∧ sp_bp p1 = sp_bp p2 ∧ sp_one p1 = sp_one p2.
Proof.
  intros Hd (B1 & O1 & L1 & Q1) (B2 & O2 & L2 & Q2). split; [|split; congruence].
  apply list_eq_same_length with (length (sp_q p)); [done|done|].
  intros l x y Hl Hx Hy. destruct (lookup_lt_is_Some_2 (sp_q p) l Hl) as [q Hq].
  destruct (Q1 l q Hq) as [Q1a Q1b], (Q2 l q Hq) as [Q2a Q2b].
  destruct (Hd l) as [HP|HP].
  - rewrite Q1a in Hx by done. rewrite Q2a in Hy by done. congruence.
  - rewrite Q1b in Hx by done. rewrite Q2b in Hy by done. congruence.
Qed.

Lemma taken_unique aggl p1 p2 l s1 s2 p1' p2' : sp_q p1 = sp_q p2 → sp_bp p1 = sp_bp p2 → sp_one p1 = sp_one p2 →
  taken aggl p1 l s1 p1' → taken aggl p2 l s2 p2' → s1 = s2 ∧ p1' = p2'.
Proof.
  intros EQ EB EO (F1 & pre1 & post1 & Q1 & N1 & L1) (F2 & pre2 & post2 & Q2 & N2 & L2).
  rewrite EQ in Q1. rewrite Q1 in Q2. apply (inj Some) in Q2.
  destruct (split_unique (is_free aggl) _ _ _ _ _ _ Q2 F1 F2 N1 N2) as [-> ->].
  unfold left_with in *. rewrite EQ, EB, EO in L1. split; [done|congruence].
Qed.
Lemma taken_not_spent aggl p l s p' : taken aggl p l s p' → spent aggl p l → False.
Proof.
  intros (F & pre & post & Q & _) S. apply (S s); [|done]. exists (pre ++ s :: post). split; [done|]. set_solver.
Qed.
Lemma spent_eq aggl p1 p2 l : sp_q p1 !! l = sp_q p2 !! l → spent aggl p1 l → spent aggl p2 l.
Proof. intros E S c (q & Q & Hc). apply S. exists q. by rewrite E. Qed.
Lemma inspected_dec p t l : inspected p t l ∨ ¬ inspected p t l.
Proof. unfold inspected. destruct (sp_bp p); lia. Qed.

Lemma level_unique aggl t b1 b2 :
  first_above bnd aggl t b1 ∨ highest_free bnd aggl b1 ∧ (b1 < t)%Z →
  first_above bnd aggl t b2 ∨ highest_free bnd aggl b2 ∧ (b2 < t)%Z → b1 = b2.
Proof.
  intros [(T1 & c1 & F1 & B1 & M1)|[[(c1 & F1 & B1) M1] T1]] [(T2 & c2 & F2 & B2 & M2)|[[(c2 & F2 & B2) M2] T2]].
  - assert (c1 = c2) as -> by (apply (anti_symm (≤)); [by eapply M1|by eapply M2]). congruence.
  - specialize (M2 _ _ F1 B1). lia.
  - specialize (M1 _ _ F2 B2). lia.
  - specialize (M1 _ _ F2 B2). specialize (M2 _ _ F1 B1). lia.
Qed.

Lemma takes_unique aggl p s1 s2 p1 p2 : takes prio bnd aggl p s1 p1 → takes prio bnd aggl p s2 p2 →
  s1 = s2 ∧ p1 = p2.
Proof.
  intros (t & T & R1) (t' & T' & R2). simplify_eq.
  assert (∀ l p0 s p', inspected p t l → emptied (λ l', inspected p t l' ∧ l < l') p p0 →
    taken aggl p0 l s p' → spent aggl p l → False) as Hno.
  { intros l p0 s p' Hl (_ & _ & Len & Q) Ht Hs. eapply taken_not_spent; [done|]. eapply spent_eq; [|done].
    destruct Ht as (_ & pre & post & Hq & _). destruct (sp_q p !! l) as [q|] eqn:E.
    - destruct (Q l q E) as [_ Q']. rewrite Q'; [done|lia].
    - apply lookup_ge_None in E. apply lookup_lt_Some in Hq. lia. }
  destruct R1 as [(l1 & q1 & I1 & S1 & E1 & K1)|(S1 & b1 & q1 & V1 & E1 & K1)],
    R2 as [(l2 & q2 & I2 & S2 & E2 & K2)|(S2 & b2 & q2 & V2 & E2 & K2)].
  - assert (l1 = l2) as ->.
    { destruct (lt_eq_lt_dec l1 l2) as [[Hlt|Heq]|Hlt]; [|done|]; exfalso.
      - eapply (Hno l2); eauto.
      - eapply (Hno l1); eauto. }
    destruct (emptied_unique (λ l', inspected p t l' ∧ l2 < l') p q1 q2) as (EQ & EB & EO); [|done|done|].
    { intros l. destruct (inspected_dec p t l); [|right; tauto]. destruct (decide (l2 < l)); [by left|right; tauto]. }
    eapply taken_unique; eauto.
  - exfalso. eapply (Hno l1); eauto.
  - exfalso. eapply (Hno l2); eauto.
  - pose proof (level_unique _ _ _ _ V1 V2) as ->.
    destruct (emptied_unique (inspected p t) p q1 q2) as (EQ & EB & EO); [apply inspected_dec|done|done|].
    destruct K1 as [K1|(P1 & r1 & G1 & L1)], K2 as [K2|(P2 & r2 & G2 & L2)].
    + eapply taken_unique; eauto.
    + exfalso. eapply taken_not_spent; [exact K1|]. eapply spent_eq; [|exact P2]. by rewrite EQ.
    + exfalso. eapply taken_not_spent; [exact K2|]. eapply spent_eq; [|exact P1]. by rewrite EQ.
    + pose proof (listing_unique _ _ _ G1 G2). simplify_eq. unfold left_with in *. rewrite EQ, EB, EO in L1.
      split; [done|congruence].
Qed.

Lemma fed_unique d N p p1 p2 : fed prio bnd d N p p1 → fed prio bnd d N p p2 → p1 = p2.
Proof.
  intros [(B1 & O1 & L1) Q1 T1] [(B2 & O2 & L2) Q2 T2].
  destruct p1 as [q1 t1 o1 bp1], p2 as [q2 t2 o2 bp2]; simpl in *. subst. f_equal.
  - apply list_eq_same_length with (length (sp_q p)); [done|done|].
    intros l x y Hl Hx Hy. destruct (lookup_lt_is_Some_2 (sp_q p) l Hl) as [q Hq].
    destruct (Q1 l q Hq) as (a1 & H1 & M1 & S1), (Q2 l q Hq) as (a2 & H2 & M2 & S2). simplify_eq.
    f_equal. eapply sorted_unique; [apply queued_before_asym|done|done|]. intros x. by rewrite M1, M2.
  - destruct (sp_bp p); [|congruence].
    destruct T1 as (t & t1' & E1 & -> & Le1 & M1 & C1), T2 as (u & t2' & E2 & -> & Le2 & M2 & C2). simplify_eq.
    f_equal. destruct C1 as [->|(x & Nx & Bx)], C2 as [->|(y & Ny & By)]; [done| | |].
    + specialize (M1 _ _ Ny By). lia.
    + specialize (M2 _ _ Nx Bx). lia.
    + specialize (M1 _ _ Ny By). specialize (M2 _ _ Nx Bx). lia.
Qed.

Lemma initialised_unique p p' t p1 p2 : sp_q p = sp_q p' → sp_bp p = sp_bp p' → sp_one p = sp_one p' →
  initialised prio bnd p t p1 → initialised prio bnd p' t p2 → p1 = p2.
Proof.
  intros EQ EB EO (l1 & q1 & Q1 & G1 & L1) (l2 & q2 & Q2 & G2 & L2). rewrite EQ in Q1. simplify_eq.
  rewrite (listing_unique _ _ _ G1 G2), EO in L1. unfold left_with in *. rewrite EQ, EB, EO in L1. congruence.
Qed.
Lemma started_unique bp one aggl nb p1 p2 :
  started prio bnd bp one aggl nb p1 → started prio bnd bp one aggl nb p2 → p1 = p2.
Proof.
  unfold started. destruct nb as [|x nb].
  - intros (t1 & [M1 N1] & I1) (t2 & [M2 N2] & I2).
    assert (t1 = t2) as -> by (apply (anti_symm Z.le); [by apply N2|by apply N1]). by eapply initialised_unique.
  - intros (b1 & t1 & B1 & T1 & R1) (b2 & t2 & B2 & T2 & R2). simplify_eq.
    assert (t1 = t2) as ->.
    { destruct bp; [|congruence]. destruct T1 as [(y1 & Y1 & Z1) M1], T2 as [(y2 & Y2 & Z2) M2].
      apply (anti_symm Z.le); [exact (M2 _ _ Y1 Z1)|exact (M1 _ _ Y2 Z2)]. }
    destruct bp; [|congruence].
    destruct R1 as [(m1 & [(c1 & F1 & C1) G1] & L1 & I1)|[N1 ->]], R2 as [(m2 & [(c2 & F2 & C2) G2] & L2 & I2)|[N2 ->]].
    + assert (m1 = m2) as -> by (apply (anti_symm Z.le); [exact (G2 _ _ F1 C1)|exact (G1 _ _ F2 C2)]). by eapply initialised_unique.
    + specialize (N2 _ _ F1 C1). lia.
    + specialize (N1 _ _ F2 C2). lia.
    + done.
Qed.
End pool.

(** ** Growth *)
Section grow.
Context (ip : iso_params) (g : graph) (prio : list W).

Lemma hood_sub free seed K1 K2 dn1 dn2 : K1 ≤ K2 → hood ip g free seed K1 dn1 → hood ip g free seed K2 dn2 → dn1 = dn2.
Proof.
  intros Hle [D1 S1 M1] [D2 S2 M2]. cbv zeta in *.
  assert (∀ x v, dn1 !! x = Some v → dn2 !! x = Some v) as Hsub.
  { intros x v Hx. apply D1 in Hx as (Hn & j & Hj & -> & Hd). apply D2. split; [done|]. exists j. split; [lia|done]. }
  assert (∀ x v, dn2 !! x = Some v → dn1 !! x = Some v) as Hsup.
  { destruct (decide (K1 = K2)) as [->|Hne].
    { intros x v Hx. apply D1. by apply D2. }
    destruct S1 as [S1|[O1 C1]].
    - intros x v Hx. apply D2 in Hx as Hx'. destruct Hx' as (Hn & j & Hj & -> & Hd).
      destruct (S1 _ _ Hd) as [->|[w Hw]]; [done|]. pose proof (Hsub _ _ Hw). congruence.
    - exfalso. destruct M2 as [M2|[M2|(Y & HY & HC)]]; [lia|lia|].
      assert ({[seed]} ∪ dom dn1 ⊆ Y) as Hs.
      { intros x Hx. apply HY. apply elem_of_union in Hx as [Hx|Hx].
        - apply elem_of_singleton in Hx as ->. exists 0. split; [lia|]. split; [by constructor|]. intros. lia.
        - apply elem_of_dom in Hx as [v Hv]. apply D1 in Hv as (_ & j & Hj & _ & Hd). exists j. split; [lia|done]. }
      apply subseteq_size in Hs. rewrite size_union, size_singleton, size_dom in Hs; [lia|].
      intros x Hx Hx'. apply elem_of_singleton in Hx as ->. apply elem_of_dom in Hx' as [v Hv].
      apply D1 in Hv as [? _]. done. }
  apply map_eq. intros x. apply option_eq. naive_solver.
Qed.
Lemma hood_unique free seed K1 K2 dn1 dn2 : hood ip g free seed K1 dn1 → hood ip g free seed K2 dn2 → dn1 = dn2.
Proof.
  intros H1 H2. destruct (le_ge_dec K1 K2); [by eapply hood_sub|symmetry; by eapply hood_sub].
Qed.

Lemma first_best_unique (k1 k2 : nat → Z * Z * W) l x y : (∀ z, z ∈ l → k1 z = k2 z) →
  first_best k1 l x → first_best k2 l y → x = y.
Proof.
  intros E (p1 & q1 & E1 & B1 & N1) (p2 & q2 & E2 & B2 & N2).
  assert (x ∈ l) as Hx by (subst l; set_solver). assert (y ∈ l) as Hy by (rewrite E2; set_solver).
  destruct (decide (length p1 = length p2)) as [El|Nl].
  { rewrite E1 in E2. apply app_inj_1 in E2 as [_ E2]; [|done]. by injection E2. }
  exfalso.
  assert (l !! length p1 = Some x) as L1 by (rewrite E1; by apply list_lookup_middle).
  assert (l !! length p2 = Some y) as L2 by (rewrite E2; by apply list_lookup_middle).
  destruct (decide (length p1 < length p2)) as [Hlt|Hge].
  - apply (N1 y).
    + rewrite E1 in L2. rewrite lookup_app_r in L2 by lia. apply lookup_cons_Some in L2 as [[? _]|[_ L2]]; [lia|].
      by eapply elem_of_list_lookup_2.
    + rewrite (E _ Hx), (E _ Hy). apply B2. rewrite E2 in L1. rewrite lookup_app_l in L1 by lia. by eapply elem_of_list_lookup_2.
  - apply (N2 x).
    + rewrite E2 in L1. rewrite lookup_app_r in L1 by lia. apply lookup_cons_Some in L1 as [[? _]|[_ L1]]; [lia|].
      by eapply elem_of_list_lookup_2.
    + rewrite <- (E _ Hx), <- (E _ Hy). apply B1. rewrite E1 in L2. rewrite lookup_app_l in L2 by lia. by eapply elem_of_list_lookup_2.
Qed.

Lemma next_cell_unique dn seed pre n x y : next_cell ip g prio dn seed pre n x → next_cell ip g prio dn seed pre n y → x = y.
Proof.
  unfold next_cell. intros (f1 & h1 & a1 & k1 & F1 & N1 & L1 & B1) (f2 & h2 & a2 & k2 & F2 & N2 & L2 & B2).
  rewrite F1 in F2. rewrite N1 in N2. simplify_eq. eapply first_best_unique; [|exact B1|exact B2].
  intros z Hz. destruct (L1 z Hz) as (g1 & C1 & K1), (L2 z Hz) as (g2 & C2 & K2).
  cbv beta. rewrite C1 in C2. injection C2 as Ea Eg. subst g2. assert (k1 z = k2 z) as ->; [|done].
  destruct n as [|n]; [congruence|].
  destruct K1 as (h1' & b1 & U1 & V1 & W1), K2 as (h2' & b2 & U2 & V2 & W2).
  rewrite U1 in U2. injection U2 as <-. rewrite V1 in V2. injection V2 as <-. rewrite W1, W2. by rewrite Ea.
Qed.

Lemma size_kept_unique (C1 C2 E : nat → Z) lo hi goal k1 k2 :
  (∀ j, admissible lo hi j → C1 j = C2 j) →
  size_kept C1 E lo hi goal k1 → size_kept C2 E lo hi goal k2 → k1 = k2.
Proof.
  intros EC [O1 G1] [O2 G2].
  assert (∀ j, optimal C1 E lo hi j ↔ optimal C2 E lo hi j) as EO.
  { intros j. unfold optimal. split; intros [Ha Hb]; (split; [done|]); intros j' Hj'; specialize (Hb _ Hj').
    - by rewrite <- !EC. - by rewrite !EC. }
  destruct G1 as [G1|G1], G2 as [G2|G2].
  - lia.
  - apply EO in O1. destruct (G2 _ O1). done.
  - apply EO in O2. destruct (G1 _ O2). done.
  - destruct (G1 k2) as [_ ?]; [by apply EO|]. destruct (G2 k1) as [_ ?]; [by apply EO|]. lia.
Qed.

Lemma grown_unique (cpt : gset nat → Z → Prop) ext free seed X Y : (∀ Z a b, cpt Z a → cpt Z b → a = b) →
  grown_from ip g prio cpt ext free seed X → grown_from ip g prio cpt ext free seed Y → X = Y.
Proof.
  intros Hc [_ (K1 & dn & D1 & R1)] [_ (K2 & dn' & D2 & R2)].
  rewrite (hood_unique _ _ _ _ _ _ D2 D1) in R2. clear D1 D2 dn'. cbv zeta in *. case_bool_decide as Ea; [congruence|].
  destruct R1 as (l1 & C1 & k1 & N1 & L1 & S1 & P1 & Z1 & ->), R2 as (l2 & C2 & k2 & N2 & L2 & S2 & P2 & Z2 & ->).
  assert (length l1 = length l2) as El by lia.
  assert (∀ j, j ≤ length l1 → take j l1 = take j l2) as Et.
  { induction j as [|j IH]; intros Hj; [done|]. specialize (IH ltac:(lia)).
    destruct (lookup_lt_is_Some_2 l1 j) as [x Hx]; [lia|]. destruct (lookup_lt_is_Some_2 l2 j) as [y Hy]; [lia|].
    rewrite (take_S_r _ _ _ Hx), (take_S_r _ _ _ Hy), IH. do 2 f_equal.
    specialize (S1 _ _ Hx). specialize (S2 _ _ Hy). rewrite IH, El in S1. by eapply next_cell_unique. }
  assert (l1 = l2) as ->.
  { specialize (Et (length l1) ltac:(done)). rewrite El in Et at 2. by rewrite !firstn_all in Et. }
  do 2 f_equal. eapply size_kept_unique; [|exact Z1|exact Z2]. intros j Hj. eapply Hc; [by apply P1|by apply P2].
Qed.

Lemma cpt_unique row col (Z : gset nat) a b : compactness row col Z a → compactness row col Z b → a = b.
Proof.
  unfold compactness. case_decide; [|congruence]. intros [(x & Hx & <-) M1] [(y & Hy & <-) M2].
  specialize (M1 _ Hy). specialize (M2 _ Hx). lia.
Qed.

(** The sequence of coarse cells. *)
Lemma free_unique (aggl l1 l2 : list bool) (P : nat → Prop) : length l1 = length aggl → length l2 = length aggl →
  (∀ x, is_free l1 x ↔ P x) → (∀ x, is_free l2 x ↔ P x) → l1 = l2.
Proof.
  intros E1 E2 F1 F2. apply list_eq_same_length with (length aggl); [done|done|].
  intros i x y _ Hx Hy. specialize (F1 i). specialize (F2 i). unfold is_free in *. rewrite Hx in F1. rewrite Hy in F2.
  destruct x, y; [done| | |done]; naive_solver.
Qed.
Lemma made_unique (cpt : gset nat → Z → Prop) aggl p Xs Ys : (∀ Z a b, cpt Z a → cpt Z b → a = b) →
  made ip g prio cpt aggl p Xs → made ip g prio cpt aggl p Ys → Xs = Ys.
Proof.
  intros Hc H1. revert Ys. induction H1 as [aggl p Hn|aggl p seed p1 X K dn p2 aggl' Xs T G Hd F L E M IH]; intros Ys H2.
  - inversion H2 as [|? ? s ? ? ? ? ? ? ? T]; [done|]. subst. exfalso.
    match goal with HG : grown_from _ _ _ _ _ _ _ _ |- _ => destruct HG as [Hf _] end. by eapply Hn.
  - inversion H2 as [? ? Hn|? ? seed' p1' X' K' dn' p2' aggl2 Ys' T' G' Hd' F' L' E' M']; subst.
    { exfalso. destruct G as [Hf _]. by eapply Hn. }
    destruct (takes_unique _ _ _ _ _ _ _ _ T T') as [<- <-].
    rewrite <- (grown_unique _ _ _ _ _ _ Hc G G') in *.
    rewrite <- (hood_unique _ _ _ _ _ _ Hd Hd') in *.
    pose proof (fed_unique _ _ _ _ _ _ _ F F') as <-.
    f_equal. apply IH. rewrite (free_unique aggl aggl' aggl2 _ L L' E E'). done.
Qed.
End grow.
End det.
