(** * HashT: the iteration order of unordered containers does not matter (C26) *)

From Verif Require Import Lib PairsP Spec Main.

(** ** Outcomes under two orders *)

(** What succeeds on the left gives the same on the right. *)
Definition le_ok {X} (a b : res X) : Prop := ∀ x, a = Ok x → b = Ok x.

Lemma le_refl {X} (a : res X) : le_ok a a.
Proof. by intros x. Qed.
Lemma le_bind {X Y} (a b : res X) (f g : X → res Y) :
  le_ok a b → (∀ x, a = Ok x → le_ok (f x) (g x)) → le_ok (x ← a; f x) (x ← b; g x).
Proof.
  intros Hab Hfg y Hy. apply bind_Ok_inv in Hy as (x & Hx & Hy).
  rewrite (Hab _ Hx). simpl. by apply Hfg.
Qed.
Lemma le_foldM {X Y} (f g : Y → X → res Y) l b :
  (∀ b a, a ∈ l → le_ok (f b a) (g b a)) → le_ok (foldM f l b) (foldM g l b).
Proof.
  revert b. induction l as [|a l IH]; intros b Hfg; [apply le_refl|]. simpl.
  apply le_bind; [apply Hfg; left|]. intros b' _. apply IH. intros. apply Hfg. by right.
Qed.
Lemma le_foldM_inv {X Y} (I : Y → Prop) (f g : Y → X → res Y) l b :
  I b → (∀ b a, a ∈ l → I b → le_ok (f b a) (g b a) ∧ okp (f b a) I) → le_ok (foldM f l b) (foldM g l b).
Proof.
  revert b. induction l as [|a l IH]; intros b Hb Hfg; [apply le_refl|]. simpl.
  destruct (Hfg b a) as [H1 H2]; [left|done|].
  apply le_bind; [done|]. intros b' Hb'. rewrite Hb' in H2. apply IH; [done|]. intros. apply Hfg; [by right|done].
Qed.

(** Two different steps can be exchanged. *)
Definition swap_ok {X Y} (f : Y → X → res Y) (l : list X) : Prop :=
  ∀ b x y b1 b2, x ∈ l → y ∈ l → x ≠ y → f b x = Ok b1 → f b1 y = Ok b2 →
    ∃ b', f b y = Ok b' ∧ f b' x = Ok b2.
Lemma foldM_perm_ok {X Y} (f : Y → X → res Y) l k b r :
  swap_ok f l → NoDup l → l ≡ₚ k → foldM f l b = Ok r → foldM f k b = Ok r.
Proof.
  intros Hc Hn Hp. revert b r. induction Hp as [|x l k Hp IH|x y l|l k m Hp1 IH1 Hp2 IH2]; intros b r Hr.
  - done.
  - simpl in *. apply bind_Ok_inv in Hr as (b' & Hb' & Hr). rewrite Hb'. simpl. apply IH; [|by apply NoDup_cons in Hn as [_ ?]|done].
    intros ? ? ? ? ? ? ?. apply Hc; by right.
  - simpl in *. apply bind_Ok_inv in Hr as (b1 & H1 & Hr). apply bind_Ok_inv in Hr as (b2 & H2 & Hr).
    destruct (Hc b y x b1 b2) as (b' & H3 & H4); [left|right; left| |done..|].
    { intros ->. apply NoDup_cons in Hn as [Hn _]. apply Hn. left. }
    rewrite H3. simpl. by rewrite H4.
  - apply IH2; [| |by apply IH1].
    + intros ? ? ? ? ? ? ?. apply Hc; by rewrite Hp1.
    + by rewrite <- Hp1.
Qed.
Lemma le_foldM_perm {X Y} (f : Y → X → res Y) l k b :
  swap_ok f l → NoDup l → l ≡ₚ k → le_ok (foldM f l b) (foldM f k b).
Proof. intros ? ? ? r. by apply foldM_perm_ok. Qed.

(** The same for states satisfying [I]. *)
Lemma foldM_perm_in {X Y} (I : Y → Prop) (f : Y → X → res Y) l k b r :
  (∀ b x b1, x ∈ l → I b → f b x = Ok b1 → I b1) →
  (∀ b x y b1 b2, I b → x ∈ l → y ∈ l → x ≠ y → f b x = Ok b1 → f b1 y = Ok b2 → ∃ b', f b y = Ok b' ∧ f b' x = Ok b2) →
  I b → NoDup l → l ≡ₚ k → foldM f l b = Ok r → foldM f k b = Ok r.
Proof.
  intros HI Hc Hb Hn Hp. revert b r Hb. induction Hp as [|x l k Hp IH|x y l|l k m Hp1 IH1 Hp2 IH2]; intros b r Hb Hr.
  - done.
  - simpl in *. apply bind_Ok_inv in Hr as (b' & Hb' & Hr). rewrite Hb'. simpl. apply IH; [| |by apply NoDup_cons in Hn as [_ ?]| |done].
    + intros ? ? ? ?. apply HI. by right.
    + intros ? ? ? ? ? ? ? ?. apply Hc; [done|by right..].
    + eapply HI; [left|done..].
  - simpl in *. apply bind_Ok_inv in Hr as (b1 & H1 & Hr). apply bind_Ok_inv in Hr as (b2 & H2 & Hr).
    destruct (Hc b y x b1 b2) as (b' & H3 & H4); [done|left|right; left| |done..|].
    { intros ->. apply NoDup_cons in Hn as [Hn _]. apply Hn. left. }
    rewrite H3. simpl. by rewrite H4.
  - apply IH2; [| | |done|by apply IH1].
    + intros ? ? ? ?. apply HI. by rewrite Hp1.
    + intros ? ? ? ? ? ? ? ?. apply Hc; [done|by rewrite Hp1..].
    + by rewrite <- Hp1.
Qed.

(** A total commuting step. *)
Lemma swap_pure {X Y} (f : Y → X → res Y) (e : X → res unit) (p : Y → X → Y) l :
  (∀ b x, f b x = (_ ← e x; Ok (p b x))) → (∀ b x y, x ∈ l → y ∈ l → x ≠ y → p (p b x) y = p (p b y) x) → swap_ok f l.
Proof.
  intros Hf Hp b x y b1 b2 Hx Hy Hn H1 H2. rewrite Hf in H1, H2.
  apply bind_Ok_inv in H1 as (u & E1 & [= <-]). apply bind_Ok_inv in H2 as (v & E2 & [= <-]).
  exists (p b y). rewrite !Hf, E1, E2. simpl. split; [done|]. f_equal. symmetry. by apply Hp.
Qed.

Ltac inv_ok := repeat match goal with
  | H : Ok _ = Ok _ |- _ => injection H as H; try subst
  | H : (mbind _ _) = Ok _ |- _ => let x := fresh "u" in let E := fresh "E" in apply bind_Ok_inv in H as (x & E & H)
  | H : Err _ = Ok _ |- _ => done
  end.

Section hset.
Context (H1 H2 : HashOrder).
Lemma hset_12 s X : @hset H1 s X ≡ₚ @hset H2 s X.
Proof. by rewrite !hset_perm. Qed.
Lemma hkeys_12 {V} s (m : gmap nat V) : @hkeys H1 V s m ≡ₚ @hkeys H2 V s m.
Proof. unfold hkeys. by rewrite !hord_perm. Qed.
Lemma hset_nd (H : HashOrder) s X : NoDup (hset s X).
Proof. rewrite hset_perm. apply NoDup_elements. Qed.
Lemma hkeys_nd (H : HashOrder) {V} s (m : gmap nat V) : NoDup (hkeys s m).
Proof. unfold hkeys. rewrite hord_perm. apply NoDup_elements. Qed.
Lemma le_hset {Y} (f : Y → nat → res Y) s X b :
  swap_ok f (@hset H1 s X) → le_ok (foldM f (@hset H1 s X) b) (foldM f (@hset H2 s X) b).
Proof. intros. apply le_foldM_perm; [done|apply hset_nd|apply hset_12]. Qed.
Lemma le_hkeys {Y V} (f : Y → nat → res Y) s (m : gmap nat V) b :
  swap_ok f (@hkeys H1 V s m) → le_ok (foldM f (@hkeys H1 V s m) b) (foldM f (@hkeys H2 V s m) b).
Proof. intros. apply le_foldM_perm; [done|apply hkeys_nd|apply hkeys_12]. Qed.
(** At most one element: nothing to permute. *)
Lemma hset_small s (X : gset nat) : size X ≤ 1 → @hset H1 s X = @hset H2 s X.
Proof.
  intros Hs. pose proof (hset_12 s X) as Hp. pose proof (@hset_length H1 s X) as Hl.
  destruct (@hset H1 s X) as [|x [|y l]]; simpl in Hl; [| |lia].
  - by apply Permutation_nil_l in Hp.
  - apply Permutation_singleton_l in Hp. done.
Qed.
Lemma hkeys_small {V} s (m : gmap nat V) : size (dom m : gset nat) ≤ 1 → @hkeys H1 V s m = @hkeys H2 V s m.
Proof. apply (hset_small s (dom m)). Qed.
End hset.

(** ** Commuting operations *)

Section ops.
Context {A : Arith}.
Context (P : W → Prop) (WO : weak_order (@wlt A) P).

Lemma vset_swap {X} (v : list X) i j x y v1 v2 : i ≠ j → vset v i x = Ok v1 → vset v1 j y = Ok v2 →
  ∃ v', vset v j y = Ok v' ∧ vset v' i x = Ok v2.
Proof using.
  clear. unfold vset. intros Hij. destruct (decide (i < length v)) as [Hi|]; [|done]. intros [= <-].
  rewrite insert_length. destruct (decide (j < length v)) as [Hj|]; [|done]. intros [= <-].
  eexists. split; [done|]. rewrite insert_length, decide_True by done. f_equal. by apply list_insert_commute.
Qed.
Lemma vget_vset_ne {X} (v v1 : list X) i j x : i ≠ j → vset v i x = Ok v1 → vget v1 j = vget v j.
Proof using.
  clear. unfold vset, vget. intros Hij. destruct (decide (i < length v)) as [Hi|]; [|done]. intros [= <-].
  by rewrite list_lookup_insert_ne.
Qed.

(** Equivalent pairs compare alike. *)
Lemma pgt_eqv p q r : P p.2 → P q.2 → P r.2 → pair_gt p q = false → pair_gt q p = false →
  pair_gt p r = pair_gt q r ∧ pair_gt r p = pair_gt r q.
Proof using WO.
  intros Pp Pq Pr Hpq Hqp.
  pose proof (pair_gt_idx _ _ Hpq Hqp) as Hi.
  assert (wlt p.2 q.2 = false ∧ wlt q.2 p.2 = false) as [Ha Hb].
  { unfold pair_gt in Hpq, Hqp. by destruct (wlt q.2 p.2), (wlt p.2 q.2). }
  assert (∀ x, P x → wlt p.2 x = wlt q.2 x ∧ wlt x p.2 = wlt x q.2) as Hw.
  { intros x Px. split; apply eq_true_iff_eq; split; intros Hx.
    - destruct (wo_neg _ _ WO p.2 q.2 x) as [?|?]; try done. congruence.
    - destruct (wo_neg _ _ WO q.2 p.2 x) as [?|?]; try done. congruence.
    - destruct (wo_neg _ _ WO x q.2 p.2) as [?|?]; try done. congruence.
    - destruct (wo_neg _ _ WO x p.2 q.2) as [?|?]; try done. congruence. }
  unfold pair_gt. destruct (Hw r.2) as [-> ->]; [done|]. by rewrite Hi.
Qed.

Lemma pset_swap a b l : P a.2 → P b.2 → Forall (λ p, P p.2) l → a.1 ≠ b.1 →
  pset_insert a (pset_insert b l) = pset_insert b (pset_insert a l).
Proof using WO.
  intros Pa Pb Pl.
  assert (∀ a b, P a.2 → P b.2 → pair_gt a b = true → pset_insert a (pset_insert b l) = pset_insert b (pset_insert a l)) as Hgt.
  { clear a b Pa Pb. intros a b Pa Pb Hab. pose proof (pair_gt_asym P WO _ _ Pa Pb Hab) as Hba.
    induction Pl as [|x l Px Pl IH]; simpl; [by rewrite Hab, Hba|].
    destruct (pair_gt b x) eqn:Hbx.
    - rewrite (pair_gt_trans P WO a b x) by done. simpl. by rewrite Hab, Hba, Hbx.
    - destruct (pair_gt x b) eqn:Hxb.
      + simpl. destruct (pair_gt a x) eqn:Hax.
        * simpl. by rewrite Hba, Hab, Hbx, Hxb.
        * destruct (pair_gt x a) eqn:Hxa; simpl; rewrite Hbx, Hxb; [by rewrite IH|done].
      + destruct (pgt_eqv b x a) as [_ He]; [done..|]. rewrite <- He, Hab. simpl. rewrite Hba, Hab.
        by rewrite <- He, Hab, Hbx, Hxb. }
  intros Hi. destruct (pair_gt a b) eqn:Hab; [by apply Hgt|].
  destruct (pair_gt b a) eqn:Hba; [symmetry; by apply Hgt|]. by apply pair_gt_idx in Hab.
Qed.
Lemma pset_P a l : P a.2 → Forall (λ p, P p.2) l → Forall (λ p, P p.2) (pset_insert a l).
Proof using.
  clear. intros Pa. induction 1 as [|x l Px Pl IH]; simpl; [by repeat constructor|].
  destruct (pair_gt a x); [by repeat constructor|]. destruct (pair_gt x a); by constructor.
Qed.

Ltac bd := repeat (cbn [byord_insert bymap_insert]; case_bool_decide; try (exfalso; lia)).
Lemma byord_swap k x k' y m : byord_insert k x (byord_insert k' y m) = byord_insert k' y (byord_insert k x m).
Proof using.
  clear. induction m as [|[z s] m IH].
  - cbn [byord_insert]. bd; try done. replace k with k' by lia. by rewrite (union_comm_L {[x]}).
  - cbn [byord_insert]. bd; try done; try (by rewrite IH).
    + replace k with k' by lia. by rewrite (union_comm_L {[x]}).
    + do 2 f_equal. rewrite !union_assoc_L. by rewrite (union_comm_L {[x]}).
Qed.

Definition bymap_P (m : list (Z * list (nat * W))) : Prop := Forall (λ e, Forall (λ p, P p.2) e.2) m.
Lemma bymap_insert_P k a m : P a.2 → bymap_P m → bymap_P (bymap_insert k a m).
Proof using.
  clear. intros Pa. induction 1 as [|[z s] m Ps Pm IH]; [by repeat constructor|]. cbn [bymap_insert].
  repeat case_bool_decide; repeat constructor; try done. by apply pset_P.
Qed.
Lemma bymap_swap k a k' b m : P a.2 → P b.2 → bymap_P m → a.1 ≠ b.1 →
  bymap_insert k a (bymap_insert k' b m) = bymap_insert k' b (bymap_insert k a m).
Proof using WO.
  intros Pa Pb Pm Hi. induction Pm as [|[z s] m Ps Pm IH].
  - cbn [bymap_insert]. bd; try done. replace k with k' by lia. do 2 f_equal. by apply (pset_swap a b []).
  - cbn [bymap_insert]. bd; try done; try (by rewrite IH).
    + replace k with k' by lia. do 2 f_equal. by apply (pset_swap a b []).
    + do 2 f_equal. by apply pset_swap.
Qed.

End ops.

(** Maxima and minima of distances. *)
Section total.
Context {A : Arith} (D : W → Prop).
Context (IR : ∀ x : W, wlt x x = false) (TR : ∀ x y z : W, wlt x y = true → wlt y z = true → wlt x z = true).
Context (TO : ∀ a b m : W, D a → D b → wlt m a = true ∧ wlt m b = true ∨ wlt a m = true ∧ wlt b m = true →
  wlt a b = false → wlt b a = false → a = b).
Lemma wmax_swap (m a b : W) : D a → D b →
  (if wlt (if wlt m a then a else m) b then b else if wlt m a then a else m)
  = (if wlt (if wlt m b then b else m) a then a else if wlt m b then b else m).
Proof using IR TR TO.
  intros Da Db. destruct (wlt m a) eqn:Ea, (wlt m b) eqn:Eb; rewrite ?Ea, ?Eb; try done.
  - destruct (wlt a b) eqn:Eab, (wlt b a) eqn:Eba; try done.
    + pose proof (TR a b a Eab Eba) as Hx. by rewrite IR in Hx.
    + apply (TO a b m); auto.
  - destruct (wlt a b) eqn:Eab; [|done]. pose proof (TR m a b Ea Eab) as Hx. congruence.
  - destruct (wlt b a) eqn:Eba; [|done]. pose proof (TR m b a Eb Eba) as Hx. congruence.
Qed.
Lemma wmin_swap (m a b : W) : D a → D b →
  (if wlt b (if wlt a m then a else m) then b else if wlt a m then a else m)
  = (if wlt a (if wlt b m then b else m) then a else if wlt b m then b else m).
Proof using IR TR TO.
  intros Da Db. destruct (wlt a m) eqn:Ea, (wlt b m) eqn:Eb; rewrite ?Ea, ?Eb; try done.
  - destruct (wlt a b) eqn:Eab, (wlt b a) eqn:Eba; try done.
    + pose proof (TR a b a Eab Eba) as Hx. by rewrite IR in Hx.
    + apply (TO a b m); auto.
  - destruct (wlt b a) eqn:Eba; [|done]. pose proof (TR b a m Eba Ea) as Hx. congruence.
  - destruct (wlt a b) eqn:Eab; [|done]. pose proof (TR a b m Eab Eb) as Hx. congruence.
Qed.
Lemma minmax_swap mm a b : D a → D b → minmax_step (minmax_step mm a) b = minmax_step (minmax_step mm b) a.
Proof using IR TR TO.
  intros Da Db.
  unfold minmax_step. destruct (wlt wtol a), (wlt wtol b); simpl; try done. f_equal; [by apply wmin_swap|by apply wmax_swap].
Qed.
End total.
