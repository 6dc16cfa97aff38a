(** * GridT: cells laid out on a grid, and the blocks of two cells in each
    direction (C67) *)

From Coq Require Import ZArith Lia ZifyNat.
From Verif Require Import Base Spec.
Ltac Zify.zify_post_hook ::= Z.to_euclidean_division_equations.

(** ** Counting the axes which satisfy a test *)
Definition cnt (d : nat) (P : nat → bool) : nat := length (filter (λ k, P k = true) (seq 0 d)).

Lemma cnt_S d P : cnt (S d) P = cnt d P + (if P d then 1 else 0).
Proof.
  unfold cnt. rewrite seq_S, filter_app, app_length. simpl.
  destruct (P d) eqn:HP.
  - rewrite filter_cons_True by done. done.
  - rewrite filter_cons_False by (by rewrite HP). done.
Qed.
Lemma cnt_0 P : cnt 0 P = 0.
Proof. done. Qed.

Lemma cnt_mono d P Q : (∀ k, k < d → P k = true → Q k = true) → cnt d P ≤ cnt d Q.
Proof.
  induction d as [|d IH]; intros Hpq; [done|]. rewrite !cnt_S.
  pose proof (IH (λ k Hk, Hpq k (Nat.lt_lt_succ_r _ _ Hk))). pose proof (Hpq d (Nat.lt_succ_diag_r d)).
  destruct (P d), (Q d); lia.
Qed.
Lemma cnt_ext d P Q : (∀ k, k < d → P k = Q k) → cnt d P = cnt d Q.
Proof. intros He. apply Nat.le_antisymm; apply cnt_mono; intros k Hk HP; specialize (He k Hk); congruence. Qed.
Lemma cnt_le d P : cnt d P ≤ d.
Proof. induction d as [|d IH]; [done|]. rewrite cnt_S. destruct (P d); lia. Qed.
Lemma cnt_all d P : cnt d P = d ↔ ∀ k, k < d → P k = true.
Proof.
  induction d as [|d IH]; [split; [lia|done]|]. rewrite cnt_S. pose proof (cnt_le d P). split.
  - intros He k Hk. destruct (P d) eqn:HP; [|lia]. assert (cnt d P = d) as Hd by lia.
    destruct (decide (k = d)) as [->|]; [done|]. apply IH; [done|lia].
  - intros Ha. rewrite (Ha d) by lia. rewrite (proj2 IH); [lia|]. intros k Hk. apply Ha. lia.
Qed.
(** All but one. *)
Lemma cnt_but d P j : (∀ k, k < d → k ≠ j → P k = true) → d ≤ S (cnt d P).
Proof.
  induction d as [|d IH]; intros Ha; [lia|]. rewrite cnt_S.
  destruct (decide (d = j)) as [->|Hj].
  - assert (cnt j P = j); [|destruct (P j); lia]. apply cnt_all. intros k Hk. apply Ha; lia.
  - rewrite Ha by lia. assert (d ≤ S (cnt d P)); [|lia]. apply IH. intros k Hk. apply Ha. lia.
Qed.
Lemma cnt_two d P i j : i < d → j < d → P i = false → P j = false → i ≠ j → S (cnt d P) < d.
Proof.
  induction d as [|d IH]; intros Hi Hj Pi Pj Hij; [lia|]. rewrite cnt_S.
  assert (∀ k, k < d → P k = false → cnt d P < d) as Hone.
  { intros k Hk Pk. pose proof (cnt_le d P). destruct (decide (cnt d P = d)) as [He|]; [|lia].
    rewrite cnt_all in He. rewrite He in Pk; done. }
  destruct (decide (i = d)) as [->|], (decide (j = d)) as [->|]; [lia| | |].
  - rewrite Pi. specialize (Hone j ltac:(lia) Pj). lia.
  - rewrite Pj. specialize (Hone i ltac:(lia) Pi). lia.
  - specialize (IH ltac:(lia) ltac:(lia) Pi Pj Hij). destruct (P d); lia.
Qed.
(** A test which holds where another one does and as often holds nowhere else. *)
Lemma cnt_same d P Q : (∀ k, k < d → P k = true → Q k = true) → cnt d Q ≤ cnt d P →
  ∀ k, k < d → Q k = true → P k = true.
Proof.
  induction d as [|d IH]; intros Hpq Hc k Hk HQ; [lia|]. rewrite !cnt_S in Hc.
  assert (∀ k, k < d → P k = true → Q k = true) as Hpq' by (intros; apply Hpq; [lia|done]).
  pose proof (cnt_mono d P Q Hpq'). pose proof (Hpq d ltac:(lia)) as Hd.
  assert (cnt d Q ≤ cnt d P ∧ (Q d = true → P d = true)) as [H1 H2].
  { destruct (P d) eqn:E1, (Q d) eqn:E2; split; try done; lia. }
  destruct (decide (k = d)) as [->|]; [by apply H2|]. apply (IH Hpq' H1 k); [lia|done].
Qed.

Lemma cnt_lt d P Q k : (∀ k, k < d → P k = true → Q k = true) → k < d → P k = false → Q k = true → cnt d P < cnt d Q.
Proof.
  intros Hpq Hk HP HQ. destruct (decide (cnt d Q ≤ cnt d P)) as [Hc|]; [|lia].
  rewrite (cnt_same d P Q Hpq Hc k Hk HQ) in HP. done.
Qed.

(** ** The grid *)
Section grid.
Context (n d : nat) (half : nat → nat) (co : nat → nat → nat).
Hypothesis Hlt : ∀ c k, c < n → k < d → co c k < 2 * half k.
Hypothesis Hsur : ∀ f : nat → nat, (∀ k, k < d → f k < 2 * half k) → ∃ c, c < n ∧ ∀ k, k < d → co c k = f k.
Hypothesis Hinj : ∀ c c', c < n → c' < n → (∀ k, k < d → co c k = co c' k) → c = c'.

(** [y] is beside [x] along axis [k]. *)
Definition step_on (k x y : nat) : Prop :=
  x < n ∧ y < n ∧ k < d ∧ (co y k = S (co x k) ∨ co x k = S (co y k)) ∧
  ∀ j, j < d → j ≠ k → co x j = co y j.
Definition step (x y : nat) : Prop := ∃ k, step_on k x y.
Definition same (x y : nat) : Prop := ∀ k, k < d → co x k / 2 = co y k / 2.
Definition onb (x k : nat) : bool := (co x k =? 0) || (co x k =? 2 * half k - 1).
Definition touch (x k : nat) : bool := (co x k / 2 =? 0) || (co x k / 2 =? half k - 1).
Definition bf (x : nat) : nat := cnt d (onb x).
Definition cls (x : nat) : nat := cnt d (touch x).

Lemma onb_true x k : onb x k = true ↔ co x k = 0 ∨ co x k = 2 * half k - 1.
Proof. unfold onb. rewrite orb_true_iff, !Nat.eqb_eq. done. Qed.
Lemma onb_false x k : onb x k = false ↔ co x k ≠ 0 ∧ co x k ≠ 2 * half k - 1.
Proof. unfold onb. rewrite orb_false_iff, !Nat.eqb_neq. done. Qed.
Lemma touch_true x k : touch x k = true ↔ co x k / 2 = 0 ∨ co x k / 2 = half k - 1.
Proof. unfold touch. rewrite orb_true_iff, !Nat.eqb_eq. done. Qed.

#[local] Instance same_dec x y : Decision (same x y).
Proof.
  clear - d co. refine (cast_if (decide (Forall (λ k, co x k / 2 = co y k / 2) (seq 0 d)))).
  - intros k Hk. rewrite Forall_forall in f. apply f. apply elem_of_seq. lia.
  - intros Hs. apply n. apply Forall_forall. intros k Hk%elem_of_seq. apply Hs. lia.
Defined.

Lemma same_refl x : same x x.
Proof. done. Qed.
Lemma same_sym x y : same x y → same y x.
Proof. intros Hs k Hk. symmetry. by apply Hs. Qed.
Lemma same_trans x y z : same x y → same y z → same x z.
Proof. intros H1 H2 k Hk. rewrite H1 by done. by apply H2. Qed.

Lemma step_sym k x y : step_on k x y → step_on k y x.
Proof. intros (?&?&?&Ho&Hj). split_and!; try done; [tauto|]. intros j ??. symmetry. by apply Hj. Qed.

Lemma onb_touch x k : x < n → k < d → onb x k = true → touch x k = true.
Proof. intros Hx Hk. rewrite onb_true, touch_true. specialize (Hlt x k Hx Hk). intros [-> | ->]; lia. Qed.
Lemma bf_cls x : x < n → bf x ≤ cls x.
Proof. intros Hx. apply cnt_mono. intros k Hk. by apply onb_touch. Qed.
Lemma cls_same x y : same x y → cls x = cls y.
Proof. intros Hs. apply cnt_ext. intros k Hk. unfold touch. by rewrite Hs. Qed.

(** The cell with another coordinate along an axis. *)
Lemma put_ex x k v : x < n → v < 2 * half k →
  ∃ y, y < n ∧ (k < d → co y k = v) ∧ ∀ j, j < d → j ≠ k → co y j = co x j.
Proof.
  intros Hx Hv. destruct (Hsur (λ j, if decide (j = k) then v else co x j)) as (y & Hy & Hc).
  { intros j Hj. destruct (decide (j = k)) as [->|]; [done|]. by apply Hlt. }
  exists y. split_and!; [done| |].
  - intros Hk. rewrite Hc by done. by rewrite decide_True.
  - intros j Hj Hjk. rewrite Hc by done. by rewrite decide_False.
Qed.

(** A step leads to the same block or to another one along its axis. *)
Lemma step_same k x y : step_on k x y → same x y ↔ co x k / 2 = co y k / 2.
Proof.
  intros (?&?&Hk&?&Hj). split; [intros Hs; by apply Hs|]. intros He j Hjd.
  destruct (decide (j = k)) as [->|]; [done|]. by rewrite Hj.
Qed.

Lemma step_axis k k' x y : step_on k x y → step_on k' x y → k = k'.
Proof.
  intros (?&?&?&Ho&_) (?&?&?&_&Hj). destruct (decide (k = k')) as [|]; [done|].
  specialize (Hj k ltac:(done) ltac:(done)). lia.
Qed.

(** Out of the block along an axis there is at most one cell; there is none at
    the boundary. *)
Lemma out_unique k x y z : step_on k x y → ¬ same x y → step_on k x z → ¬ same x z → y = z.
Proof.
  intros Hy Hny Hz Hnz. rewrite (step_same k) in Hny, Hnz by done.
  destruct Hy as (?&?&?&Ho&Hj), Hz as (?&?&?&Ho'&Hj'). apply Hinj; [done..|].
  intros j Hjd. destruct (decide (j = k)) as [->|]; [lia|]. rewrite <- Hj, <- Hj' by done. done.
Qed.
Lemma out_onb k x y : step_on k x y → ¬ same x y → onb x k = false.
Proof.
  intros Hy Hny. rewrite (step_same k) in Hny by done. destruct Hy as (Hx&Hy&Hk&Ho&Hj).
  rewrite onb_false. pose proof (Hlt x k Hx Hk). pose proof (Hlt y k Hy Hk). lia.
Qed.
Lemma onb_out k x : x < n → k < d → onb x k = false → ∃ y, step_on k x y ∧ ¬ same x y.
Proof.
  intros Hx Hk Hf%onb_false. pose proof (Hlt x k Hx Hk) as Hl.
  set (v := if Nat.even (co x k) then co x k - 1 else S (co x k)).
  assert (v < 2 * half k ∧ (v = S (co x k) ∨ co x k = S v) ∧ co x k / 2 ≠ v / 2) as (H1 & H2 & H3).
  { unfold v. destruct (Nat.even (co x k)) eqn:He.
    - apply Nat.even_spec in He as [m Hm]. lia.
    - assert (Nat.odd (co x k) = true) as Ho by (by rewrite <- Nat.negb_even, He).
      apply Nat.odd_spec in Ho as [m Hm]. lia. }
  destruct (put_ex x k v Hx H1) as (y & Hy & Hyk & Hyj). specialize (Hyk Hk).
  assert (step_on k x y) as Hs.
  { split_and!; [done..| |]; [rewrite Hyk; tauto|]. intros j ??. symmetry. by apply Hyj. }
  exists y. split; [done|]. rewrite (step_same k) by done. by rewrite Hyk.
Qed.

(** The cell of the same block along an axis. *)
Lemma mate_ex k x : x < n → k < d → ∃ y, step_on k x y ∧ same x y.
Proof.
  intros Hx Hk. pose proof (Hlt x k Hx Hk) as Hl.
  set (v := if Nat.even (co x k) then S (co x k) else co x k - 1).
  assert (v < 2 * half k ∧ (v = S (co x k) ∨ co x k = S v) ∧ co x k / 2 = v / 2) as (H1 & H2 & H3).
  { unfold v. destruct (Nat.even (co x k)) eqn:He.
    - apply Nat.even_spec in He as [m Hm]. lia.
    - assert (Nat.odd (co x k) = true) as Ho by (by rewrite <- Nat.negb_even, He).
      apply Nat.odd_spec in Ho as [m Hm]. lia. }
  destruct (put_ex x k v Hx H1) as (y & Hy & Hyk & Hyj). specialize (Hyk Hk).
  assert (step_on k x y) as Hs.
  { split_and!; [done..| |]; [rewrite Hyk; tauto|]. intros j ??. symmetry. by apply Hyj. }
  exists y. split; [done|]. rewrite (step_same k) by done. by rewrite Hyk.
Qed.
Lemma mate_unique k x y z : step_on k x y → same x y → step_on k x z → same x z → y = z.
Proof.
  intros Hy Hny Hz Hnz. rewrite (step_same k) in Hny, Hnz by done.
  destruct Hy as (?&?&?&Ho&Hj), Hz as (?&?&?&Ho'&Hj'). apply Hinj; [done..|].
  intros j Hjd. destruct (decide (j = k)) as [->|]; [lia|]. rewrite <- Hj, <- Hj' by done. done.
Qed.
(** Cells of a block agree along an axis or are on both sides. *)
Lemma same_two x y z k : same x y → same x z → k < d → co y k ≠ co x k → co z k ≠ co x k → co y k = co z k.
Proof. intros H1 H2 Hk. specialize (H1 k Hk). specialize (H2 k Hk). lia. Qed.

(** A cell outside of a block has at most one neighbour in it. *)
Lemma out_one x y y' : ¬ same x y → step x y → step x y' → same y y' → y = y'.
Proof.
  intros Hn [k Hk] [k' Hk'] Hs.
  assert (k = k') as <-.
  { destruct (decide (k = k')) as [|Hkk]; [done|]. destruct Hn. rewrite (step_same k) by done.
    destruct Hk as (?&?&?&?&?), Hk' as (?&?&?&?&Hj'). rewrite (Hj' k) by done. symmetry. by apply Hs. }
  apply (out_unique k x); [done..|]. intros Hs'. apply Hn. eapply same_trans; [done|]. by apply same_sym.
Qed.

(** With all axes but one at the boundary there is at most one cell out of the
    block. *)
Lemma out_last x y z : d ≤ S (bf x) → step x y → ¬ same x y → step x z → ¬ same x z → y = z.
Proof.
  intros Hb [k Hk] Hy [k' Hk'] Hz. destruct (decide (k = k')) as [<-|Hkk]; [by eapply out_unique|].
  assert (S (bf x) < d); [|lia]. unfold bf. eapply (cnt_two _ _ k k'); try done.
  - by destruct Hk as (?&?&?&?).
  - by destruct Hk' as (?&?&?&?).
  - by eapply out_onb.
  - by eapply out_onb.
Qed.
Lemma out_corner x y : bf x = d → step x y → ¬ same x y → False.
Proof.
  intros Hb [k Hk] Hy. unfold bf in Hb. rewrite cnt_all in Hb.
  pose proof (out_onb k x y Hk Hy) as Ho. rewrite Hb in Ho; [done|]. by destruct Hk as (?&?&?&?).
Qed.

(** Corners. *)
Lemma corner_ex x : x < n → ∃ c, c < n ∧ bf c = d.
Proof.
  intros Hx. destruct (Hsur (λ _, 0)) as (c & Hc & H0).
  { intros k Hk. pose proof (Hlt x k Hx Hk). lia. }
  exists c. split; [done|]. apply cnt_all. intros k Hk. rewrite onb_true, H0 by done. by left.
Qed.

(** A block has a cell at the boundary along all the axes along which it
    touches it. *)
Lemma cls_cell x : x < n → ∃ y, y < n ∧ same x y ∧ bf y = cls x.
Proof.
  intros Hx.
  set (f k := if decide (co x k / 2 = 0) then 0 else if decide (co x k / 2 = half k - 1) then 2 * half k - 1 else co x k).
  destruct (Hsur f) as (y & Hy & Hc).
  { intros k Hk. pose proof (Hlt x k Hx Hk). unfold f. repeat case_decide; lia. }
  exists y. split; [done|]. assert (same x y) as Hs.
  { intros k Hk. rewrite Hc by done. pose proof (Hlt x k Hx Hk). unfold f. repeat case_decide; lia. }
  split; [done|]. apply Nat.le_antisymm; [rewrite (cls_same x y Hs); by apply bf_cls|].
  apply cnt_mono. intros k Hk Ht%touch_true. rewrite onb_true, Hc by done. unfold f.
  pose proof (Hlt x k Hx Hk). repeat case_decide; lia.
Qed.

(** The cells at the boundary along [k] axes are connected to the corners. *)
Section sweep.
Context (P : nat → Prop) (b : nat).
Hypothesis Hb : S b ≤ d.
Hypothesis Hcl : ∀ x y, P x → step x y → b ≤ bf y → P y.

(** Along an axis. *)
Lemma sweep_line k x z : P x → x < n → z < n → k < d → (∀ j, j < d → j ≠ k → co z j = co x j) →
  b ≤ cnt d (λ j, if decide (j = k) then false else onb x j) → P z.
Proof using Hlt Hsur Hinj Hcl Hb.
  intros Px Hx Hz Hk Hj Hc.
  assert (∀ y, (∀ j, j < d → j ≠ k → co y j = co x j) → b ≤ bf y) as Hy.
  { intros y Hy. etrans; [exact Hc|]. apply cnt_mono. intros j Hjd. destruct (decide (j = k)); [done|].
    intros Ho. unfold onb in *. by rewrite Hy. }
  assert (∀ m v, v + m = co x k ∨ v = co x k + m → v < 2 * half k → ∀ y, y < n → co y k = v →
    (∀ j, j < d → j ≠ k → co y j = co x j) → P y) as Hm.
  { induction m as [|m IH]; intros v Hv Hvl y Hyn Hyk Hyj.
    - replace y with x; [done|]. apply Hinj; [done..|]. intros j Hjd.
      destruct (decide (j = k)) as [->|]; [lia|]. symmetry. by apply Hyj.
    - set (v' := if decide (v + S m = co x k) then S v else v - 1).
      assert (v' + m = co x k ∨ v' = co x k + m) as H1 by (unfold v'; case_decide; lia).
      assert (v = S v' ∨ v' = S v) as H3 by (unfold v'; case_decide; lia).
      assert (v' < 2 * half k) as H2.
      { pose proof (Hlt x k Hx Hk). unfold v'; case_decide; lia. }
      destruct (put_ex x k v' Hx H2) as (y' & Hy' & Hyk' & Hyj'). specialize (Hyk' Hk).
      apply (Hcl y'); [by eapply (IH v')| |by apply Hy].
      exists k. split_and!; [done..| |]; [lia|]. intros j ??. rewrite Hyj, Hyj' by done. done. }
  set (m := if decide (co x k ≤ co z k) then co z k - co x k else co x k - co z k).
  apply (Hm m (co z k)); [|by apply Hlt|done..]. unfold m. case_decide; lia.
Qed.

Lemma sweep x c : P c → c < n → bf c = d → x < n → b ≤ bf x → P x.
Proof using Hlt Hsur Hinj Hcl Hb.
  intros Pc Hc Hbc Hx Hbx. unfold bf in Hbc. rewrite cnt_all in Hbc.
  (* to the corner which is next to [x] *)
  assert (∀ m, m ≤ d → ∃ c', c' < n ∧ P c' ∧
    (∀ j, j < d → onb c' j = true ∧ (j < m → onb x j = true → co c' j = co x j))) as H1.
  { induction m as [|m IH]; intros Hm.
    { exists c. split_and!; [done..|]. intros j Hj. split; [by apply Hbc|lia]. }
    destruct (IH ltac:(lia)) as (c' & Hc' & Pc' & Hcj).
    destruct (onb x m) eqn:Hom.
    2:{ exists c'. split_and!; [done..|]. intros j Hj. split; [by apply Hcj|]. intros Hjm Ho.
        apply Hcj; [done| |done]. destruct (decide (j = m)) as [->|]; [congruence|lia]. }
    destruct (put_ex c' m (co x m) Hc' (Hlt x m Hx ltac:(lia))) as (z & Hz & Hzm & Hzj).
    specialize (Hzm ltac:(lia)).
    exists z. split; [done|]. split.
    - apply (sweep_line m c' z Pc' Hc' Hz ltac:(lia) Hzj).
      assert (d ≤ S (cnt d (λ j, if decide (j = m) then false else onb c' j))); [|lia].
      apply (cnt_but _ _ m). intros k Hk Hkm. rewrite decide_False by done. by apply Hcj.
    - intros j Hj. destruct (decide (j = m)) as [->|Hjm].
      + split; [|done]. rewrite onb_true, Hzm, <- onb_true. done.
      + split; [rewrite onb_true, Hzj, <- onb_true by done; by apply Hcj|].
        intros Hl Ho. rewrite Hzj by done. apply Hcj; [done|lia|done]. }
  destruct (H1 d (le_n _)) as (c1 & Hc1 & Pc1 & Hcj1).
  assert (∀ m, m ≤ d → ∃ c', c' < n ∧ P c' ∧
    (∀ j, j < d → (onb x j = true → co c' j = co x j) ∧ (j < m → co c' j = co x j))) as H2.
  { induction m as [|m IH]; intros Hm.
    { exists c1. split_and!; [done..|]. intros j Hj. split; [by apply (proj2 (Hcj1 j Hj))|lia]. }
    destruct (IH ltac:(lia)) as (c' & Hc' & Pc' & Hcj).
    destruct (onb x m) eqn:Hom.
    { exists c'. split_and!; [done..|]. intros j Hj. split; [by apply Hcj|]. intros Hjm.
      destruct (decide (j = m)) as [->|]; [by apply (proj1 (Hcj m Hj))|apply (proj2 (Hcj j Hj)); lia]. }
    destruct (put_ex c' m (co x m) Hc' (Hlt x m Hx ltac:(lia))) as (z & Hz & Hzm & Hzj).
    specialize (Hzm ltac:(lia)).
    exists z. split; [done|]. split.
    - apply (sweep_line m c' z Pc' Hc' Hz ltac:(lia) Hzj).
      etrans; [exact Hbx|]. apply cnt_mono. intros k Hk Ho.
      destruct (decide (k = m)) as [->|]; [congruence|].
      rewrite onb_true, (proj1 (Hcj k Hk) Ho), <- onb_true. done.
    - intros j Hj. destruct (decide (j = m)) as [->|Hjm]; [done|].
      rewrite Hzj by done. split; [by apply (proj1 (Hcj j Hj))|]. intros Hl. apply (proj2 (Hcj j Hj)). lia. }
  destruct (H2 d (le_n _)) as (c2 & Hc2 & Pc2 & Hcj2).
  replace x with c2; [done|]. apply Hinj; [done..|]. intros k Hk. by apply (proj2 (Hcj2 k Hk)).
Qed.
End sweep.

(** ** Blocks *)

Lemma differ x y : x < n → y < n → x ≠ y → ∃ k, k < d ∧ co x k ≠ co y k.
Proof using Hlt Hsur Hinj.
  intros Hx Hy Hne. destruct (decide (Forall (λ k, co x k = co y k) (seq 0 d))) as [Hf|Hf].
  - destruct Hne. apply Hinj; [done..|]. intros k Hk. rewrite Forall_forall in Hf. apply Hf, elem_of_seq. lia.
  - apply not_Forall_Exists in Hf; [|apply _]. apply Exists_exists in Hf as (k & Hk%elem_of_seq & Hc).
    exists k. split; [lia|done].
Qed.

(** The cells which differ from [s] only along the first [m] axes. *)
Lemma block_list s m : s < n → m ≤ d → ∃ L, NoDup L ∧ length L = 2 ^ m ∧
  ∀ x, x ∈ L ↔ x < n ∧ same s x ∧ ∀ j, m ≤ j → j < d → co x j = co s j.
Proof using Hlt Hsur Hinj.
  intros Hs. induction m as [|m IH]; intros Hm.
  { exists [s]. split; [apply NoDup_singleton|]. split; [done|]. intros x. rewrite elem_of_list_singleton. split.
    - intros ->. split_and!; try done.
    - intros (Hx & _ & Hc). apply Hinj; [done..|]. intros k Hk. apply Hc; [lia|done]. }
  destruct (IH ltac:(lia)) as (L & HL & Hlen & Hin).
  assert (∃ M, Forall2 (λ x y, step_on m x y ∧ same x y) L M) as [M HM].
  { assert (∀ x, x ∈ L → x < n) as Hl by (intros x Hx; by apply Hin).
    clear HL Hlen Hin. induction L as [|a L IHL]; [by exists []|].
    destruct IHL as [M HM]; [intros x Hx; apply Hl; by right|].
    destruct (mate_ex m a) as (y & Hy); [apply Hl; by left|lia|]. exists (y :: M). by constructor. }
  assert (∀ y, y ∈ M ↔ ∃ x, x ∈ L ∧ step_on m x y ∧ same x y) as HinM.
  { intros y. split.
    - intros Hy. apply elem_of_list_lookup in Hy as [k Hk]. destruct (Forall2_lookup_r _ _ _ _ _ HM Hk) as (x & Hx & ?).
      exists x. split; [by eapply elem_of_list_lookup_2|done].
    - intros (x & Hx & H1 & H2). apply elem_of_list_lookup in Hx as [k Hk].
      destruct (Forall2_lookup_l _ _ _ _ _ HM Hk) as (y' & Hy' & H1' & H2').
      rewrite (mate_unique m x y y') by done. by eapply elem_of_list_lookup_2. }
  exists (L ++ M). split_and!.
  - apply NoDup_app. split; [done|]. split.
    + intros x Hx Hx'. apply HinM in Hx' as (z & Hz & Hst & _). apply Hin in Hx as (_ & _ & Hx). apply Hin in Hz as (_ & _ & Hz).
      specialize (Hx m ltac:(lia) ltac:(lia)). specialize (Hz m ltac:(lia) ltac:(lia)). destruct Hst as (?&?&?&?&?). lia.
    + apply NoDup_alt. intros i j y Hi Hj.
      destruct (Forall2_lookup_r _ _ _ _ _ HM Hi) as (x & Hx & H1 & H2), (Forall2_lookup_r _ _ _ _ _ HM Hj) as (x' & Hx' & H1' & H2').
      assert (x = x') as <-; [|by eapply NoDup_lookup; [exact HL|exact Hx|exact Hx']].
      apply (mate_unique m y); try apply step_sym; try apply same_sym; done.
  - rewrite app_length, <- (Forall2_length _ _ _ HM), Hlen. simpl. lia.
  - intros x. rewrite elem_of_app, HinM, Hin. split.
    + intros [(Hx & Hsx & Hc)|(z & Hz & Hst & Hsz)].
      * split_and!; [done..|]. intros j ??. apply Hc; lia.
      * apply Hin in Hz as (Hz & Hsz' & Hc). destruct Hst as (?&?&?&?&Hj). split_and!; [done| |].
        -- by eapply same_trans.
        -- intros j ??. rewrite <- Hj by lia. apply Hc; lia.
    + intros (Hx & Hsx & Hc). destruct (decide (co x m = co s m)) as [He|Hne].
      * left. split_and!; [done..|]. intros j ??. destruct (decide (j = m)) as [->|]; [done|]. apply Hc; lia.
      * right. destruct (mate_ex m x) as (z & Hz & Hsz); [done|lia|]. exists z.
        split; [|split; [by apply step_sym|by apply same_sym]]. apply Hin.
        assert (same s z) as Hs' by (by eapply same_trans).
        pose proof Hz as (_&Hzn&_&Ho&Hj). split_and!; [done..|]. intros j ??.
        destruct (decide (j = m)) as [->|].
        -- destruct (decide (co z m = co s m)) as [|Hz']; [done|].
           pose proof (same_two s x z m Hsx Hs' ltac:(lia) Hne Hz'). lia.
        -- rewrite <- Hj by lia. apply Hc; lia.
Qed.

(** The neighbours in the same block: one per axis. *)
Lemma mates_list x m : x < n → m ≤ d → ∃ M, NoDup M ∧ length M = m ∧
  ∀ y, y ∈ M ↔ ∃ k, k < m ∧ step_on k x y ∧ same x y.
Proof using Hlt Hsur Hinj.
  intros Hx. induction m as [|m IH]; intros Hm.
  { exists []. split; [constructor|]. split; [done|]. intros y. rewrite elem_of_nil. split; [done|]. intros (k & ? & _). lia. }
  destruct (IH ltac:(lia)) as (M & HM & Hl & Hin). destruct (mate_ex m x Hx ltac:(lia)) as (z & Hz & Hsz).
  exists (z :: M). split_and!.
  - constructor; [|done]. rewrite Hin. intros (k & Hk & Hst & _). pose proof (step_axis _ _ _ _ Hz Hst). lia.
  - simpl. lia.
  - intros y. rewrite elem_of_cons, Hin. split.
    + intros [->|(k & ? & ?)]; [exists m; split; [lia|done]|exists k; split; [lia|done]].
    + intros (k & Hk & Hst & Hsy). destruct (decide (k = m)) as [->|]; [left; by eapply mate_unique|].
      right. exists k. split; [lia|done].
Qed.

(** When cells are missing in a part of the block of [s] which has [s], one of
    them is beside [s] or beside two cells of the part. *)
Lemma missing (S : gset nat) s x : s ∈ S → s < n → x < n → same s x → x ∉ S →
  ∃ y z, y < n ∧ same s y ∧ y ∉ S ∧ z ∈ S ∧ same y z ∧ step y z ∧
    (z = s ∨ ∃ z', z' ∈ S ∧ z' ≠ z ∧ step y z').
Proof using Hlt Hsur Hinj.
  intros HsS Hs. remember (cnt d (λ k, negb (co x k =? co s k))) as w eqn:Hw. revert x Hw.
  induction w as [w IH] using lt_wf_ind. intros x -> Hx Hsx HxS.
  assert (∀ k, k < d → co x k ≠ co s k → ∃ y, step_on k x y ∧ same x y ∧ same s y ∧ co y k = co s k) as Hmate.
  { intros k Hk Hc. destruct (mate_ex k x Hx Hk) as (y & Hy & Hsy). exists y.
    assert (same s y) as Hs' by (by eapply same_trans). split_and!; try done.
    destruct (decide (co y k = co s k)) as [|Hy']; [done|].
    pose proof (same_two s x y k Hsx Hs' Hk Hc Hy'). destruct Hy as (?&?&?&?&?). lia. }
  assert (∀ k y, k < d → co x k ≠ co s k → step_on k x y → same s y → co y k = co s k → y ∉ S →
    ∃ y z, y < n ∧ same s y ∧ y ∉ S ∧ z ∈ S ∧ same y z ∧ step y z ∧
    (z = s ∨ ∃ z', z' ∈ S ∧ z' ≠ z ∧ step y z')) as Hrec.
  { intros k y Hk Hc Hy Hsy Hyk HyS. eapply (IH _ _ y eq_refl); try done. by destruct Hy as (?&?&?&?&?).
    Unshelve. apply (cnt_lt d _ _ k); [|done| |].
    - intros j Hj. destruct (decide (j = k)) as [->|].
      + rewrite Hyk, Nat.eqb_refl. done.
      + destruct Hy as (?&?&?&?&Hjj). rewrite (Hjj j) by done. done.
    - by rewrite Hyk, Nat.eqb_refl.
    - by rewrite negb_true_iff, Nat.eqb_neq. }
  destruct (differ x s Hx Hs) as (k1 & Hk1 & Hc1); [intros ->; done|].
  destruct (Hmate k1 Hk1 Hc1) as (y1 & Hy1 & Hsy1 & Hss1 & Hyk1).
  destruct (decide (y1 ∈ S)) as [Hy1S|Hy1S]; [|by eapply (Hrec k1 y1)].
  destruct (decide (y1 = s)) as [->|Hne].
  { exists x, s. split_and!; try done; [by exists k1|by left]. }
  destruct (differ y1 s) as (k2 & Hk2 & Hc2); [by destruct Hy1 as (?&?&?)|done..|].
  assert (k2 ≠ k1) as Hkk by congruence.
  assert (co x k2 ≠ co s k2) as Hc2'.
  { destruct Hy1 as (?&?&?&?&Hj). rewrite (Hj k2) by done. done. }
  destruct (Hmate k2 Hk2 Hc2') as (y2 & Hy2 & Hsy2 & Hss2 & Hyk2).
  destruct (decide (y2 ∈ S)) as [Hy2S|Hy2S]; [|by eapply (Hrec k2 y2)].
  exists x, y1. split_and!; try done; [by exists k1|]. right. exists y2. split_and!; [done| |by exists k2].
  congruence.
Qed.
(** A block is crossed in as many steps as there are axes. *)
Lemma block_walk (E : nat → nat → Prop) (P : nat → Prop) s x :
  (∀ a b, step a b → E a b) → (∀ y, y < n → same s y → P y) → s < n → x < n → same s x →
  ∃ j, j ≤ d ∧ walk E P (λ z, z = s) j x.
Proof using Hlt Hsur Hinj.
  intros HE HP Hs Hx Hsx.
  assert (walk E P (λ z, z = s) (cnt d (λ k, negb (co x k =? co s k))) x ∨ ∃ j,
    j ≤ cnt d (λ k, negb (co x k =? co s k)) ∧ walk E P (λ z, z = s) j x) as [Hw|(j & Hj & Hw)];
    [|eexists; split; [apply cnt_le|exact Hw]|exists j; split; [etrans; [exact Hj|apply cnt_le]|done]].
  right. remember (cnt d (λ k, negb (co x k =? co s k))) as w eqn:Hw. revert x Hx Hsx Hw.
  induction w as [w IH] using lt_wf_ind. intros x Hx Hsx ->.
  destruct (decide (x = s)) as [->|Hne]; [exists 0; split; [lia|by constructor]|].
  destruct (differ x s Hx Hs Hne) as (k & Hk & Hc). destruct (mate_ex k x Hx Hk) as (y & Hy & Hsy).
  assert (same s y) as Hs' by (by eapply same_trans).
  assert (co y k = co s k) as Hyk.
  { destruct (decide (co y k = co s k)) as [|Hy']; [done|].
    pose proof (same_two s x y k Hsx Hs' Hk Hc Hy'). destruct Hy as (?&?&?&?&?). lia. }
  assert (cnt d (λ k, negb (co y k =? co s k)) < cnt d (λ k, negb (co x k =? co s k))) as Hlt'.
  { apply (cnt_lt d _ _ k); [|done| |].
    - intros j Hj. destruct (decide (j = k)) as [->|].
      + rewrite Hyk, Nat.eqb_refl. done.
      + destruct Hy as (?&?&?&?&Hjj). rewrite (Hjj j) by done. done.
    - by rewrite Hyk, Nat.eqb_refl.
    - by rewrite negb_true_iff, Nat.eqb_neq. }
  destruct (IH _ Hlt' y) as (j & Hj & Hwj); [by destruct Hy as (?&?&?)|done..|].
  exists (S j). split; [lia|]. econstructor; [exact Hwj| |by apply HP].
  apply HE. exists k. by apply step_sym.
Qed.
End grid.
