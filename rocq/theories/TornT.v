(** * TornT: coarse cells torn by the correction (C66) *)

From Verif Require Import Spec SpecSub Main SpecMove SpecTorn GraphP CorrectP MoveP MoveT ApiP ApiT StrictT GrowP.

Section sets.
Context (E : nat → nat → Prop) (Esym : ∀ x y, E x y → E y x).
Implicit Types P Q : nat → Prop.

Lemma conn_ext P Q : (∀ z, P z ↔ Q z) → connected E P → connected E Q.
Proof using. clear Esym.
  intros HPQ HP x y Hx Hy. apply HPQ in Hx, Hy. destruct (HP x y Hx Hy) as [k Hk]. exists k.
  eapply walk_mono; [|exact Hk]. intros z. apply HPQ.
Qed.
Lemma conn_two P Q x y : connected E P → connected E Q → P x → Q y → E x y → connected E (λ z, P z ∨ Q z).
Proof.
  intros HP HQ Hx Hy Hxy.
  assert (∀ a b, P a → P b → ∃ k, walk E (λ z, P z ∨ Q z) (λ z, z = a) k b) as HP'.
  { intros a b Ha Hb. destruct (HP a b Ha Hb) as [k Hk]. exists k. eapply walk_mono; [|exact Hk]. by left. }
  assert (∀ a b, Q a → Q b → ∃ k, walk E (λ z, P z ∨ Q z) (λ z, z = a) k b) as HQ'.
  { intros a b Ha Hb. destruct (HQ a b Ha Hb) as [k Hk]. exists k. eapply walk_mono; [|exact Hk]. by right. }
  assert (∃ k, walk E (λ z, P z ∨ Q z) (λ z, z = x) k y) as [k1 H1].
  { exists 1. apply (walk_S _ _ _ 0 x y); [by constructor|done|by right]. }
  assert (∃ k, walk E (λ z, P z ∨ Q z) (λ z, z = y) k x) as [k2 H2].
  { exists 1. apply (walk_S _ _ _ 0 y x); [by constructor|by apply Esym|by left]. }
  intros a b [Ha|Ha] [Hb|Hb]; [by apply HP'| | |by apply HQ'].
  - destruct (HP' a x Ha Hx) as [i Hi], (HQ' y b Hy Hb) as [j Hj].
    pose proof (walk_trans _ _ _ _ _ _ _ Hi H1) as Hiy. eexists. exact (walk_trans _ _ _ _ _ _ _ Hiy Hj).
  - destruct (HQ' a y Ha Hy) as [i Hi], (HP' x b Hx Hb) as [j Hj].
    pose proof (walk_trans _ _ _ _ _ _ _ Hi H2) as Hiy. eexists. exact (walk_trans _ _ _ _ _ _ _ Hiy Hj).
Qed.
End sets.

(** ** The moves *)

Section moves.
Context (row col : list nat) (iso : nat → Prop) (Esym : ∀ x y, edge row col x y → edge row col y x).
Context (f0 sing : list nat).
(** The coarse cells to correct have neighbours of lower number only. *)
Context (Hlow : ∀ k k' x y, k ∈ sing → k ≠ k' → f0 !! x = Some k → f0 !! y = Some k' → edge row col x y →
  k' < k ∧ k' ∉ sing).
Notation E := (edge row col).
Implicit Types (f g pre l : list nat).

(** Cell [x] touches coarse cell [k]. *)
Definition tch x k : Prop := iso k ∧ ∃ k0 y, f0 !! x = Some k0 ∧ E x y ∧ f0 !! y = Some k ∧ k ≠ k0.

Record st pre f : Prop := {
  st_len : length f = length f0;
  st_same : ∀ x k, f0 !! x = Some k → k ∉ pre → f !! x = Some k;
  st_mv : ∀ x k, f0 !! x = Some k → k ∈ pre → f !! x = Some k ∧ (∀ k', ¬ tch x k') ∨
     ∃ k' x', f !! x = Some k' ∧ k' ∉ sing ∧ f0 !! x' = Some k ∧ tch x' k';
  st_conn : (∀ k, connected E (cells_of f0 k)) → ∀ k, k ∉ pre → connected E (cells_of f k);
}.

Lemma st_nil : st [] f0.
Proof. split; try done. intros x k _ Hk. by apply elem_of_nil in Hk. Qed.

Section step.
Context (pre : list nat) (f : list nat) (old : nat).
Context (HS : st pre f) (Hold : old ∈ sing) (Hnew : old ∉ pre) (Hpre : ∀ k, k ∈ pre → k ∈ sing).

Lemma in_old x : f !! x = Some old ↔ f0 !! x = Some old.
Proof.
  split; [|intros Hx; by apply (st_same _ _ HS)]. intros Hx.
  destruct (f0 !! x) as [k|] eqn:E0.
  2:{ apply lookup_ge_None in E0. rewrite <- (st_len _ _ HS) in E0. apply lookup_lt_Some in Hx. lia. }
  destruct (decide (k ∈ pre)) as [Hk|Hk].
  - destruct (st_mv _ _ HS x k E0 Hk) as [[Hx' _]|(k' & x' & Hx' & Hk' & _)]; congruence.
  - pose proof (st_same _ _ HS x k E0 Hk). congruence.
Qed.
Lemma beside_tch (X : gset nat) k : (∀ x, x ∈ X → f0 !! x = Some old) →
  beside row col iso f old X k ↔ ∃ x, x ∈ X ∧ tch x k.
Proof.
  intros HX. split.
  - intros (Hne & Hi & x & y & Hx & Hxy & Hy). exists x. split; [done|]. split; [done|]. exists old, y.
    split; [auto|]. split; [done|]. split; [|done].
    destruct (f0 !! y) as [k1|] eqn:E0.
    2:{ apply lookup_ge_None in E0. rewrite <- (st_len _ _ HS) in E0. apply lookup_lt_Some in Hy. lia. }
    destruct (decide (k1 = old)) as [->|Hn1].
    + apply in_old in E0. congruence.
    + destruct (Hlow old k1 x y Hold (not_eq_sym Hn1) (HX x Hx) E0 Hxy) as [_ Hs].
      assert (k1 ∉ pre) as Hk1 by (intros Hk1; by apply Hs, Hpre).
      pose proof (st_same _ _ HS y k1 E0 Hk1). congruence.
  - intros (x & Hx & Hi & k0 & y & E0 & Hxy & Hy & Hne). rewrite (HX x Hx) in E0. injection E0 as <-.
    split; [done|]. split; [done|]. exists x, y. split; [done|]. split; [done|].
    apply (st_same _ _ HS); [done|]. intros Hk. apply Hpre in Hk.
    destruct (Hlow old k x y Hold (not_eq_sym Hne) (HX x Hx) Hy Hxy). done.
Qed.
Lemma tch_low x k : f0 !! x = Some old → tch x k → k < old ∧ k ∉ sing ∧ ∃ y, E x y ∧ f !! y = Some k.
Proof.
  intros Hx (Hi & k0 & y & E0 & Hxy & Hy & Hne). assert (k0 = old) as -> by congruence.
  destruct (Hlow old k x y Hold (not_eq_sym Hne) Hx Hy Hxy) as [H1 H2]. split; [done|]. split; [done|].
  exists y. split; [done|]. apply (st_same _ _ HS); [done|]. intros Hk. by apply H2, Hpre.
Qed.

Lemma one_by_one_st l g f' : one_by_one row col iso f old l g f' → NoDup l →
  (∀ x, x ∈ l → f0 !! x = Some old ∧ g !! x = Some old) → length g = length f0 →
  (∀ x, f0 !! x ≠ Some old → g !! x = f !! x) →
  ((∀ k, connected E (cells_of f0 k)) → ∀ k, k ∉ pre → k ≠ old → connected E (cells_of g k)) →
  length f' = length f0 ∧ (∀ x, f0 !! x ≠ Some old → f' !! x = f !! x) ∧
  (∀ x, x ∉ l → f' !! x = g !! x) ∧
  (∀ x, x ∈ l → f' !! x = Some old ∧ (∀ k', ¬ tch x k') ∨ ∃ k', f' !! x = Some k' ∧ k' ∉ sing ∧ tch x k') ∧
  ((∀ k, connected E (cells_of f0 k)) → ∀ k, k ∉ pre → k ≠ old → connected E (cells_of f' k)).
Proof.
  induction 1 as [g|x k l g f' Hj Ho IH|x l g f' Hs Ho IH]; intros Hnd Hl Hlen Hout Hcn.
  - split_and!; try done. intros x Hx. by apply elem_of_nil in Hx.
  - apply NoDup_cons in Hnd as [Hx Hnd]. destruct (Hl x ltac:(left)) as [Hx0 Hxg].
    destruct Hj as [Hj _]. apply beside_tch in Hj as (x' & Hx' & Ht).
    2:{ intros z Hz. apply elem_of_singleton in Hz as ->. done. }
    apply elem_of_singleton in Hx' as ->. destruct (tch_low x k Hx0 Ht) as (Hlt & Hks & y & Hxy & Hy).
    assert (x < length g) as Hxl by (by apply lookup_lt_Some in Hxg).
    destruct IH as (I1 & I2 & I3 & I4 & I5); [done|..].
    + intros z Hz. split; [by apply Hl; right|]. rewrite list_lookup_insert_ne by (intros ->; done). by apply Hl; right.
    + by rewrite insert_length.
    + intros z Hz. rewrite list_lookup_insert_ne by (intros ->; done). by apply Hout.
    + intros Hc k2 Hk2 Hk2o. destruct (decide (k2 = k)) as [->|Hne].
      * apply (conn_ext E (λ z, z = x ∨ g !! z = Some k)).
        { intros z. unfold cells_of. destruct (decide (z = x)) as [->|Hn].
          - rewrite list_lookup_insert by done. tauto.
          - rewrite list_lookup_insert_ne by done. naive_solver. }
        apply (conn_two E Esym _ _ x y); [|by apply Hcn|done| |done].
        -- intros a b -> ->. exists 0. by constructor.
        -- rewrite Hout; [done|]. intros Hy0. apply in_old in Hy0. rewrite Hy in Hy0. injection Hy0. lia.
      * apply (conn_ext E (cells_of g k2)); [|by apply Hcn]. intros z. unfold cells_of.
        destruct (decide (z = x)) as [->|Hn].
        -- rewrite list_lookup_insert by done. naive_solver.
        -- by rewrite list_lookup_insert_ne.
    + split; [done|]. split; [done|]. split.
      { intros z Hz. apply not_elem_of_cons in Hz as [Hz1 Hz2]. rewrite I3 by done. by rewrite list_lookup_insert_ne. }
      split; [|done]. intros z Hz. apply elem_of_cons in Hz as [->|Hz]; [|by apply I4].
      right. exists k. rewrite I3 by done. rewrite list_lookup_insert by done. done.
  - apply NoDup_cons in Hnd as [Hx Hnd]. destruct (Hl x ltac:(left)) as [Hx0 Hxg].
    destruct IH as (I1 & I2 & I3 & I4 & I5); [done|intros z Hz; apply Hl; by right|done..|].
    split; [done|]. split; [done|]. split.
    { intros z Hz. apply not_elem_of_cons in Hz as [Hz1 Hz2]. by apply I3. }
    split; [|done]. intros z Hz. apply elem_of_cons in Hz as [->|Hz]; [|by apply I4].
    left. rewrite I3 by done. split; [done|]. intros k' Hk'. apply (Hs k'). apply beside_tch.
    { intros z Hz. apply elem_of_singleton in Hz as ->. done. }
    exists x. split; [by apply elem_of_singleton|done].
Qed.

Lemma absorbed_st f' : absorbed row col iso f old f' → st (pre ++ [old]) f'.
Proof.
  intros Ha.
  assert (∀ x, x ∈ cells_in f old ↔ f0 !! x = Some old) as HX by (intros x; by rewrite elem_of_cells_in, in_old).
  destruct Ha as [(_ & k & (Hb & _) & ->)|(_ & l & Hnd & Hl & Ho)].
  - apply beside_tch in Hb as (x & Hx & Ht); [|by intros; apply HX]. apply HX in Hx.
    destruct (tch_low x k Hx Ht) as (Hlt & Hks & y & Hxy & Hy).
    assert (∀ z c, f !! z = Some c → ((λ c, if decide (c = old) then k else c) <$> f) !! z =
      Some (if decide (c = old) then k else c)) as Hm by (intros z c Hz; by rewrite list_lookup_fmap, Hz).
    split.
    + rewrite fmap_length. apply HS.
    + intros z c Hz Hc. rewrite (Hm z c); [|apply (st_same _ _ HS); [done|set_solver]].
      rewrite decide_False; [done|]. intros ->. set_solver.
    + intros z c Hz Hc. destruct (decide (c = old)) as [->|Hne].
      * right. exists k, x. rewrite (Hm z old) by (by apply in_old). rewrite decide_True by done. done.
      * assert (c ∈ pre) as Hcp by set_solver.
        destruct (st_mv _ _ HS z c Hz Hcp) as [[H1 H2]|(k' & x' & H1 & H2 & H3)].
        -- left. rewrite (Hm z c H1), decide_False by done. done.
        -- right. exists k', x'. rewrite (Hm z k' H1), decide_False; [done|]. intros ->. done.
    + intros Hc k2 Hk2. assert (k2 ∉ pre ∧ k2 ≠ old) as [Hk2p Hk2o] by set_solver.
      assert (∀ z, cells_of ((λ c, if decide (c = old) then k else c) <$> f) k2 z ↔
        f !! z = Some k2 ∨ k2 = k ∧ f !! z = Some old) as Hz.
      { intros z. unfold cells_of. rewrite list_lookup_fmap. destruct (f !! z) as [c|]; simpl; [|naive_solver].
        case_decide; naive_solver. }
      destruct (decide (k2 = k)) as [->|Hne].
      * apply (conn_ext E (λ z, cells_of f old z ∨ cells_of f k z)).
        { intros z. rewrite Hz. unfold cells_of. tauto. }
        apply (conn_two E Esym _ _ x y); [by apply (st_conn _ _ HS)..|by apply in_old|done|done].
      * apply (conn_ext E (cells_of f k2)); [|by apply (st_conn _ _ HS)].
        intros z. rewrite Hz. unfold cells_of. naive_solver.
  - destruct (one_by_one_st l f f' Ho Hnd) as (I1 & I2 & I3 & I4 & I5).
    + intros x Hx. apply Hl, HX in Hx. split; [done|]. by apply in_old.
    + apply HS.
    + done.
    + intros Hc k Hk _. by apply (st_conn _ _ HS).
    + split; [done|..].
      * intros x k Hx Hk. rewrite I2; [apply (st_same _ _ HS); [done|set_solver]|]. rewrite Hx. intros [= ->]. set_solver.
      * intros x k Hx Hk. destruct (decide (k = old)) as [->|Hne].
        -- destruct (I4 x) as [[H1 H2]|(k' & H1 & H2 & H3)]; [by apply Hl, HX|by left|]. right. by exists k', x.
        -- rewrite I2 by congruence. apply (st_mv _ _ HS); [done|set_solver].
      * intros Hc k Hk. apply I5; [done|set_solver..].
Qed.
End step.

Lemma absorbed_all_st todo f f1 : absorbed_all row col iso todo f f1 → ∀ pre, sing = pre ++ todo → NoDup sing →
  st pre f → st sing f1.
Proof.
  induction 1 as [f|old todo f f1 f2 Ha Hr IH]; intros pre Hsg Hnd HS.
  - rewrite app_nil_r in Hsg. by subst.
  - apply (IH (pre ++ [old])); [by rewrite <- app_assoc|done|].
    rewrite Hsg in Hnd. apply NoDup_app in Hnd as (_ & Hdis & _).
    apply (absorbed_st pre f old HS); [rewrite Hsg; set_solver| |intros k Hk; rewrite Hsg; set_solver|done].
    intros Hp. apply (Hdis old Hp). left.
Qed.
End moves.

(** ** Numbers *)

Lemma rank_S (R : gset nat) k : rank R (S k) = rank R k + (if decide (k ∈ R) then 0 else 1).
Proof.
  unfold rank. rewrite seq_S, filter_app, app_length. simpl. f_equal. rewrite filter_cons, filter_nil.
  repeat case_decide; done.
Qed.
Lemma rank_onto (R : gset nat) n c : c < rank R n → ∃ k, k < n ∧ k ∉ R ∧ rank R k = c.
Proof.
  induction n as [|n IH]; [unfold rank; simpl; lia|]. rewrite rank_S. intros Hc. destruct (decide (c < rank R n)) as [Hl|Hl].
  - destruct (IH Hl) as (k & ? & ? & ?). exists k. split; [lia|done].
  - destruct (decide (n ∈ R)); [lia|]. exists n. split; [lia|]. split; [done|lia].
Qed.
Lemma rank_up (R : gset nat) k : rank R k ≤ k.
Proof. unfold rank. rewrite <- (seq_length k 0) at 2. apply filter_length. Qed.
Lemma rank_total (R : gset nat) n : (∀ k, k ∈ R → k < n) → rank R n = n - size R.
Proof.
  intros HR. unfold rank.
  assert (list_to_set (filter (λ j, j ∈ R) (seq 0 n)) = R) as ER.
  { apply set_eq. intros k. rewrite elem_of_list_to_set, elem_of_list_filter, elem_of_seq. split; [tauto|].
    intros Hk. split; [done|]. pose proof (HR k Hk). lia. }
  assert (size R = length (filter (λ j, j ∈ R) (seq 0 n))) as ->.
  { rewrite <- ER at 1. by rewrite size_list_to_set by (apply NoDup_filter, NoDup_seq). }
  assert (∀ l, length (filter (λ j, j ∉ R) l) = length l - length (filter (λ j, j ∈ R) l) ∧
    length (filter (λ j, j ∈ R) l) ≤ length l) as Hl.
  { induction l as [|a l [I1 I2]]; [done|]. rewrite !filter_cons. repeat case_decide; simpl; try done; lia. }
  rewrite (proj1 (Hl _)). by rewrite seq_length.
Qed.

(** ** The call *)

Section run.
Context {A : Arith} {H : HashOrder}.
Implicit Types (i : input) (o r : outs).

Lemma corrected_via_ex i o r0 e0 r e : good_call i o → simple_csr (in_row i) (in_col i) → in_corr i = true →
  agglomerate_one_level (uncorrected i) o = (r0, e0) → agglomerate_one_level i o = (r, e) →
  e0 = Ok () ∧ e = Ok () ∧ ∃ R f1, corrected_via i o r0 r R f1.
Proof.
  intros HG Hsi Hc He0 He. destruct (C65_rule_lem i o r0 e0 r e HG Hsi Hc He0 He) as (-> & -> & R & (sing & f1 & HR) & _).
  split; [done|]. split; [done|]. by exists R, f1, sing.
Qed.

Lemma low_of i o r0 e0 (sing : list nat) : good_call i o → agglomerate_one_level (uncorrected i) o = (r0, e0) →
  (∀ k, k ∈ sing ↔ small_id i o r0 k) →
  ∀ k k' x y, k ∈ sing → k ≠ k' → o_fc2cc r0 !! x = Some k → o_fc2cc r0 !! y = Some k' →
    edge (in_row i) (in_col i) x y → k' < k ∧ k' ∉ sing.
Proof.
  intros HG He0 Es.
  assert (∀ k, k ∈ sing → ¬ aniso_id (uncorrected i) o r0 k ∧ (Z.of_nat (size (cells_in (o_fc2cc r0) k)) < in_min i)%Z) as Hlow.
  { intros k Hk. apply Es in Hk as [[_ Hn] Hk]. split; [done|]. unfold corr_size in Hk. destruct (decide _); lia. }
  assert (∀ k k' x y, k ∈ sing → k ≠ k' → o_fc2cc r0 !! x = Some k → o_fc2cc r0 !! y = Some k' →
    edge (in_row i) (in_col i) x y → k' < k) as Hlt.
  { intros k k' x y Hk Hne Hx Hy Hxy. destruct (Hlow _ Hk) as [Hn Hm].
    destruct (C05_lem (uncorrected i) o r0 _ (good_uncorrected _ _ HG) eq_refl He0 k (cells_in (o_fc2cc r0) k) Hn
      (elem_of_cells_in _ _) Hm x y) as (c' & Hc' & Hy').
    - by apply elem_of_cells_in.
    - exact Hxy.
    - rewrite elem_of_cells_in. congruence.
    - by simplify_eq. }
  intros k k' x y Hk Hne Hx Hy Hxy. pose proof (Hlt _ _ _ _ Hk Hne Hx Hy Hxy). split; [done|].
  intros Hk'. assert (k < k'); [|lia]. eapply (Hlt k' k y x); try done. apply (wf_sym _ (gc_mesh _ _ HG)). exact Hxy.
Qed.

(** Everything used about the result. *)
Record tornfacts i o r0 r (R : gset nat) (f1 : list nat) (n0 : nat) : Prop := {
  tf_n0 : ∀ c, c < n0 ↔ ∃ x, o_fc2cc r0 !! x = Some c;
  tf_len : length f1 = length (o_fc2cc r0);
  tf_r : o_fc2cc r = (λ k, if decide (k ∈ R) then k else rank R k) <$> f1;
  tf_small : ∀ k, k ∈ R → small_id i o r0 k;
  tf_same : ∀ x k, o_fc2cc r0 !! x = Some k → k ∉ R → f1 !! x = Some k;
  tf_mv : ∀ x k, o_fc2cc r0 !! x = Some k → k ∈ R →
    f1 !! x = Some k ∧ ¬ touches i o r0 x ∨
    ∃ k', f1 !! x = Some k' ∧ k' ∉ R ∧ k' < k ∧ ∃ x', o_fc2cc r0 !! x' = Some k ∧ touches i o r0 x';
  tf_lost : ∀ k, k ∈ R → ∃ x, o_fc2cc r0 !! x = Some k ∧ f1 !! x ≠ Some k;
  tf_low : ∀ k k' x y, k ∈ R → k ≠ k' → o_fc2cc r0 !! x = Some k → o_fc2cc r0 !! y = Some k' →
    in_edge i x y → k' < k ∧ k' ∉ R;
  tf_conn : (∀ k, connected (in_edge i) (cells_of (o_fc2cc r0) k)) → ∀ k, k ∉ R → connected (in_edge i) (cells_of f1 k);
}.

Lemma torn_facts i o r0 e0 r R f1 : good_call i o → agglomerate_one_level (uncorrected i) o = (r0, e0) →
  corrected_via i o r0 r R f1 → ∃ n0, tornfacts i o r0 r R f1 n0.
Proof.
  intros HG He0 (sing & Hss & Es & Ha & HR & Er).
  destruct (C02_lem (uncorrected i) o r0 e0 (good_uncorrected _ _ HG) (or_introl eq_refl) He0) as [n0 Hn0].
  pose proof (low_of i o r0 e0 sing HG He0 Es) as Hlow.
  assert (NoDup sing) as Hnd.
  { clear -Hss. induction Hss as [|a l Hs IH Hall]; [constructor|]. constructor; [|done]. intros Hin.
    rewrite Forall_forall in Hall. specialize (Hall a Hin). lia. }
  pose proof (absorbed_all_st (in_row i) (in_col i) (iso_id i o r0) (wf_sym _ (gc_mesh _ _ HG)) (o_fc2cc r0) sing Hlow
    sing (o_fc2cc r0) f1 Ha [] eq_refl Hnd (st_nil _ _ _ _ _)) as [S1 S2 S3 S4].
  assert (∀ x k', tch (in_row i) (in_col i) (iso_id i o r0) (o_fc2cc r0) x k' → touches i o r0 x) as Ht.
  { intros x k' (Hi & k0 & y & H1 & H2 & H3 & H4). exists k0, y, k'. done. }
  assert (∀ x k, o_fc2cc r0 !! x = Some k → k ∈ sing → k ∉ R → f1 !! x = Some k) as Hkeep.
  { intros x k Hx Hk HkR. destruct (decide (f1 !! x = Some k)) as [|Hn]; [done|]. destruct HkR. apply HR. eauto. }
  exists n0. split; try done.
  - intros k Hk. apply HR in Hk as [Hk _]. by apply Es.
  - intros x k Hx Hk. destruct (decide (k ∈ sing)) as [Hs|Hs]; [by apply Hkeep|by apply S2].
  - intros x k Hx Hk. apply HR in Hk as [Hk _]. destruct (S3 x k Hx Hk) as [[H1 H2]|(k' & x' & H1 & H2 & H3 & H4)].
    + left. split; [done|]. intros (k0 & y & k1 & T1 & T2 & T3 & T4 & T5). apply (H2 k1). split; [done|]. by exists k0, y.
    + right. exists k'. split; [done|]. split; [intros Hk'; apply HR in Hk' as [? _]; done|].
      destruct H4 as (Hi & k0 & y & T1 & T2 & T3 & T4). split.
      * eapply (Hlow k k' x' y Hk); [congruence|done..].
      * exists x'. split; [done|]. exists k0, y, k'. done.
  - intros k Hk. by apply HR in Hk as [_ Hk].
  - intros k k' x y Hk Hne Hx Hy Hxy. apply HR in Hk as [Hk _]. destruct (Hlow k k' x y Hk Hne Hx Hy Hxy) as [? Hn].
    split; [done|]. intros Hk'. apply HR in Hk' as [? _]. done.
  - intros Hc k Hk. destruct (decide (k ∈ sing)) as [Hs|Hs]; [|by apply S4].
    eapply conn_ext; [|apply (Hc k)]. intros z. unfold cells_of. split; [by intros Hz; apply Hkeep|].
    intros Hz. destruct (o_fc2cc r0 !! z) as [k1|] eqn:E0.
    2:{ apply lookup_ge_None in E0. apply lookup_lt_Some in Hz. lia. }
    destruct (decide (k1 ∈ sing)) as [Hs1|Hs1].
    + destruct (S3 z k1 E0 Hs1) as [[H1 _]|(k' & x' & H1 & H2 & _)]; congruence.
    + pose proof (S2 z k1 E0 Hs1). congruence.
Qed.

Section facts.
Context (i : input) (o r0 r : outs) (R : gset nat) (f1 : list nat) (n0 : nat).
Context (T : tornfacts i o r0 r R f1 n0).
Notation f0 := (o_fc2cc r0).

Lemma tf_f0 x k : f1 !! x = Some k → ∃ k0, f0 !! x = Some k0.
Proof.
  intros Hx. apply lookup_lt_Some in Hx. rewrite (tf_len _ _ _ _ _ _ _ T) in Hx. by apply lookup_lt_is_Some in Hx.
Qed.
Lemma tf_in k : k ∈ R → ∀ x, f1 !! x = Some k → left_behind r0 R f1 x k.
Proof.
  intros Hk x Hx. split; [done|]. split; [|done]. destruct (tf_f0 x k Hx) as [k0 E0]. destruct (decide (k0 ∈ R)) as [Hr|Hr].
  - destruct (tf_mv _ _ _ _ _ _ _ T x k0 E0 Hr) as [[H1 _]|(k' & H1 & H2 & _)]; congruence.
  - pose proof (tf_same _ _ _ _ _ _ _ T x k0 E0 Hr). congruence.
Qed.
Lemma tf_final x c : o_fc2cc r !! x = Some c ↔
  left_behind r0 R f1 x c ∨ ∃ k, f1 !! x = Some k ∧ k ∉ R ∧ rank R k = c.
Proof.
  rewrite (tf_r _ _ _ _ _ _ _ T), list_lookup_fmap. destruct (f1 !! x) as [k|] eqn:E; simpl.
  - case_decide as Hk; split.
    + intros [= ->]. left. by apply tf_in.
    + intros [(_ & _ & ?)|(k' & ? & ? & ?)]; congruence.
    + intros [= <-]. right. eauto.
    + intros [(? & _ & ?)|(k' & ? & ? & <-)]; [congruence|]. by simplify_eq.
  - split; [done|]. intros [(_ & _ & ?)|(k' & ? & _)]; congruence.
Qed.
Lemma tf_lt k : k ∈ R → k < n0.
Proof.
  intros Hk. apply (tf_n0 _ _ _ _ _ _ _ T). destruct (tf_lost _ _ _ _ _ _ _ T k Hk) as (x & Hx & _). eauto.
Qed.
Lemma tf_nonempty k : k ∉ R → k < n0 ↔ ∃ x, f1 !! x = Some k.
Proof.
  intros Hk. rewrite (tf_n0 _ _ _ _ _ _ _ T). split.
  - intros [x Hx]. exists x. by apply (tf_same _ _ _ _ _ _ _ T).
  - intros [x Hx]. destruct (tf_f0 x k Hx) as [k0 E0]. destruct (decide (k0 ∈ R)) as [Hr|Hr].
    + assert (k0 < n0) as Hl by (by apply tf_lt). apply (tf_n0 _ _ _ _ _ _ _ T).
      destruct (tf_mv _ _ _ _ _ _ _ T x k0 E0 Hr) as [[H1 _]|(k' & H1 & H2 & H3 & _)]; [congruence|].
      assert (k' = k) as -> by congruence. lia.
    + pose proof (tf_same _ _ _ _ _ _ _ T x k0 E0 Hr). assert (k0 = k) as -> by congruence. eauto.
Qed.
Lemma tf_used c : (∃ x, o_fc2cc r !! x = Some c) ↔ c < n0 - size R ∨ ∃ x, left_behind r0 R f1 x c.
Proof.
  pose proof (rank_total R n0 tf_lt) as Hn. rewrite <- Hn. split.
  - intros [x Hx]. apply tf_final in Hx as [Hx|(k & Hx & Hk & <-)]; [right; eauto|]. left. apply rank_lt; [|done].
    apply tf_nonempty; eauto.
  - intros [Hc|[x Hx]].
    + destruct (rank_onto R n0 c Hc) as (k & Hk & HkR & <-). apply (tf_nonempty k HkR) in Hk as [x Hx]. exists x.
      apply tf_final. right. eauto.
    + exists x. apply tf_final. by left.
Qed.
Lemma tf_none : (∀ x k, ¬ left_behind r0 R f1 x k) → contiguous (o_fc2cc r) ∧
  ((∀ k, connected (in_edge i) (cells_of f0 k)) → ∀ c, connected (in_edge i) (cells_of (o_fc2cc r) c)).
Proof.
  intros Hno. split.
  - exists (n0 - size R). intros c. rewrite tf_used. split; [by left|]. intros [?|[x Hx]]; [done|]. by apply Hno in Hx.
  - intros Hc c x y Hx. pose proof Hx as Hx'. apply tf_final in Hx' as [Hx'|(k & Hk & HkR & <-)]; [by apply Hno in Hx'|].
    revert x y Hx Hk. intros x y Hx Hk Hy. revert x y Hx Hy Hk.
    assert (connected (in_edge i) (cells_of (o_fc2cc r) (rank R k))) as HC.
    { apply (conn_ext _ (cells_of f1 k)); [|by apply (tf_conn _ _ _ _ _ _ _ T)]. intros z. unfold cells_of. rewrite tf_final. split.
      - intros Hz. right. eauto.
      - intros [Hz|(k2 & Hz & H2 & E2)]; [by apply Hno in Hz|]. apply rank_inj in E2; [congruence|done..]. }
    intros x y Hx Hy _. by apply HC.
Qed.
Lemma tf_torn x c : left_behind r0 R f1 x c → c < n0 - size R → ¬ connected (in_edge i) (cells_of (o_fc2cc r) c).
Proof.
  intros Hx Hc Hcn. pose proof (rank_total R n0 tf_lt) as Hn. rewrite <- Hn in Hc.
  destruct (rank_onto R n0 c Hc) as (k & Hk & HkR & Ek). pose proof (rank_up R k) as Hup.
  assert (c < k) as Hck. { destruct Hx as [Hx _]. assert (c ≠ k) by congruence. lia. }
  apply (tf_nonempty k HkR) in Hk as [y Hy].
  destruct (Hcn x y) as [j Hj]; [apply tf_final; by left|apply tf_final; right; eauto|].
  assert (∀ z w, walk (in_edge i) (cells_of (o_fc2cc r) c) (λ a, a = x) z w → left_behind r0 R f1 w c) as Hall.
  { clear j Hj. intros j w. induction 1 as [w ->|j w v Hw IH Hwv Hv]; [done|]. apply tf_final in Hv as [Hv|(k2 & Hv & Hk2 & E2)]; [done|].
    exfalso. assert (k2 = k) as -> by (by apply (rank_inj R); congruence).
    destruct IH as (HcR & Hw0 & _). destruct (tf_f0 v k Hv) as [k0 E0]. destruct (decide (k0 = c)) as [->|Hne].
    - destruct (tf_mv _ _ _ _ _ _ _ T v c E0 HcR) as [[H1 _]|(k' & H1 & H2 & H3 & _)]; [congruence|].
      assert (k' = k) as -> by congruence. lia.
    - destruct (tf_low _ _ _ _ _ _ _ T c k0 w v HcR (not_eq_sym Hne) Hw0 E0 Hwv) as [Hlt Hn0].
      pose proof (tf_same _ _ _ _ _ _ _ T v k0 E0 Hn0). assert (k0 = k) as -> by congruence. lia. }
  destruct (Hall j y Hj) as (Hr & _ & ?). congruence.
Qed.
Lemma tf_left x k : left_behind r0 R f1 x k →
  small_id i o r0 k ∧ ¬ touches i o r0 x ∧ ∃ x', f0 !! x' = Some k ∧ touches i o r0 x'.
Proof.
  intros (Hk & Hx & Hx1). split; [by apply (tf_small _ _ _ _ _ _ _ T)|]. split.
  - destruct (tf_mv _ _ _ _ _ _ _ T x k Hx Hk) as [[_ H1]|(k' & H1 & H2 & _)]; [done|congruence].
  - destruct (tf_lost _ _ _ _ _ _ _ T k Hk) as (z & Hz & Hz1).
    destruct (tf_mv _ _ _ _ _ _ _ T z k Hz Hk) as [[H1 _]|(k' & _ & _ & _ & H1)]; done.
Qed.
End facts.

Lemma C66_rule_lem i o r0 e0 r e : good_call i o → simple_csr (in_row i) (in_col i) → in_corr i = true →
  agglomerate_one_level (uncorrected i) o = (r0, e0) → agglomerate_one_level i o = (r, e) →
  ∃ R f1 n0, corrected_via i o r0 r R f1 ∧ (∀ c, c < n0 ↔ ∃ x, o_fc2cc r0 !! x = Some c) ∧
    (∀ c, (∃ x, o_fc2cc r !! x = Some c) ↔ c < n0 - size R ∨ ∃ x, left_behind r0 R f1 x c) ∧
    (∀ x k, left_behind r0 R f1 x k →
       small_id i o r0 k ∧ ¬ touches i o r0 x ∧ ∃ x', o_fc2cc r0 !! x' = Some k ∧ touches i o r0 x') ∧
    ((∀ x k, ¬ left_behind r0 R f1 x k) → contiguous (o_fc2cc r) ∧
       (given_paths i o → ∀ c, connected (in_edge i) (cells_of (o_fc2cc r) c))) ∧
    (∀ x c, left_behind r0 R f1 x c → c < n0 - size R → ¬ connected (in_edge i) (cells_of (o_fc2cc r) c)).
Proof.
  intros HG Hsi Hc He0 He. destruct (corrected_via_ex i o r0 e0 r e HG Hsi Hc He0 He) as (-> & -> & R & f1 & HV).
  destruct (torn_facts i o r0 _ r R f1 HG He0 HV) as [n0 T]. exists R, f1, n0. split; [done|]. split; [apply T|].
  split; [intros c; by apply (tf_used i o)|]. split; [intros x k; by apply (tf_left i o r0 r R f1 n0)|]. split.
  - intros Hno. destruct (tf_none i o r0 r R f1 n0 T Hno) as [H1 H2]. split; [done|]. intros Hgp. apply H2.
    intros k. by apply (C03_lem (uncorrected i) o r0 _ (good_uncorrected _ _ HG) Hgp (or_introl eq_refl) He0).
  - intros x c. by apply (tf_torn i o r0 r R f1 n0).
Qed.
Lemma C66_static_lem i o r0 e0 r e : good_call i o → simple_csr (in_row i) (in_col i) → in_corr i = true →
  agglomerate_one_level (uncorrected i) o = (r0, e0) → agglomerate_one_level i o = (r, e) →
  (∀ k, small_id i o r0 k → (∀ x, o_fc2cc r0 !! x = Some k → touches i o r0 x) ∨
     (∀ x, o_fc2cc r0 !! x = Some k → ¬ touches i o r0 x)) →
  contiguous (o_fc2cc r) ∧ (given_paths i o → ∀ c, connected (in_edge i) (cells_of (o_fc2cc r) c)).
Proof.
  intros HG Hsi Hc He0 He Hst. destruct (C66_rule_lem i o r0 e0 r e HG Hsi Hc He0 He) as (R & f1 & n0 & _ & _ & _ & Hl & Hno & _).
  apply Hno. intros x k Hx. destruct (Hl x k Hx) as (Hs & Hx1 & x' & Hx' & Ht). destruct (Hst k Hs) as [Ha|Ha].
  - destruct Hx as (_ & Hx & _). by apply Hx1, Ha.
  - by apply (Ha x').
Qed.
End run.
