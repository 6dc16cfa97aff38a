(** * TallyT: how many coarse cells a line gives (C85) *)

From Verif Require Import Features Iso Main Spec SpecFeat SpecHash SpecLine SpecMove SpecWhole AnisoP MainP ApiP ApiT UseT LineT WholeT WholeU.

Lemma cut_count odd l : length (cut odd l) = length l / 2.
Proof.
  induction l as [|x|x y z|x y l Hl IH] using cut_ind; [done|done|by destruct odd|].
  rewrite cut_cons by done. cbn [length]. rewrite IH. replace (S (S (length l))) with (length l + 1 * 2) by lia.
  rewrite Nat.div_add by lia. lia.
Qed.
Lemma used_le {A : Arith} i n : used i n ≤ n.
Proof. unfold used. destruct (in_maxline i); [|done]. repeat case_match; lia. Qed.

Lemma C85_gen {A : Arith} {H : HashOrder} i o r e : good_call i o → aniso_on i o → agglomerate_one_level i o = (r, e) →
  ∃ lines, call_lines i o = Ok lines ∧
    (length : list nat → nat) <$> split_lines (o_idx r) (o_lines r) = (λ l : list nat, used i (length l) / 2) <$> lines.
Proof.
  intros HG Ha E. destruct (ran_inv i o r e HG E) as (ctA & p & lo & ct & ct' & R).
  destruct lo as [outs|]; [|by destruct (p1_off _ _ _ _ _ (ra_p1 _ _ _ _ _ _ _ _ R) eq_refl)].
  destruct (p1_on _ _ _ _ _ (ra_p1 _ _ _ _ _ _ _ _ R) outs eq_refl) as (_ & lines & Hl & _ & _ & HI).
  exists lines. split; [unfold call_lines; by rewrite Hl|].
  pose proof (aniso_result _ _ _ _ _ _ _ _ _ (ra_p1 _ _ _ _ _ _ _ _ R) (ra_iso _ _ _ _ _ _ _ _ R) (ra_fin _ _ _ _ _ _ _ _ R) HI) as F.
  pose proof (ra_idx _ _ _ _ _ _ _ _ R) as I1. pose proof (ra_lines _ _ _ _ _ _ _ _ R) as L1. cbn in I1, L1.
  destruct (export_lines_ok outs) as (X1 & X2 & _). rewrite I1, L1, <- X1, X2.
  clear - F Ha. induction F as [|l ids lines outs (w & Ho & Hp) F IH]; [done|]. rewrite !fmap_cons, IH. f_equal.
  rewrite <- (Forall2_length _ _ _ Hp), cut_count, take_length, (used_eff _ _ (proj1 Ha)).
  assert (length w = length l) as -> by (destruct (oriented_or _ _ _ Ho) as [->| ->]; [done|apply reverse_length]).
  rewrite <- (used_eff _ _ (proj1 Ha)). pose proof (used_le i (length l)). by rewrite Nat.min_l.
Qed.

Lemma C85_lem {A : Arith} {H : HashOrder} i o r e : good_call i o → aniso_on i o → agglomerate_one_level i o = (r, e) →
  (in_build i = false →
    length <$> split_lines (o_idx r) (o_lines r) =
    (λ l : list nat, used i (length l) / 2) <$> filter (λ l, 2 ≤ length l) (split_lines (o_idx o) (o_lines o))) ∧
  (in_build i = true → total_order A → ∃ lines, built_lines i lines ∧
    length <$> split_lines (o_idx r) (o_lines r) = (λ l : list nat, used i (length l) / 2) <$> lines).
Proof.
  intros HG Ha E. destruct (C85_gen i o r e HG Ha E) as (lines & Hl & HE). split.
  - intros Hb. rewrite HE. unfold call_lines, lines_of in Hl. rewrite Hb in Hl. by rewrite (input_lines_eq _ _ _ Hl).
  - intros Hb HO. exists lines. split; [|done]. pose proof (call_lines_right i o lines HO HG Ha Hl) as HR.
    unfold lines_right in HR. by rewrite Hb in HR.
Qed.
