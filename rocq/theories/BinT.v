(** * BinT: constants, order and integers in double precision (C64) *)

From Coq Require Import SpecFloat.
From Verif Require Import Base Double SpecNum SpecBin DoubleT.
#[local] Open Scope Z_scope.

Lemma digits_spec p : 2 ^ (Z.pos (digits2_pos p) - 1) <= Z.pos p < 2 ^ Z.pos (digits2_pos p).
Proof.
  induction p as [p IH|p IH|]; [| |done]; simpl digits2_pos;
    replace (2 ^ Z.pos (Pos.succ (digits2_pos p))) with (2 * 2 ^ Z.pos (digits2_pos p))
      by (rewrite Pos2Z.inj_succ, Z.pow_succ_r; lia);
    replace (2 ^ (Z.pos (Pos.succ (digits2_pos p)) - 1)) with (2 * 2 ^ (Z.pos (digits2_pos p) - 1))
      by (rewrite <- Z.pow_succ_r by lia; f_equal; lia); lia.
Qed.
Lemma pow_le a b : 0 <= a <= b → 2 ^ a <= 2 ^ b.
Proof. intros. apply Z.pow_le_mono_r; lia. Qed.
Lemma pow_pos' a : 0 <= a → 0 < 2 ^ a.
Proof. intros. apply Z.pow_pos_nonneg; lia. Qed.

Lemma digits_le p n : 0 <= n → Z.pos p < 2 ^ n ↔ Z.pos (digits2_pos p) <= n.
Proof.
  intros Hn. pose proof (digits_spec p) as [H1 H2]. split; intros H.
  - assert (2 ^ (Z.pos (digits2_pos p) - 1) < 2 ^ n) as Hlt by lia. apply Z.pow_lt_mono_r_iff in Hlt; lia.
  - pose proof (pow_le (Z.pos (digits2_pos p)) n). lia.
Qed.
(** [number] is what the standard library calls a valid finite number. *)
Lemma valid_number x : finite x → number x ↔ valid_binary d_prec d_emax x = true.
Proof.
  intros Hf. destruct x as [s|s| |s m e]; try (by destruct Hf).
  simpl. unfold bounded, canonical_mantissa, fexp, emin, d_prec, d_emax.
  rewrite andb_true_iff, <- Zeq_is_eq_bool, Z.leb_le.
  pose proof (digits_le m 53 ltac:(lia)) as D1. pose proof (digits_le m 52 ltac:(lia)) as D2.
  split.
  - intros [_ (H1 & H2 & H3)]. lia.
  - intros [H1 H2]. split; [done|]. lia.
Qed.

(** Positive numbers. *)
Lemma mag_lt m1 e1 m2 e2 : number (S754_finite false m1 e1) → number (S754_finite false m2 e2) → e1 < e2 →
  Z.pos m1 * 2 ^ (e1 + 1074) < Z.pos m2 * 2 ^ (e2 + 1074).
Proof.
  intros [_ (A1 & A2 & _)] [_ (B1 & B2 & B3)] Hlt. destruct B3 as [B3|B3]; [lia|].
  assert (2 ^ 53 * 2 ^ (e1 + 1074) <= 2 ^ 52 * 2 ^ (e2 + 1074)).
  { rewrite <- !Z.pow_add_r by lia. apply pow_le. lia. }
  pose proof (pow_pos' (e1 + 1074)). pose proof (pow_pos' (e2 + 1074)). nia.
Qed.
Lemma mag_compare m1 e1 m2 e2 : number (S754_finite false m1 e1) → number (S754_finite false m2 e2) →
  (Z.pos m1 * 2 ^ (e1 + 1074) ?= Z.pos m2 * 2 ^ (e2 + 1074)) =
  match e1 ?= e2 with Eq => Pos.compare m1 m2 | c => c end.
Proof.
  intros N1 N2. destruct (Z.compare_spec e1 e2) as [->|Hlt|Hlt].
  - assert (0 < 2 ^ (e2 + 1074)) as Hp. { apply pow_pos'. destruct N1 as [_ (_ & ? & _)]. lia. }
    change (Pos.compare m1 m2) with (Z.pos m1 ?= Z.pos m2).
    destruct (Z.compare_spec (Z.pos m1) (Z.pos m2)) as [->|?|?]; [apply Z.compare_refl|apply Z.compare_lt_iff; nia|apply Z.compare_gt_iff; nia].
  - apply Z.compare_lt_iff. by apply mag_lt.
  - apply Z.compare_gt_iff. by apply mag_lt.
Qed.
Lemma number_abs s m e : number (S754_finite s m e) → number (S754_finite false m e).
Proof. intros [H1 H2]. by split. Qed.
Lemma mag_pos m e : number (S754_finite false m e) → 0 < Z.pos m * 2 ^ (e + 1074).
Proof. intros [_ (_ & ? & _)]. pose proof (pow_pos' (e + 1074)). nia. Qed.

Lemma compare_units x y : number x → number y → SFcompare x y = Some (units x ?= units y).
Proof.
  intros Nx Ny. destruct x as [s1|s1| |s1 m1 e1], y as [s2|s2| |s2 m2 e2]; try (by destruct (nb_finite _ Nx)); try (by destruct (nb_finite _ Ny)).
  - pose proof (mag_pos _ _ (number_abs _ _ _ Ny)). unfold units. simpl SFcompare. destruct s2; f_equal; symmetry.
    + apply Z.compare_gt_iff. lia.
    + apply Z.compare_lt_iff. lia.
  - pose proof (mag_pos _ _ (number_abs _ _ _ Nx)). unfold units. simpl SFcompare. destruct s1; f_equal; symmetry.
    + apply Z.compare_lt_iff. lia.
    + apply Z.compare_gt_iff. lia.
  - pose proof (mag_compare _ _ _ _ (number_abs _ _ _ Nx) (number_abs _ _ _ Ny)) as HC.
    pose proof (mag_pos _ _ (number_abs _ _ _ Ny)). pose proof (mag_pos _ _ (number_abs _ _ _ Nx)).
    unfold units. simpl SFcompare. rewrite <- !Z.mul_assoc. generalize dependent (Z.pos m1 * 2 ^ (e1 + 1074)). intros u HC Hu.
    generalize dependent (Z.pos m2 * 2 ^ (e2 + 1074)). intros v Hv HC.
    change (Pos.compare_cont Eq m1 m2) with (Pos.compare m1 m2).
    destruct s1, s2.
    + replace (-1 * u ?= -1 * v) with (CompOpp (u ?= v)) by (destruct (Z.compare_spec u v), (Z.compare_spec (-1 * u) (-1 * v)); done || lia).
      rewrite HC. destruct (e1 ?= e2); done.
    + f_equal. symmetry. apply Z.compare_lt_iff. lia.
    + f_equal. symmetry. apply Z.compare_gt_iff. lia.
    + rewrite !Z.mul_1_l, HC. destruct (e1 ?= e2); done.
Qed.

Lemma C64_order_lem (sum : list spec_float → spec_float) (x y : @W (double sum)) : number x → number y →
  (wlt x y = true ↔ units x < units y) ∧ (wle x y = true ↔ units x <= units y) ∧ (weq x y = true ↔ units x = units y).
Proof.
  intros Nx Ny. simpl. unfold SFltb, SFleb, SFeqb. rewrite compare_units by done.
  destruct (Z.compare_spec (units x) (units y)); split_and!; split; done || lia.
Qed.

(** ** Constants *)

(** No number lies between two neighbours. *)
Lemma no_number m e y : 2 ^ 52 <= m < 2 ^ 53 → -1074 <= e → number y → units y <= m * 2 ^ (e + 1074) ∨ (m + 1) * 2 ^ (e + 1074) <= units y.
Proof.
  intros Hm He Ny. pose proof (pow_pos' (e + 1074)) as Hp. destruct y as [s|s| |s m' e']; try (by destruct (nb_finite _ Ny)).
  - left. simpl units. nia.
  - destruct Ny as [_ (H1 & H2 & H3)]. pose proof (pow_pos' (e' + 1074)) as Hp'. unfold units. destruct s; [left; nia|].
    rewrite Z.mul_1_l. destruct (decide (e' <= e)) as [Hle|Hle].
    + assert (2 ^ (e + 1074) = 2 ^ (e - e') * 2 ^ (e' + 1074)) as E by (rewrite <- Z.pow_add_r by lia; f_equal; lia).
      assert (2 ^ 0 <= 2 ^ (e - e')) by (apply pow_le; lia).
      destruct (decide (Z.pos m' <= m * 2 ^ (e - e'))) as [Hc|Hc]; [left; nia|].
      destruct (decide (e' = e)) as [->|Hn].
      * right. replace (e - e) with 0 in * by lia. nia.
      * exfalso. assert (2 ^ 1 <= 2 ^ (e - e')) by (apply pow_le; lia). nia.
    + right. destruct H3 as [H3|H3]; [lia|].
      assert (2 ^ 53 * 2 ^ (e + 1074) <= 2 ^ 52 * 2 ^ (e' + 1074)).
      { rewrite <- !Z.pow_add_r by lia. apply pow_le. lia. }
      nia.
Qed.

Lemma nearest_lem a b m e : 0 < b → number (S754_finite false m e) → 2 ^ 52 < Z.pos m →
  2 * Z.abs (b * (Z.pos m * 2 ^ (e + 1074)) - a * 2 ^ 1074) <= b * 2 ^ (e + 1074) →
  nearest a b (S754_finite false m e).
Proof.
  intros Hb N Hm Hd. split; [done|]. intros y Ny.
  pose proof N as [_ (M1 & M2 & _)].
  pose proof (no_number (Z.pos m) e y ltac:(lia) ltac:(lia) Ny) as K1.
  pose proof (no_number (Z.pos m - 1) e y ltac:(lia) ltac:(lia) Ny) as K2.
  pose proof (pow_pos' (e + 1074) ltac:(lia)) as Hp.
  replace (units (S754_finite false m e)) with (Z.pos m * 2 ^ (e + 1074)) by (unfold units; lia).
  revert Hd K1 K2 Hp. generalize (2 ^ (e + 1074)), (2 ^ 1074), (units y), (Z.pos m). intros P T u k Hd K1 K2 Hp.
  destruct K1 as [K1|K1]; [destruct K2 as [K2|K2]|].
  - nia.
  - assert (u = k * P) as -> by nia. lia.
  - nia.
Qed.

Lemma C64_constants_lem (sum : list spec_float → spec_float) :
  nearest 9 10 (w090 (Arith := double sum)) ∧
  nearest 9396926207859084 (10 ^ 16) (wdev (Arith := double sum)) ∧
  nearest 1 (10 ^ 12) (wtol (Arith := double sum)).
Proof.
  simpl. split_and!; (apply nearest_lem; [lia|split; [done|vm_compute; intuition congruence]|vm_compute; congruence|vm_compute; congruence]).
Qed.

Lemma C64_extremes_lem (sum : list spec_float → spec_float) :
  (number (wmaxv (Arith := double sum)) ∧ ∀ y, number y → units y <= units (wmaxv (Arith := double sum))) ∧
  (normal (wminv (Arith := double sum)) ∧ 0 < units (wminv (Arith := double sum)) ∧
    ∀ y, normal y → 0 < units y → units (wminv (Arith := double sum)) <= units y).
Proof.
  simpl. split; [split; [split; [done|vm_compute; intuition congruence]|]|split_and!].
  - intros y Ny. destruct y as [s|s| |s m e]; try (by destruct (nb_finite _ Ny)).
    destruct Ny as [_ (H1 & H2 & _)].
    assert (Z.pos m * 2 ^ (e + 1074) <= (2 ^ 53 - 1) * 2 ^ (971 + 1074)) as H.
    { pose proof (pow_le (e + 1074) (971 + 1074)). pose proof (pow_pos' (e + 1074)). apply Z.mul_le_mono_nonneg; lia. }
    unfold units. change (2 ^ 53 - 1) with (Z.pos 9007199254740991) in H. pose proof (pow_pos' (e + 1074)).
    revert H. generalize (2 ^ (971 + 1074)). intros. destruct s; lia.
  - split; [split; [done|vm_compute; intuition congruence]|done].
  - vm_compute. done.
  - intros y [Ny Hy] Hp. destruct y as [s|s| |s m e]; try (by destruct (nb_finite _ Ny)).
    destruct Ny as [_ (H1 & H2 & _)]. simpl in Hy. unfold units in *.
    pose proof (pow_le 0 (e + 1074)). change (-1074 + 1074) with 0. destruct s; nia.
Qed.

(** ** Integers *)

Lemma shift_pos_val d m : Z.pos (Zpower.shift_pos d m) = Z.pos m * 2 ^ Z.pos d.
Proof. rewrite Zpower.shift_pos_correct. change (Z.pow_pos 2 d) with (2 ^ Z.pos d). lia. Qed.

(** A significand of 53 digits is left as it is. *)
Lemma round_aux_exact s m e : 2 ^ 52 <= Z.pos m < 2 ^ 53 → -1074 <= e <= 971 →
  binary_round_aux d_prec d_emax s (Z.pos m) e loc_Exact = S754_finite s m e.
Proof.
  intros Hm He.
  assert (Z.pos (digits2_pos m) = 53) as Hd.
  { pose proof (digits_le m 53 ltac:(lia)). pose proof (digits_le m 52 ltac:(lia)). lia. }
  assert (shr_fexp d_prec d_emax (Z.pos m) e loc_Exact = ({| shr_m := Z.pos m; shr_r := false; shr_s := false |}, e)) as E.
  { unfold shr_fexp. unfold Zdigits2. rewrite Hd.
    replace (fexp d_prec d_emax (53 + e) - e) with 0 by (unfold fexp, emin, d_prec, d_emax; lia). done. }
  unfold binary_round_aux. rewrite E. simpl round_nearest_even. rewrite E. simpl.
  rewrite (proj2 (Z.leb_le _ _)); [done|]. unfold d_prec, d_emax. lia.
Qed.
Lemma round_int s m : Z.pos m < 2 ^ 53 → ∃ m' e', binary_round d_prec d_emax s m 0 = S754_finite s m' e' ∧
  number (S754_finite s m' e') ∧ Z.pos m' * 2 ^ (e' + 1074) = Z.pos m * 2 ^ 1074.
Proof.
  intros Hm. unfold binary_round. pose proof (digits_spec m) as [D1 D2]. pose proof (digits_le m 53 ltac:(lia)) as D3.
  set (d := Z.pos (digits2_pos m)) in *. assert (1 <= d <= 53) as Hd by lia.
  replace (fexp d_prec d_emax (d + 0)) with (d - 53) by (unfold fexp, emin, d_prec, d_emax; lia).
  unfold shl_align. destruct (d - 53 - 0) as [|p|p] eqn:E; [|lia|].
  - replace d with 53 in D1, D2 by lia. rewrite round_aux_exact by lia. exists m, 0. split_and!; [done| |done]. split; [done|]. lia.
  - assert (2 ^ 52 <= Z.pos (Zpower.shift_pos p m) < 2 ^ 53) as Hs.
    { rewrite shift_pos_val. replace (Z.pos p) with (53 - d) by lia. pose proof (pow_pos' (53 - d) ltac:(lia)).
      replace (2 ^ 52) with (2 ^ (d - 1) * 2 ^ (53 - d)) by (rewrite <- Z.pow_add_r by lia; f_equal; lia).
      replace (2 ^ 53) with (2 ^ d * 2 ^ (53 - d)) by (rewrite <- Z.pow_add_r by lia; f_equal; lia). nia. }
    rewrite round_aux_exact by lia. eexists _, _. split_and!; [done| |].
    + split; [done|]. lia.
    + rewrite shift_pos_val, <- Z.mul_assoc, <- Z.pow_add_r by lia. f_equal. f_equal. lia.
Qed.

Lemma C64_integers_lem (sum : list spec_float → spec_float) z : Z.abs z < 2 ^ 53 →
  number (wofZ (Arith := double sum) z) ∧ units (wofZ (Arith := double sum) z) = z * 2 ^ 1074.
Proof.
  intros Hz. simpl. unfold d_of, binary_normalize. destruct z as [|m|m].
  - split; [by split|]. simpl units. lia.
  - destruct (round_int false m ltac:(lia)) as (m' & e' & -> & N & E). split; [done|]. unfold units. lia.
  - destruct (round_int true m ltac:(lia)) as (m' & e' & -> & N & E). split; [done|]. unfold units. lia.
Qed.

Lemma C64_abs_lem (sum : list spec_float → spec_float) (x : @W (double sum)) : number x →
  number (wabs x) ∧ units (wabs x) = Z.abs (units x).
Proof.
  intros N. destruct x as [s|s| |s m e]; try (by destruct (nb_finite _ N)). simpl wabs. split; [by eapply number_abs|].
  pose proof (mag_pos _ _ (number_abs _ _ _ N)). unfold units. destruct s; lia.
Qed.
