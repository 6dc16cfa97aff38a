(** * BinR: the four operations of double precision are correctly rounded (C64) *)

From Coq Require Import SpecFloat.
From Verif Require Import Base Double SpecNum SpecBin DoubleT BinT.
#[local] Open Scope Z_scope.

(** Where [N / P] lies with respect to the integer of the record. *)
Definition holds (r : shr_record) (N P : Z) : Prop :=
  match shr_r r, shr_s r with
  | false, false => N = shr_m r * P
  | false, true => shr_m r * P < N ∧ 2 * N < (2 * shr_m r + 1) * P
  | true, false => 2 * N = (2 * shr_m r + 1) * P
  | true, true => (2 * shr_m r + 1) * P < 2 * N ∧ N < (shr_m r + 1) * P
  end.

Lemma holds_floor r N P : 0 < P → holds r N P → shr_m r * P <= N < (shr_m r + 1) * P.
Proof. intros HP. unfold holds. destruct (shr_r r), (shr_s r); lia. Qed.

Lemma shr_1_holds r N P : 0 < P → 0 <= shr_m r → holds r N P → holds (shr_1 r) N (2 * P) ∧ 0 <= shr_m (shr_1 r).
Proof.
  intros HP. destruct r as [m r s]. unfold holds. destruct m as [|[p|p|]|p]; simpl shr_m; simpl shr_r; simpl shr_s; [..|lia];
    try rewrite (Pos2Z.inj_xI p); try rewrite (Pos2Z.inj_xO p);
    destruct r, s; simpl; lia.
Qed.
Lemma iter_holds p r N P : 0 < P → 0 <= shr_m r → holds r N P →
  holds (iter_pos shr_1 p r) N (2 ^ Z.pos p * P) ∧ 0 <= shr_m (iter_pos shr_1 p r).
Proof.
  revert r P. induction p as [p IH|p IH|]; intros r P HP Hm H.
  - assert (2 ^ Z.pos p~1 = 2 * 2 ^ Z.pos p * 2 ^ Z.pos p) as ->.
    { rewrite Pos2Z.inj_xI, Z.add_1_r, Z.pow_succ_r by lia. replace (2 * Z.pos p) with (Z.pos p + Z.pos p) by lia.
      rewrite Z.pow_add_r by lia. ring. }
    pose proof (pow_pos' (Z.pos p) ltac:(lia)).
    destruct (shr_1_holds r N P HP Hm H) as [H1 M1].
    destruct (IH _ (2 * P) ltac:(lia) M1 H1) as [H2 M2].
    destruct (IH _ (2 ^ Z.pos p * (2 * P)) ltac:(nia) M2 H2) as [H3 M3]. simpl. split; [|done].
    by replace (2 * 2 ^ Z.pos p * 2 ^ Z.pos p * P) with (2 ^ Z.pos p * (2 ^ Z.pos p * (2 * P))) by lia.
  - assert (2 ^ Z.pos p~0 = 2 ^ Z.pos p * 2 ^ Z.pos p) as ->.
    { rewrite <- Z.pow_add_r by lia. f_equal. lia. }
    pose proof (pow_pos' (Z.pos p) ltac:(lia)).
    destruct (IH _ _ HP Hm H) as [H2 M2].
    destruct (IH _ (2 ^ Z.pos p * P) ltac:(nia) M2 H2) as [H3 M3]. simpl. split; [|done].
    by replace (2 ^ Z.pos p * 2 ^ Z.pos p * P) with (2 ^ Z.pos p * (2 ^ Z.pos p * P)) by lia.
  - change (2 ^ 1) with 2. by apply shr_1_holds.
Qed.
Lemma shr_holds r e n N P : 0 < P → 0 <= shr_m r → 0 <= n → holds r N P →
  (shr r e n).2 = e + n ∧ holds (shr r e n).1 N (2 ^ n * P) ∧ 0 <= shr_m (shr r e n).1.
Proof.
  intros HP Hm Hn H. destruct n as [|p|p]; [|by split; [done|apply iter_holds]|lia].
  simpl. change (2 ^ 0) with 1. rewrite Z.mul_1_l. split_and!; [lia|done|done].
Qed.

(** Rounding a record to the nearest integer. *)
Lemma nearest_int r N P k : 0 < P → 0 <= shr_m r → holds r N P →
  let m := round_nearest_even (shr_m r) (loc_of_shr_record r) in
  shr_m r <= m <= shr_m r + 1 ∧ 2 * Z.abs (m * P - N) <= P ∧
  Z.abs (m * P - N) <= Z.abs (k * P - N) ∧
  (2 * Z.abs (m * P - N) = P → Z.even m = true) ∧
  (k ≠ m → Z.abs (m * P - N) = Z.abs (k * P - N) → 2 * Z.abs (m * P - N) = P).
Proof.
  intros HP Hm H. simpl.
  assert (∀ m, 2 * Z.abs (m * P - N) <= P → Z.abs (m * P - N) <= Z.abs (k * P - N) ∧
    (k ≠ m → Z.abs (m * P - N) = Z.abs (k * P - N) → 2 * Z.abs (m * P - N) = P)) as K.
  { intros m H1. destruct (decide (k = m)) as [->|Hn]; [split; [lia|done]|].
    assert (P <= Z.abs (k * P - m * P)). { rewrite <- Z.mul_sub_distr_r, Z.abs_mul, (Z.abs_eq P) by lia. nia. } lia. }
  destruct r as [m [] []]; unfold holds in H; simpl in *.
  - split_and!; [lia|lia|lia|apply K; lia|lia|apply K; lia].
  - destruct (Z.even m) eqn:E.
    + split_and!; [lia|lia|lia|apply K; lia|done|apply K; lia].
    + split_and!; [lia|lia|lia|apply K; lia| |apply K; lia]. intros _. by rewrite Z.add_1_r, Z.even_succ, <- Z.negb_even, E.
  - split_and!; [lia|lia|lia|apply K; lia|lia|apply K; lia].
  - split_and!; [lia|lia|lia|apply K; lia|lia|apply K; lia].
Qed.

Lemma zdigits_spec m : 0 <= m → 0 <= Zdigits2 m ∧ m < 2 ^ Zdigits2 m ∧ (0 < m → 2 ^ (Zdigits2 m - 1) <= m).
Proof.
  intros Hm. destruct m as [|p|p]; simpl Zdigits2; [by split_and!|pose proof (digits_spec p); lia|lia].
Qed.
Lemma record_holds m l : shr_m (shr_record_of_loc m l) = m.
Proof. by destruct l as [|[]]. Qed.

Lemma fexp_val x : fexp d_prec d_emax x = Z.max (x - 53) (-1074).
Proof. unfold fexp, emin, d_prec, d_emax. lia. Qed.

(** The first shift: 53 digits or the smallest exponent. *)
Lemma first_shift m e l N P : 0 < P → 0 <= m → (e <= -1074 ∨ 53 <= Zdigits2 m) → holds (shr_record_of_loc m l) N P →
  let '(r, f) := shr_fexp d_prec d_emax m e l in
  e <= f ∧ -1074 <= f ∧ holds r N (2 ^ (f - e) * P) ∧ 0 <= shr_m r < 2 ^ 53 ∧ (f = -1074 ∨ 2 ^ 52 <= shr_m r).
Proof.
  intros HP Hm He H. unfold shr_fexp. rewrite fexp_val. set (D := Zdigits2 m) in *.
  destruct (shr_holds (shr_record_of_loc m l) e (Z.max (D + e - 53) (-1074) - e) N P) as (E & H1 & M1);
    [done|by rewrite record_holds|lia|done|].
  destruct (shr _ _ _) as [r f]. simpl in E, H1, M1. subst f.
  set (n := Z.max (D + e - 53) (-1074) - e) in *. replace (e + n - e) with n by lia.
  pose proof (pow_pos' n ltac:(lia)) as Hp.
  pose proof (holds_floor _ _ _ HP H) as HF. rewrite record_holds in HF.
  pose proof (holds_floor _ _ (2 ^ n * P) ltac:(nia) H1) as HF1.
  destruct (zdigits_spec m Hm) as (Z0 & Z1 & Z2). fold D in Z0, Z1, Z2.
  split_and!; [lia|lia|done|done| |].
  - assert (2 ^ D <= 2 ^ 53 * 2 ^ n). { rewrite <- Z.pow_add_r by lia. apply pow_le. lia. }
    destruct (decide (shr_m r < 2 ^ 53)); [done|]. exfalso.
    assert ((m + 1) * P <= 2 ^ 53 * 2 ^ n * P) by (apply Z.mul_le_mono_nonneg_r; lia).
    assert (2 ^ 53 * (2 ^ n * P) <= shr_m r * (2 ^ n * P)) by (apply Z.mul_le_mono_nonneg_r; nia). lia.
  - destruct (decide (e + n = -1074)) as [|Hn]; [by left|right].
    assert (n = D - 53) as En by lia. assert (0 < m) as Hm0. { destruct (decide (m = 0)) as [->|]; [|lia]. simpl in D. lia. }
    assert (2 ^ (D - 1) = 2 ^ 52 * 2 ^ n) as Ep. { rewrite <- Z.pow_add_r by lia. f_equal. lia. }
    destruct (decide (2 ^ 52 <= shr_m r)); [done|]. exfalso.
    assert (2 ^ 52 * 2 ^ n * P <= m * P) by (apply Z.mul_le_mono_nonneg_r; lia).
    assert ((shr_m r + 1) * (2 ^ n * P) <= 2 ^ 52 * (2 ^ n * P)) by (apply Z.mul_le_mono_nonneg_r; nia). lia.
Qed.

(** The second shift removes a carry. *)
Lemma second_shift m f : 0 <= m <= 2 ^ 53 → -1074 <= f → (f = -1074 ∨ 2 ^ 52 <= m) →
  let '(r, g) := shr_fexp d_prec d_emax m f loc_Exact in
  (m < 2 ^ 53 ∧ shr_m r = m ∧ g = f) ∨ (m = 2 ^ 53 ∧ shr_m r = 2 ^ 52 ∧ g = f + 1).
Proof.
  intros Hm Hf Hc. unfold shr_fexp. rewrite fexp_val.
  destruct (zdigits_spec m ltac:(lia)) as (Z0 & Z1 & Z2).
  destruct (decide (m = 2 ^ 53)) as [->|Hn].
  - change (Zdigits2 (2 ^ 53)) with 54. replace (Z.max (54 + f - 53) (-1074) - f) with 1 by lia. right. by split_and!.
  - assert (Zdigits2 m <= 53).
    { destruct (decide (Zdigits2 m <= 53)); [done|]. exfalso. pose proof (pow_le 53 (Zdigits2 m - 1)).
      destruct (decide (m = 0)) as [->|]; [simpl in *; lia|lia]. }
    assert (f = -1074 ∨ Zdigits2 m = 53) as Hd.
    { destruct Hc as [|Hc]; [by left|right]. pose proof (pow_le (Zdigits2 m) 52).
      destruct (decide (Zdigits2 m = 53)); [done|]. lia. }
    replace (Z.max (Zdigits2 m + f - 53) (-1074) - f) with 0 by lia. left. split_and!; [lia|done|done].
Qed.

(** The numbers near a place with 53 digits or the smallest exponent. *)
Lemma number_near y f : -1074 <= f → number y →
  (∃ k, units y = k * 2 ^ (f + 1074)) ∨ (f ≠ -1074 ∧ Z.abs (units y) < 2 ^ 52 * 2 ^ (f + 1074)).
Proof.
  intros Hf Ny. destruct y as [s|s| |s m e]; try (by destruct (nb_finite _ Ny)); [left; exists 0; done|].
  destruct Ny as [_ (H1 & H2 & H3)]. pose proof (pow_pos' (e + 1074) ltac:(lia)).
  destruct (decide (f <= e)) as [Hle|Hlt].
  - left. unfold units. exists ((if s then -1 else 1) * Z.pos m * 2 ^ (e - f)).
    rewrite <- (Z.mul_assoc _ (2 ^ (e - f))), <- Z.pow_add_r by lia. f_equal. f_equal. lia.
  - right. split; [lia|].
    assert (2 ^ 53 * 2 ^ (e + 1074) <= 2 ^ 52 * 2 ^ (f + 1074)).
    { rewrite <- !Z.pow_add_r by lia. apply pow_le. lia. }
    unfold units. destruct s; nia.
Qed.

Lemma number_opp x : number x → number (SFopp x).
Proof. intros N. destruct x; try (by destruct (nb_finite _ N)); destruct N; by split. Qed.
Lemma units_opp x : units (SFopp x) = - units x.
Proof. destruct x as [| | |s m e]; simpl; try done. destruct s; simpl; lia. Qed.
Lemma closest_opp n d x : closest n d x → closest (- n) d (SFopp x).
Proof.
  intros [N H]. split; [by apply number_opp|]. intros y Ny. destruct (H (SFopp y) (number_opp _ Ny)) as [H1 H2].
  rewrite units_opp in H1, H2. rewrite units_opp.
  assert (sig (SFopp x) = sig x) as -> by (by destruct x).
  replace (d * - units x - - n) with (- (d * units x - n)) by lia.
  replace (Z.abs (d * units y - - n)) with (Z.abs (d * - units y - n)) by lia. rewrite Z.abs_opp.
  split; [done|]. intros Hne. apply H2. lia.
Qed.

(** A record located with respect to [N / P], where [N / P] times 2^e is [n / d]
    units, is rounded correctly. *)
Lemma round_aux_closest s m e l N P K n d : 0 < P → 0 < d → 0 <= K → 0 <= e + 1074 + K → 0 <= m →
  (e <= -1074 ∨ 53 <= Zdigits2 m) → holds (shr_record_of_loc m l) N P →
  n * P * 2 ^ K = N * d * 2 ^ (e + 1074 + K) →
  ∃ x, binary_round_aux d_prec d_emax s m e l = (if s then SFopp x else x) ∧
    if decide (d * ((2 ^ 54 - 1) * 2 ^ 2044) <= n) then x = S754_infinity false else closest n d x.
Proof.
  intros HP Hd HK HeK Hm He H En. unfold binary_round_aux.
  pose proof (first_shift m e l N P HP Hm He H) as F1. destruct (shr_fexp d_prec d_emax m e l) as [r f].
  destruct F1 as (F1 & F2 & F3 & F4 & F5).
  pose proof (pow_pos' (f - e) ltac:(lia)) as Hfe. set (Q := 2 ^ (f - e) * P) in *. assert (0 < Q) as HQ by (subst Q; nia).
  set (F := 2 ^ (f + 1074)) in *. pose proof (pow_pos' (f + 1074) ltac:(lia)) as HF. fold F in HF.
  assert (n * Q = N * d * F) as EQ.
  { apply (Z.mul_reg_r _ _ (2 ^ K)); [pose proof (pow_pos' K HK); lia|].
    subst Q F. replace (n * (2 ^ (f - e) * P) * 2 ^ K) with (n * P * 2 ^ K * 2 ^ (f - e)) by ring. rewrite En.
    rewrite <- !Z.mul_assoc, <- !Z.pow_add_r by lia. do 3 f_equal. lia. }
  clear En.
  set (k := round_nearest_even (shr_m r) (loc_of_shr_record r)).
  pose proof (λ k', nearest_int r N Q k' HQ (proj1 F4) F3) as NI. fold k in NI. simpl in NI.
  destruct (NI 0) as (K1 & K2 & _ & K4 & _).
  pose proof (second_shift k f ltac:(lia) F2 ltac:(lia)) as S2. destruct (shr_fexp d_prec d_emax k f loc_Exact) as [r2 g].
  assert (∀ y, number y → Z.abs (d * (k * F) - n) <= Z.abs (d * units y - n) ∧
    (units y ≠ k * F → Z.abs (d * (k * F) - n) = Z.abs (d * units y - n) → Z.even k = true)) as HC.
  { intros y Ny. set (u := units y).
    assert (∀ v, Q * Z.abs (d * v - n) = d * Z.abs (v * Q - N * F)) as EV.
    { intros v. rewrite <- (Z.abs_eq Q) at 1 by lia. rewrite <- (Z.abs_eq d) at 2 by lia. rewrite <- !Z.abs_mul. f_equal.
      rewrite !Z.mul_sub_distr_l. rewrite (Z.mul_comm Q n), EQ. ring. }
    assert (Z.abs (k * F * Q - N * F) <= Z.abs (u * Q - N * F) ∧
      (u ≠ k * F → Z.abs (k * F * Q - N * F) = Z.abs (u * Q - N * F) → Z.even k = true)) as [G1 G2].
    { assert (∀ j, Z.abs (j * F * Q - N * F) = Z.abs (j * Q - N) * F) as EJ.
      { intros j. rewrite <- (Z.abs_eq F) at 3 by lia. rewrite <- Z.abs_mul. f_equal. ring. }
      rewrite EJ. destruct (number_near y f F2 Ny) as [[j Hj]|[Hn Hj]]; fold u F in Hj.
      - rewrite Hj, EJ. destruct (NI j) as (_ & _ & J3 & J4 & J5). split; [apply Z.mul_le_mono_nonneg_r; lia|]. intros H1 H2. apply J4, J5; [by intros ->|]. apply Z.mul_reg_r in H2; lia.
      - destruct F5 as [|F5]; [done|]. destruct (NI (2 ^ 52)) as (_ & _ & J3 & _).
        pose proof (holds_floor _ _ _ HQ F3) as HFl.
        assert (2 ^ 52 * Q <= N) as HN. { assert (2 ^ 52 * Q <= shr_m r * Q) by (apply Z.mul_le_mono_nonneg_r; lia). lia. }
        assert (Z.abs (k * Q - N) * F < Z.abs (u * Q - N * F)) as Hlt; [|split; [lia|intros; lia]].
        assert (Z.abs (k * Q - N) * F <= (N - 2 ^ 52 * Q) * F) by (apply Z.mul_le_mono_nonneg_r; lia).
        assert (u * Q < 2 ^ 52 * F * Q) by (apply Z.mul_lt_mono_pos_r; lia). lia. }
    pose proof (EV (k * F)) as E1. pose proof (EV u) as E2. split.
    - apply (Z.mul_le_mono_pos_l _ _ Q HQ). rewrite E1, E2. apply Z.mul_le_mono_nonneg_l; lia.
    - intros H1 H2. apply G2; [done|]. apply (Z.mul_reg_l _ _ d); [lia|]. rewrite <- E1, <- E2, H2. done. }
  assert (d * (2 * k * F) - d * F <= 2 * n <= d * (2 * k * F) + d * F ∧
    (2 * n = d * (2 * k * F) + d * F → Z.even k = true)) as [HB1 HB2].
  { assert ((2 * k - 1) * Q <= 2 * N <= (2 * k + 1) * Q) as [B1 B2] by lia. split; [split|].
    - apply (Z.mul_le_mono_pos_l _ _ Q HQ). replace (Q * (2 * n)) with (2 * (n * Q)) by ring. rewrite EQ.
      assert ((2 * k - 1) * Q * (d * F) <= 2 * N * (d * F)) by (apply Z.mul_le_mono_nonneg_r; nia). lia.
    - apply (Z.mul_le_mono_pos_l _ _ Q HQ). replace (Q * (2 * n)) with (2 * (n * Q)) by ring. rewrite EQ.
      assert (2 * N * (d * F) <= (2 * k + 1) * Q * (d * F)) by (apply Z.mul_le_mono_nonneg_r; nia). lia.
    - intros E. apply K4.
      assert (2 * N * (d * F) = (2 * k + 1) * Q * (d * F)) as E'.
      { replace (2 * N * (d * F)) with (2 * (N * d * F)) by ring. rewrite <- EQ. replace (2 * (n * Q)) with (2 * n * Q) by ring. rewrite E. ring. }
      apply Z.mul_reg_r in E'; [lia|nia]. }
  assert (f ≠ -1074 → d * (2 ^ 52 * F) <= n) as HB3.
  { intros Hf. destruct F5 as [|F5]; [done|]. pose proof (holds_floor _ _ _ HQ F3) as HFl.
    assert (2 ^ 52 * Q <= N) as HN. { assert (2 ^ 52 * Q <= shr_m r * Q) by (apply Z.mul_le_mono_nonneg_r; lia). lia. }
    apply (Z.mul_le_mono_pos_l _ _ Q HQ). rewrite (Z.mul_comm Q n), EQ.
    assert (2 ^ 52 * Q * (d * F) <= N * (d * F)) by (apply Z.mul_le_mono_nonneg_r; nia). lia. }
  clearbody k. clear NI H F3 K2 K4 EQ.
  assert (shr_m r2 * 2 ^ (g + 1074) = k * F ∧ (Z.even k = true → Z.even (shr_m r2) = true) ∧
    0 <= shr_m r2 < 2 ^ 53 ∧ (g = -1074 ∨ 2 ^ 52 <= shr_m r2) ∧ -1074 <= g) as (G1 & G2 & G3 & G4 & G5).
  { destruct S2 as [(S1 & -> & ->)|(-> & -> & ->)].
    - split_and!; try done; lia.
    - split_and!; try done; try lia. subst F. rewrite <- !Z.pow_add_r by lia. f_equal. lia. }
  set (T := (2 ^ 54 - 1) * 2 ^ 2044) in *.
  destruct (decide (g <= 971)) as [Hg|Hg].
  - (* no overflow *)
    assert (n < d * T) as HT.
    { destruct (decide (f = 971)) as [->|Hf].
      - assert (k < 2 ^ 53) as Hk by lia. change (2 ^ (971 + 1074)) with (2 * 2 ^ 2044) in F. subst F T.
        destruct (decide (k = 2 ^ 53 - 1)) as [->|Hk'].
        + destruct (decide (2 * n = d * (2 * (2 ^ 53 - 1) * (2 * 2 ^ 2044)) + d * (2 * 2 ^ 2044))) as [E|E]; [by apply HB2 in E|].
          revert HB1 E. generalize (2 ^ 2044). intros t HB1 E. lia.
        + assert (k <= 2 ^ 53 - 2) as Hk2 by lia. revert HB1 HF. generalize (2 ^ 2044). intros t HB1 HF.
          assert (0 < d * t) by nia. assert (d * t * k <= d * t * (2 ^ 53 - 2)) by (apply Z.mul_le_mono_nonneg_l; lia). lia.
      - assert (F <= 2 ^ 2044) as HF2 by (subst F; apply pow_le; lia). subst T. revert HF2. generalize (2 ^ 2044). intros t HF2.
        assert (k <= 2 ^ 53) by lia. assert (0 < d * F) by nia.
        assert (d * F * k <= d * F * 2 ^ 53) by (apply Z.mul_le_mono_nonneg_l; lia).
        assert (d * F <= d * t) by (apply Z.mul_le_mono_nonneg_l; lia). lia. }
    assert (¬ d * T <= n) by lia.
    destruct (shr_m r2) as [|p|p] eqn:Er; [| |lia].
    + exists (S754_zero false). split; [by destruct s|]. rewrite decide_False by done. split; [by split|].
      intros y Ny. simpl. destruct (HC y Ny) as [C1 C2].
      assert (k = 0) as -> by nia. split; [by rewrite Z.mul_0_r; rewrite Z.mul_0_l, Z.mul_0_r in C1|done].
    + exists (S754_finite false p g). rewrite (proj2 (Z.leb_le _ _)) by (unfold d_prec, d_emax; lia).
      split; [by destruct s|]. rewrite decide_False by done. split; [split; [done|lia]|].
      intros y Ny. destruct (HC y Ny) as [C1 C2].
      assert (units (S754_finite false p g) = k * F) as -> by (unfold units; lia).
      split; [done|]. intros H1 H2. by apply G2, C2.
  - assert (d * T <= n) as HT.
    { destruct S2 as [(S1 & _ & ->)|(-> & _ & ->)].
      - assert (2 ^ 2046 <= F) as HF2 by (subst F; apply pow_le; lia). pose proof (HB3 ltac:(lia)) as HB4.
        assert (T <= 2 ^ 52 * F) as HTF. { subst T. change (2 ^ 2046) with (4 * 2 ^ 2044) in HF2. pose proof (pow_pos' 2044 ltac:(lia)) as Hp. revert HF2 Hp. generalize (2 ^ 2044). lia. }
        assert (d * T <= d * (2 ^ 52 * F)) by (apply Z.mul_le_mono_nonneg_l; lia). lia.
      - assert (2 ^ 2045 <= F) as HF2 by (subst F; apply pow_le; lia).
        assert (2 * T <= (2 ^ 54 - 1) * F) as HTF. { subst T. change (2 ^ 2045) with (2 * 2 ^ 2044) in HF2. revert HF2. generalize (2 ^ 2044). lia. }
        assert (d * (2 * T) <= d * ((2 ^ 54 - 1) * F)) by (apply Z.mul_le_mono_nonneg_l; lia). lia. }
    destruct (shr_m r2) as [|p|p] eqn:Er; [lia| |lia].
    exists (S754_infinity false). rewrite (proj2 (Z.leb_gt _ _)) by (unfold d_prec, d_emax; lia).
    split; [by destruct s|]. by rewrite decide_True by done.
Qed.

Lemma rounded_sign (s : bool) n d x : 0 < n →
  (if decide (d * ((2 ^ 54 - 1) * 2 ^ 2044) <= n) then x = S754_infinity false else closest n d x) →
  rounded (if s then - n else n) d (if s then SFopp x else x).
Proof.
  intros Hn H. unfold rounded. destruct s.
  - rewrite Z.abs_opp, Z.abs_eq by lia. destruct (decide _); [|by apply closest_opp].
    rewrite H, (proj2 (Z.ltb_lt _ _)) by lia. done.
  - rewrite Z.abs_eq by lia. destruct (decide _); [|done]. rewrite H, (proj2 (Z.ltb_ge _ _)) by lia. done.
Qed.
Lemma rounded_self n x : number x → n = units x → rounded n 1 x.
Proof.
  intros N ->. unfold rounded. rewrite decide_False.
  - split; [done|]. intros y Ny. rewrite !Z.mul_1_l, Z.sub_diag. split; [simpl; lia|]. simpl. intros. lia.
  - destruct (C64_extremes_lem d_sum) as [[_ H] _]. specialize (H _ N) as H1. specialize (H _ (number_opp _ N)) as H2.
    rewrite units_opp in H2. simpl in H1, H2.
    replace (2 ^ (971 + 1074)) with (2 * 2 ^ 2044) in H1, H2 by done.
    pose proof (pow_pos' 2044 ltac:(lia)) as Hp. revert H1 H2 Hp. generalize (2 ^ 2044). lia.
Qed.

Lemma zdigits_ge m k : 0 <= k → 2 ^ k <= m → k + 1 <= Zdigits2 m.
Proof.
  intros Hk H. destruct (zdigits_spec m) as (Z0 & Z1 & _); [pose proof (pow_pos' k Hk); lia|].
  destruct (decide (k + 1 <= Zdigits2 m)); [done|]. pose proof (pow_le (Zdigits2 m) k). lia.
Qed.
Lemma shl_align_val m e t : ∃ m' e', shl_align m e t = (m', e') ∧ e' = Z.min e t ∧ Z.pos m' = Z.pos m * 2 ^ (e - e').
Proof.
  unfold shl_align. destruct (t - e) as [|p|p] eqn:E.
  - eexists _, _. split_and!; [done|lia|]. rewrite Z.sub_diag. simpl. lia.
  - eexists _, _. split_and!; [done|lia|]. rewrite Z.sub_diag. simpl. lia.
  - eexists _, _. split_and!; [done|lia|]. rewrite shift_pos_val. f_equal. f_equal. lia.
Qed.
Lemma align_fst m e t : t <= e → Z.pos (shl_align m e t).1 = Z.pos m * 2 ^ (e - t).
Proof. intros H. destruct (shl_align_val m e t) as (m' & e' & -> & -> & E). simpl. rewrite E. f_equal. f_equal. lia. Qed.

Lemma binary_round_ok (s : bool) m e : -1074 <= e →
  rounded (if s then - (Z.pos m * 2 ^ (e + 1074)) else Z.pos m * 2 ^ (e + 1074)) 1 (binary_round d_prec d_emax s m e).
Proof.
  intros He. unfold binary_round. rewrite fexp_val.
  destruct (shl_align_val m e (Z.max (Z.pos (digits2_pos m) + e - 53) (-1074))) as (m' & e' & -> & Ee & Em).
  pose proof (digits_spec m) as [D1 _].
  destruct (round_aux_closest s (Z.pos m') e' loc_Exact (Z.pos m') 1 0 (Z.pos m * 2 ^ (e + 1074)) 1) as (x & -> & Hx); try lia.
  - destruct (decide (e' <= -1074)) as [|Hn]; [by left|right]. apply (zdigits_ge _ 52); [lia|]. rewrite Em.
    assert (2 ^ 52 <= 2 ^ (Z.pos (digits2_pos m) - 1) * 2 ^ (e - e')).
    { rewrite <- Z.pow_add_r by lia. apply pow_le. lia. }
    assert (2 ^ (Z.pos (digits2_pos m) - 1) * 2 ^ (e - e') <= Z.pos m * 2 ^ (e - e')).
    { apply Z.mul_le_mono_nonneg_r; [|done]. pose proof (pow_pos' (e - e')). lia. }
    lia.
  - unfold holds. simpl. lia.
  - rewrite Em. change (2 ^ 0) with 1. rewrite !Z.mul_1_r, <- Z.mul_assoc, <- Z.pow_add_r by lia. f_equal. f_equal. lia.
  - apply rounded_sign; [|done]. pose proof (pow_pos' (e + 1074)). nia.
Qed.
Lemma normalize_ok z e : -1074 <= e → rounded (z * 2 ^ (e + 1074)) 1 (binary_normalize d_prec d_emax z e false).
Proof.
  intros He. destruct z as [|m|m]; simpl binary_normalize.
  - apply rounded_self; [by split|]. simpl. lia.
  - apply (binary_round_ok false m e He).
  - replace (Z.neg m * 2 ^ (e + 1074)) with (- (Z.pos m * 2 ^ (e + 1074))) by lia. apply (binary_round_ok true m e He).
Qed.

Lemma aligned s m e t : -1074 <= t <= e → cond_Zopp s (Z.pos (shl_align m e t).1) * 2 ^ (t + 1074) = units (S754_finite s m e).
Proof.
  intros H. rewrite align_fst by lia. unfold units, cond_Zopp.
  assert (2 ^ (e + 1074) = 2 ^ (e - t) * 2 ^ (t + 1074)) as -> by (rewrite <- Z.pow_add_r by lia; f_equal; lia).
  destruct s; ring.
Qed.

Lemma C64_add_lem (sum : list spec_float → spec_float) (x y : @W (double sum)) : number x → number y →
  rounded (units x + units y) 1 (wadd x y).
Proof.
  intros Nx Ny. simpl. unfold d_add.
  destruct x as [s1|s1| |s1 m1 e1], y as [s2|s2| |s2 m2 e2]; try (by destruct (nb_finite _ Nx)); try (by destruct (nb_finite _ Ny)).
  - simpl SFadd. apply rounded_self; destruct (Bool.eqb s1 s2); done.
  - simpl SFadd. by apply rounded_self.
  - simpl SFadd. apply rounded_self; [done|]. simpl units. lia.
  - unfold SFadd. destruct Nx as [_ (_ & X & _)], Ny as [_ (_ & Y & _)].
    rewrite <- (aligned s1 m1 e1 (Z.min e1 e2)), <- (aligned s2 m2 e2 (Z.min e1 e2)), <- Z.mul_add_distr_r by lia.
    apply normalize_ok. lia.
Qed.
Lemma C64_sub_lem (sum : list spec_float → spec_float) (x y : @W (double sum)) : number x → number y →
  rounded (units x - units y) 1 (wsub x y).
Proof.
  intros Nx Ny. simpl. unfold d_sub.
  destruct x as [s1|s1| |s1 m1 e1], y as [s2|s2| |s2 m2 e2]; try (by destruct (nb_finite _ Nx)); try (by destruct (nb_finite _ Ny)).
  - simpl SFsub. apply rounded_self; destruct (Bool.eqb s1 (negb s2)); done.
  - simpl SFsub. apply rounded_self; [apply (number_opp _ Ny)|]. change (S754_finite (negb s2) m2 e2) with (SFopp (S754_finite s2 m2 e2)). rewrite units_opp. done.
  - simpl SFsub. apply rounded_self; [done|]. simpl units. lia.
  - unfold SFsub. destruct Nx as [_ (_ & X & _)], Ny as [_ (_ & Y & _)].
    rewrite <- (aligned s1 m1 e1 (Z.min e1 e2)), <- (aligned s2 m2 e2 (Z.min e1 e2)), <- Z.mul_sub_distr_r by lia.
    apply normalize_ok. lia.
Qed.

Lemma rounded_zero s d : 0 < d → rounded 0 d (S754_zero s).
Proof.
  intros Hd. unfold rounded. rewrite decide_False.
  - split; [by split|]. intros y Ny. simpl units. split; [lia|]. intros H1 H2. by destruct s.
  - pose proof (pow_pos' 2044 ltac:(lia)) as Hp. revert Hp. generalize (2 ^ 2044). simpl. intros t Ht. nia.
Qed.

Lemma C64_mul_lem (sum : list spec_float → spec_float) (x y : @W (double sum)) : number x → number y →
  rounded (units x * units y) (2 ^ 1074) (wmul x y).
Proof.
  intros Nx Ny. simpl. unfold d_mul.
  destruct x as [s1|s1| |s1 m1 e1], y as [s2|s2| |s2 m2 e2]; try (by destruct (nb_finite _ Nx)); try (by destruct (nb_finite _ Ny)).
  - by apply rounded_zero.
  - by apply rounded_zero.
  - simpl SFmul. simpl units. rewrite Z.mul_0_r. by apply rounded_zero.
  - pose proof (mag_pos _ _ (number_abs _ _ _ Nx)) as PX. pose proof (mag_pos _ _ (number_abs _ _ _ Ny)) as PY.
    destruct Nx as [_ (X1 & X2 & X3)], Ny as [_ (Y1 & Y2 & Y3)]. simpl SFmul.
    assert (units (S754_finite s1 m1 e1) * units (S754_finite s2 m2 e2) =
      if xorb s1 s2 then - (Z.pos m1 * 2 ^ (e1 + 1074) * (Z.pos m2 * 2 ^ (e2 + 1074))) else Z.pos m1 * 2 ^ (e1 + 1074) * (Z.pos m2 * 2 ^ (e2 + 1074))) as ->.
    { unfold units. destruct s1, s2; simpl xorb; ring. }
    destruct (round_aux_closest (xorb s1 s2) (Z.pos (m1 * m2)) (e1 + e2) loc_Exact (Z.pos (m1 * m2)) 1 1074
      (Z.pos m1 * 2 ^ (e1 + 1074) * (Z.pos m2 * 2 ^ (e2 + 1074))) (2 ^ 1074)) as (z & -> & Hz); try lia.
    + assert (∀ m : positive, 0 < Z.pos m) as P0 by lia. pose proof (P0 m1). pose proof (P0 m2).
      assert (2 ^ 52 <= Z.pos m1 ∨ 2 ^ 52 <= Z.pos m2 ∨ e1 + e2 <= -1074) as [HH|[HH|HH]] by lia; [right|right|by left];
      apply (zdigits_ge _ 52); try lia; rewrite Pos2Z.inj_mul; nia.
    + unfold holds. simpl. lia.
    + rewrite Pos2Z.inj_mul. 
      assert (2 ^ (e1 + e2 + 1074 + 1074) = 2 ^ (e1 + 1074) * 2 ^ (e2 + 1074)) as -> by (rewrite <- Z.pow_add_r by lia; f_equal; lia). ring.
    + apply rounded_sign; [nia|done].
Qed.

Lemma new_location_holds q r b : 0 < b → 0 <= r < b → holds (shr_record_of_loc q (new_location b r)) (b * q + r) b.
Proof.
  intros Hb Hr. unfold new_location, new_location_even, new_location_odd, holds.
  destruct (Z.even b) eqn:E.
  - destruct (Zeq_bool r 0) eqn:E0; [apply Zeq_bool_eq in E0; simpl; lia|apply Zeq_bool_neq in E0].
    destruct (Z.compare_spec (2 * r) b); simpl; lia.
  - destruct (Zeq_bool r 0) eqn:E0; [apply Zeq_bool_eq in E0; simpl; lia|apply Zeq_bool_neq in E0].
    assert (b = 2 * (b / 2) + 1) as Hodd. { rewrite (Z.div_mod b 2) at 1 by lia. rewrite Zmod_odd, <- Z.negb_even, E. done. }
    destruct (Z.compare_spec (2 * r + 1) b); simpl; lia.
Qed.

Lemma C64_div_lem (sum : list spec_float → spec_float) (x y : @W (double sum)) : number x → number y → units y ≠ 0 →
  rounded (units x * Z.sgn (units y) * 2 ^ 1074) (Z.abs (units y)) (wdiv x y).
Proof.
  intros Nx Ny Hy. simpl. unfold d_div.
  destruct x as [s1|s1| |s1 m1 e1], y as [s2|s2| |s2 m2 e2]; try (by destruct (nb_finite _ Nx)); try (by destruct (nb_finite _ Ny)); try (by destruct Hy).
  - apply rounded_zero. lia.
  - pose proof (mag_pos _ _ (number_abs _ _ _ Nx)) as PX. pose proof (mag_pos _ _ (number_abs _ _ _ Ny)) as PY.
    destruct Nx as [_ (X1 & X2 & X3)], Ny as [_ (Y1 & Y2 & Y3)].
    set (n := Z.pos m1 * 2 ^ (e1 + 1074) * 2 ^ 1074). set (d := Z.pos m2 * 2 ^ (e2 + 1074)) in *.
    assert (0 < n) as Hn. { subst n. pose proof (pow_pos' 1074). nia. }
    assert (Z.abs (units (S754_finite s2 m2 e2)) = d) as ->.
    { unfold units. rewrite <- Z.mul_assoc. fold d. destruct s2; lia. }
    assert (units (S754_finite s1 m1 e1) * Z.sgn (units (S754_finite s2 m2 e2)) * 2 ^ 1074 = if xorb s1 s2 then - n else n) as ->.
    { assert (Z.sgn (units (S754_finite s2 m2 e2)) = if s2 then -1 else 1) as ->.
      { unfold units. rewrite <- Z.mul_assoc. fold d. destruct s2; lia. }
      subst n. unfold units. destruct s1, s2; simpl xorb; ring. }
    unfold SFdiv, SFdiv_core_binary. rewrite fexp_val. simpl Zdigits2.
    set (d1 := Z.pos (digits2_pos m1)). set (d2 := Z.pos (digits2_pos m2)).
    set (e' := Z.min (Z.max (d1 + e1 - (d2 + e2) - 53) (-1074)) (e1 - e2)).
    assert (match e1 - e2 - e' with Z0 => Z.pos m1 | Z.pos _ => Z.shiftl (Z.pos m1) (e1 - e2 - e') | Z.neg _ => 0 end = Z.pos m1 * 2 ^ (e1 - e2 - e')) as ->.
    { destruct (e1 - e2 - e') as [|p|p] eqn:E; [simpl; lia| |lia]. rewrite Z.shiftl_mul_pow2 by lia. done. }
    set (A := Z.pos m1 * 2 ^ (e1 - e2 - e')).
    pose proof (Z_div_mod A (Z.pos m2) ltac:(lia)) as HD. destruct (Z.div_eucl A (Z.pos m2)) as [q r]. destruct HD as [HD1 HD2].
    pose proof (pow_pos' (e1 - e2 - e') ltac:(lia)) as Hp.
    assert (0 < A) as HA by (subst A; nia). assert (0 <= q) as Hq by nia.
    destruct (round_aux_closest (xorb s1 s2) q e' (new_location (Z.pos m2) r) A (Z.pos m2) 8192 n d) as (z & -> & Hz); try lia.
    + destruct (decide (e' <= -1074)) as [|Hne]; [by left|right]. apply (zdigits_ge _ 52); [lia|].
      (* A >= 2^(d1-1) 2^(e1-e2-e'), m2 < 2^d2, and d1 - 1 + e1 - e2 - e' >= 52 + d2 *)
      pose proof (digits_spec m1) as [D1 _]. pose proof (digits_spec m2) as [_ D2]. fold d1 in D1. fold d2 in D2.
      assert (2 ^ 52 * 2 ^ d2 <= 2 ^ (d1 - 1) * 2 ^ (e1 - e2 - e')).
      { rewrite <- !Z.pow_add_r by lia. apply pow_le. lia. }
      assert (2 ^ (d1 - 1) * 2 ^ (e1 - e2 - e') <= A) by (subst A; apply Z.mul_le_mono_nonneg_r; lia).
      destruct (decide (2 ^ 52 <= q)); [done|]. exfalso.
      assert (Z.pos m2 * (q + 1) <= Z.pos m2 * 2 ^ 52) by (apply Z.mul_le_mono_nonneg_l; lia). lia.
    + rewrite HD1. by apply new_location_holds.
    + subst n d A.
      assert (2 ^ (e1 - e2 - e') * 2 ^ (e2 + 1074) * 2 ^ (e' + 1074 + 8192) = 2 ^ (e1 + 1074) * 2 ^ 1074 * 2 ^ 8192) as E.
      { rewrite <- !Z.pow_add_r by lia. f_equal. lia. }
      transitivity (Z.pos m1 * Z.pos m2 * (2 ^ (e1 + 1074) * 2 ^ 1074 * 2 ^ 8192)); [ring|]. rewrite <- E. ring.
    + by apply rounded_sign.
Qed.
