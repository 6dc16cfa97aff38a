(** * RootT: square roots are correctly rounded (C64) *)

From Coq Require Import SpecFloat.
From Verif Require Import Base Double SpecNum SpecBin SpecRoot DoubleT BinT BinR.
#[local] Open Scope Z_scope.

Lemma round_aux_53 q e l : 2 ^ 52 <= q < 2 ^ 53 → -1074 <= e → e + 1 <= 971 →
  ∃ x, binary_round_aux d_prec d_emax false q e l = x ∧ number x ∧ units x = round_nearest_even q l * 2 ^ (e + 1074).
Proof.
  intros Hq He1 He2. unfold binary_round_aux. unfold shr_fexp at 1. rewrite fexp_val.
  assert (Zdigits2 q = 53) as ->.
  { pose proof (zdigits_ge q 52 ltac:(lia) ltac:(lia)). destruct (zdigits_spec q ltac:(lia)) as (Z0 & Z1 & Z2).
    destruct (decide (Zdigits2 q = 53)); [done|]. pose proof (pow_le 53 (Zdigits2 q - 1)). lia. }
  replace (Z.max (53 + e - 53) (-1074) - e) with 0 by lia. cbn [shr].
  set (k := round_nearest_even _ _).
  assert (k = round_nearest_even q l) as Ek. { subst k. by destruct l as [|[]]. }
  assert (q <= k <= q + 1) as Hk. { rewrite Ek. destruct l as [|[]]; simpl; try lia. destruct (Z.even q); simpl; lia. }
  rewrite <- Ek. clearbody k.
  pose proof (second_shift k e ltac:(lia) He1 ltac:(lia)) as S2. destruct (shr_fexp d_prec d_emax k e loc_Exact) as [r2 g].
  assert (shr_m r2 * 2 ^ (g + 1074) = k * 2 ^ (e + 1074) ∧ 2 ^ 52 <= shr_m r2 < 2 ^ 53 ∧ -1074 <= g <= 971) as (G1 & G2 & G3).
  { destruct S2 as [(S1 & -> & ->)|(-> & -> & ->)]; split_and!; try done; try lia.
    rewrite <- !Z.pow_add_r by lia. f_equal. lia. }
  destruct (shr_m r2) as [|p|p]; [lia| |lia].
  rewrite (proj2 (Z.leb_le _ _)) by (unfold d_prec, d_emax; lia).
  eexists. split; [done|]. split; [split; [done|]|]. { lia. } unfold units. lia.
Qed.

Lemma C64_root_lem (sum : list spec_float → spec_float) (x : @W (double sum)) : number x →
  (0 <= units x → closest_root (units x) (wsqrt x)) ∧ (units x < 0 → wsqrt x = S754_nan).
Proof.
  intros Nx. simpl. unfold d_sqrt. destruct x as [s|s| |s m e]; try (by destruct (nb_finite _ Nx)).
  - simpl. split; [|lia]. intros _. split; [by split|]. split; [simpl; lia|]. intros y Ny. simpl. split; intros; nia.
  - pose proof (mag_pos _ _ (number_abs _ _ _ Nx)) as PX. destruct s; [split; [unfold units; lia|done]|].
    split; [intros _|unfold units; lia]. destruct Nx as [_ (X1 & X2 & X3)].
    unfold SFsqrt, SFsqrt_core_binary. rewrite fexp_val. simpl Zdigits2.
    pose proof (digits_spec m) as [D1 D2]. set (d := Z.pos (digits2_pos m)) in *.
    assert (1 <= d <= 53) as Hd.
    { split; [lia|]. destruct (decide (d <= 53)); [done|]. pose proof (pow_le 53 (d - 1)). lia. }
    rewrite !Z.div2_div.
    set (e' := Z.min (Z.max ((d + e + 1) / 2 - 53) (-1074)) (e / 2)).
    assert (2 * ((d + e + 1) / 2) <= d + e + 1 < 2 * ((d + e + 1) / 2) + 2) as HH.
    { pose proof (Z.div_mod (d + e + 1) 2). pose proof (Z.mod_pos_bound (d + e + 1) 2). lia. }
    assert (2 * (e / 2) <= e < 2 * (e / 2) + 2) as HE.
    { pose proof (Z.div_mod e 2). pose proof (Z.mod_pos_bound e 2). lia. }
    assert (e' = (d + e + 1) / 2 - 53) as Ee by lia. clearbody e'. set (h := (d + e + 1) / 2) in *. clearbody h.
    assert (105 - d <= e - 2 * e' <= 106 - d) as Hs by lia.
    assert (match e - 2 * e' with Z0 => Z.pos m | Z.pos _ => Z.shiftl (Z.pos m) (e - 2 * e') | Z.neg _ => 0 end = Z.pos m * 2 ^ (e - 2 * e')) as ->.
    { destruct (e - 2 * e') as [|p|p] eqn:E; [simpl; lia| |lia]. rewrite Z.shiftl_mul_pow2 by lia. done. }
    set (M := Z.pos m * 2 ^ (e - 2 * e')).
    assert (2 ^ 104 <= M < 2 ^ 106) as HM.
    { pose proof (pow_pos' (e - 2 * e') ltac:(lia)) as Hp. subst M. split.
      - assert (2 ^ 104 <= 2 ^ (d - 1) * 2 ^ (e - 2 * e')) by (rewrite <- Z.pow_add_r by lia; apply pow_le; lia).
        assert (2 ^ (d - 1) * 2 ^ (e - 2 * e') <= Z.pos m * 2 ^ (e - 2 * e')) by (apply Z.mul_le_mono_nonneg_r; lia). lia.
      - assert (2 ^ d * 2 ^ (e - 2 * e') <= 2 ^ 106) by (rewrite <- Z.pow_add_r by lia; apply pow_le; lia).
        assert (Z.pos m * 2 ^ (e - 2 * e') < 2 ^ d * 2 ^ (e - 2 * e')) by (apply Z.mul_lt_mono_pos_r; lia). lia. }
    pose proof (Z.sqrtrem_spec M ltac:(lia)) as HR. destruct (Z.sqrtrem M) as [q r]. destruct HR as [R1 R2].
    assert (0 <= q) as Hq0 by lia.
    assert (2 ^ 52 <= q < 2 ^ 53) as Hq.
    { split.
      - destruct (decide (2 ^ 52 <= q)); [done|]. exfalso. assert ((q + 1) * (q + 1) <= 2 ^ 52 * 2 ^ 52) by (apply Z.mul_le_mono_nonneg; lia). lia.
      - destruct (decide (q < 2 ^ 53)); [done|]. exfalso. assert (2 ^ 53 * 2 ^ 53 <= q * q) by (apply Z.mul_le_mono_nonneg; lia). lia. }
    assert (units (S754_finite false m e) * 2 ^ 1074 = M * (2 ^ (e' + 1074) * 2 ^ (e' + 1074))) as EN.
    { unfold units. subst M. rewrite Z.mul_1_l, <- !Z.mul_assoc, <- !Z.pow_add_r by lia. do 2 f_equal. lia. }
    set (l := if Zeq_bool r 0 then loc_Exact else loc_Inexact (if r <=? q then Lt else Gt)).
    assert (round_nearest_even q l = if r <=? q then q else q + 1) as El.
    { subst l. destruct (Zeq_bool r 0) eqn:E0.
      - apply Zeq_bool_eq in E0 as ->. by rewrite (proj2 (Z.leb_le 0 q)) by lia.
      - destruct (r <=? q); done. }
    destruct (round_aux_53 q e' l Hq ltac:(lia) ltac:(lia)) as (z & -> & Nz & Uz). rewrite El in Uz.
    set (E := 2 ^ (e' + 1074)) in *. pose proof (pow_pos' (e' + 1074) ltac:(lia)) as HEp. fold E in HEp.
    assert (∀ a b, 0 <= a < b → a ^ 2 < b ^ 2) as Hsq by (intros a b Hab; rewrite !Z.pow_2_r; apply Z.mul_lt_mono_nonneg; lia).
    assert (∀ a b, 0 <= a <= b → a ^ 2 <= b ^ 2) as Hsq' by (intros a b Hab; rewrite !Z.pow_2_r; apply Z.mul_le_mono_nonneg; lia).
    assert (∀ a, (a * E) ^ 2 = a * a * (E * E)) as Hm by (intros a; rewrite Z.pow_2_r; ring).
    assert (0 < E * E) as HEE by nia.
    split; [done|]. destruct (Z.leb_spec r q) as [Hrq|Hrq].
    + split; [nia|]. intros y Ny. rewrite EN, Uz.
      destruct (no_number q e' y Hq ltac:(lia) Ny) as [Hy|Hy]; fold E in Hy.
      * split; [lia|]. intros Hlt. assert ((q * E + units y) ^ 2 < (2 * q * E) ^ 2) by (apply Hsq; lia).
        rewrite Hm in H. assert (q * q * (E * E) <= M * (E * E)) by (apply Z.mul_le_mono_nonneg_r; lia). lia.
      * split; [|intros; nia]. intros _. assert (((2 * q + 1) * E) ^ 2 <= (q * E + units y) ^ 2) by (apply Hsq'; nia).
        rewrite Hm in H. assert (M * (E * E) <= (q * q + q) * (E * E)) by (apply Z.mul_le_mono_nonneg_r; lia). lia.
    + split; [nia|]. intros y Ny. rewrite EN, Uz.
      destruct (no_number q e' y Hq ltac:(lia) Ny) as [Hy|Hy]; fold E in Hy.
      * split; [intros; nia|]. intros Hlt. assert (((q + 1) * E + units y) ^ 2 <= ((2 * q + 1) * E) ^ 2) by (apply Hsq'; nia).
        rewrite Hm in H. assert ((q * q + q + 1) * (E * E) <= M * (E * E)) by (apply Z.mul_le_mono_nonneg_r; lia). lia.
      * split; [|lia]. intros Hlt. assert ((2 * (q + 1) * E) ^ 2 < ((q + 1) * E + units y) ^ 2) by (apply Hsq; nia).
        rewrite Hm in H. assert (M * (E * E) < (q + 1) * (q + 1) * (E * E)) by (apply Z.mul_lt_mono_pos_r; lia). lia.
Qed.
