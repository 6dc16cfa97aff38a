(** * BinE: examples for C64 *)

From Coq Require Import SpecFloat.
From Verif Require Import Base Double DoubleE SpecNum SpecBin DoubleT BinT BinR.
#[local] Open Scope Z_scope.

Lemma C64_operations_lem (sum : list spec_float → spec_float) (x y : @W (double sum)) : number x → number y →
  rounded (units x + units y) 1 (wadd x y) ∧
  rounded (units x - units y) 1 (wsub x y) ∧
  rounded (units x * units y) (2 ^ 1074) (wmul x y) ∧
  (units y ≠ 0 → rounded (units x * Z.sgn (units y) * 2 ^ 1074) (Z.abs (units y)) (wdiv x y)) ∧
  number (wabs x) ∧ units (wabs x) = Z.abs (units x).
Proof.
  intros Nx Ny. split_and!;
    [by apply C64_add_lem|by apply C64_sub_lem|by apply C64_mul_lem|by apply C64_div_lem|by apply (C64_abs_lem sum)..].
Qed.

Lemma C64_special_lem (sum : list spec_float → spec_float) (x : spec_float) :
  (number x → wlt (Arith := double sum) x (S754_infinity false) = true ∧ wlt (Arith := double sum) (S754_infinity true) x = true) ∧
  (∀ c : spec_float → spec_float → bool, c = wlt (Arith := double sum) ∨ c = wle (Arith := double sum) ∨ c = weq (Arith := double sum) →
    c x S754_nan = false ∧ c S754_nan x = false).
Proof.
  split.
  - intros N. destruct x as [s|s| |s m e]; try (by destruct (nb_finite _ N)); by simpl; destruct s.
  - intros c [ -> | [ -> | -> ] ]; by destruct x as [[]|[]| |[] m e].
Qed.

(** 0.1 and 0.2: their sum is not 0.3. *)
Definition d01 : spec_float := S754_finite false 7205759403792794 (-56).
Definition d02 : spec_float := S754_finite false 7205759403792794 (-55).
Definition d03 : spec_float := S754_finite false 5404319552844595 (-54).
Definition d03' : spec_float := S754_finite false 5404319552844596 (-54).

Lemma number_fin s m e : Z.pos m <? 2 ^ 53 = true → (-1074 <=? e) && (e <=? 971) = true → (e =? -1074) || (2 ^ 52 <=? Z.pos m) = true →
  number (S754_finite s m e).
Proof. intros H1 H2 H3. split; [done|]. lia. Qed.

Lemma C64_order_ex : number d01 ∧ number d02 ∧ wlt (Arith := dbl) d01 d02 = true ∧ weq (Arith := dbl) (S754_zero true) (S754_zero false) = true.
Proof. split_and!; [by apply number_fin..|done|done]. Qed.
Lemma C64_constants_ex : nearest 1 10 d01 ∧ ¬ nearest 1 10 d02.
Proof.
  split.
  - apply nearest_lem; [lia|by apply number_fin|done|vm_compute; congruence].
  - intros [_ H]. specialize (H d01 ltac:(by apply number_fin)). by vm_compute in H.
Qed.
Lemma C64_extremes_ex : number (S754_finite true 1 (-1074)) ∧ ¬ normal (S754_finite true 1 (-1074)) ∧ normal d01.
Proof. split_and!; [by apply number_fin|by intros [_ H]|split; [by apply number_fin|done]]. Qed.
Lemma C64_integers_ex : wofZ (Arith := dbl) 5 = S754_finite false 5629499534213120 (-50) ∧
  units (wofZ (Arith := dbl) (2 ^ 53 + 1)) ≠ (2 ^ 53 + 1) * 2 ^ 1074.
Proof. split; [done|]. by vm_compute. Qed.
Lemma C64_operations_ex : wadd (Arith := dbl) d01 d02 = d03' ∧ nearest 3 10 d03 ∧ d03 ≠ d03' ∧
  wadd (Arith := dbl) wmaxv wmaxv = S754_infinity false ∧ wdiv (Arith := dbl) d02 d01 = wofZ (Arith := dbl) 2.
Proof.
  split_and!; [by vm_compute| |done|by vm_compute|by vm_compute].
  apply nearest_lem; [lia|by apply number_fin|done|vm_compute; congruence].
Qed.
Lemma C64_special_ex : wlt (Arith := dbl) d01 (S754_infinity false) = true ∧ wle (Arith := dbl) S754_nan d01 = false ∧
  weq (Arith := dbl) S754_nan S754_nan = false.
Proof. by vm_compute. Qed.
