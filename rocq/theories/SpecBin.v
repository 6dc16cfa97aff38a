(** * SpecBin: the numbers of double precision as multiples of the smallest one
    (C64) *)

From Coq Require Import SpecFloat.
From Verif Require Import Base Double.
#[local] Open Scope Z_scope.

(** A number of the format: the significand fits in 53 binary digits and the
    exponent is as small as possible but not below -1074 and not above 971. *)
Record number (x : spec_float) : Prop := {
  nb_finite : match x with S754_zero _ | S754_finite _ _ _ => True | _ => False end;
  nb_form : match x with
    | S754_finite _ m e => Z.pos m < 2 ^ 53 ∧ -1074 <= e <= 971 ∧ (e = -1074 ∨ 2 ^ 52 <= Z.pos m)
    | _ => True
    end;
}.

(** The value of a number is [units] times 2^-1074. *)
Definition units (x : spec_float) : Z :=
  match x with
  | S754_finite s m e => (if s then -1 else 1) * Z.pos m * 2 ^ (e + 1074)
  | _ => 0
  end.

(** [x] is a number and none is closer to [a / b]. *)
Definition nearest (a b : Z) (x : spec_float) : Prop :=
  number x ∧ ∀ y, number y → Z.abs (b * units x - a * 2 ^ 1074) <= Z.abs (b * units y - a * 2 ^ 1074).

(** The significand uses all 53 binary digits. *)
Definition normal (x : spec_float) : Prop :=
  number x ∧ match x with S754_finite _ m _ => 2 ^ 52 <= Z.pos m | _ => False end.

(** The significand of a number, zero for zero. *)
Definition sig (x : spec_float) : Z := match x with S754_finite _ m _ => Z.pos m | _ => 0 end.
(** [x] is a number, none is closer to [n / d] units, and when another one is as
    close as [x] then the significand of [x] is even. *)
Definition closest (n d : Z) (x : spec_float) : Prop :=
  number x ∧ ∀ y, number y →
    Z.abs (d * units x - n) <= Z.abs (d * units y - n) ∧
    (units y ≠ units x → Z.abs (d * units x - n) = Z.abs (d * units y - n) → Z.even (sig x) = true).
(** The result of an operation of exact result [n / d] units: infinite from
    2^1024 - 2^970 on, else the closest number. *)
Definition rounded (n d : Z) (x : spec_float) : Prop :=
  if decide (d * ((2 ^ 54 - 1) * 2 ^ 2044) <= Z.abs n) then x = S754_infinity (n <? 0) else closest n d x.
