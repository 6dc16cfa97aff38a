(** * SpecDouble: calls with weights in double precision (C59)

    [double] is IEEE 754 binary64 (Double.v).  No law of arithmetic is assumed. *)

From Verif Require Import Spec SpecHash Main Double.

(** The sign bit of [x] is not set, or [x] is a NaN. *)
Definition sign_clear (x : spec_float) : Prop :=
  match x with
  | S754_zero s | S754_infinity s | S754_finite s _ _ => s = false
  | S754_nan => True
  end.

(** A call made as documented.  The only conditions on the numbers are: no priority
    is a NaN; with one-point initialisation no priority is below [min()], the
    smallest positive normal number; when lines are to be built the threshold has no
    minus sign. *)
Record double_call (sum : list spec_float → spec_float) (i : @input (double sum)) (o : outs) : Prop := {
  dc_pos : 0 < in_n i;
  dc_csr : csr (in_n i) (in_row i) (in_col i);
  dc_sym : csr_sym (in_row i) (in_col i);
  dc_val : length (in_val i) = length (in_col i);
  dc_vol : length (in_vol i) = in_n i;
  dc_cen : length (in_cen i) = in_n i;
  dc_dim : ∃ d, ∀ k c, in_cen i !! k = Some c → length c = d;
  dc_prio : length (in_prio i) = in_n i;
  dc_prio_nan : (S754_nan : spec_float) ∉ (in_prio i : list spec_float);
  dc_bnd : length (in_bnd i) = in_n i;
  dc_bnd_pos : ∀ k b, in_bnd i !! k = Some b → (0 <= b)%Z;
  dc_compl : ∀ c, c ∈ in_compl i → c < in_n i;
  dc_acc : accepted i;
  dc_one : in_order i = 10%Z ∨ in_order i = 11%Z → prio_pos i;
  dc_thr : in_build i = true → sign_clear (in_thr i);
  dc_limit : in_aniso i = true → in_build i = true → ∀ L, 2 ≤ L ≤ in_n i → limit_safe i L;
  dc_given : aniso_on i o → in_build i = false →
    wf_lines (in_n i) (o_idx o) (o_lines o) ∧
    ∀ k l, line_at (o_idx o) (o_lines o) k l → 2 ≤ length l → limit_safe i (length l);
}.
