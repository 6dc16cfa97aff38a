(** * RaeT: the priorities of the first level of ex_rae.py (C83) *)

From Coq Require Import SpecFloat.
From Verif Require Import Lib Spec SpecTools UtilM ToolsM DrawM ToolsT ToolsU Double SpecNum SpecBin DoubleT BinT BinR BinE.
#[local] Open Scope Z_scope.

(** ** Reciprocals in double precision *)

(** A number below [2^1074 / k] units which is close. *)
Lemma below k : 0 < k < 2 ^ 51 → ∃ y, number y ∧ 2 ^ 1074 - 2 ^ 1022 < k * units y <= 2 ^ 1074.
Proof.
  intros [Hk0 Hk]. set (q := 2 ^ 1074 / k).
  assert (2 ^ 1074 = 2 ^ 51 * 2 ^ 1023) as E1 by (by rewrite <- Z.pow_add_r).
  assert (0 < 2 ^ 1023) as P1 by (apply Z.pow_pos_nonneg; lia).
  assert (2 ^ 1023 <= q) as Hq.
  { apply Z.div_le_lower_bound; [done|]. rewrite E1. apply Z.mul_le_mono_nonneg_r; lia. }
  assert (0 < q) as Hq0 by lia.
  assert (q <= 2 ^ 1074) as Hq1 by (apply Z.div_le_upper_bound; [done|]; nia).
  pose proof (Z.log2_spec q Hq0) as [L1 L2]. set (L := Z.log2 q) in *.
  assert (1023 <= L) as HL. { apply Z.log2_le_pow2; done. }
  assert (L <= 1074) as HL'. { subst L. rewrite <- (Z.log2_pow2 1074) by lia. by apply Z.log2_le_mono. }
  set (l := L - 52). assert (0 < 2 ^ l) as Pl by (apply Z.pow_pos_nonneg; lia).
  assert (2 ^ L = 2 ^ 52 * 2 ^ l) as EL by (rewrite <- Z.pow_add_r by lia; f_equal; lia).
  assert (2 ^ Z.succ L = 2 ^ 53 * 2 ^ l) as EL' by (rewrite <- Z.pow_add_r by lia; f_equal; lia).
  set (m := q / 2 ^ l).
  assert (2 ^ 52 <= m) as Hm. { apply Z.div_le_lower_bound; [done|]. lia. }
  assert (m < 2 ^ 53) as Hm'. { apply Z.div_lt_upper_bound; [done|]. lia. }
  destruct m as [|p|p] eqn:Em; [lia| |lia].
  exists (S754_finite false p (l - 1074)). split; [split; [done|split_and!; lia]|].
  unfold units. replace (l - 1074 + 1074) with l by lia. rewrite !Z.mul_1_l, <- Em.
  pose proof (Z.div_mod q (2 ^ l) ltac:(lia)) as D1. pose proof (Z.mod_pos_bound q (2 ^ l) Pl) as B1. fold m in D1.
  pose proof (Z.div_mod (2 ^ 1074) k ltac:(lia)) as D2. pose proof (Z.mod_pos_bound (2 ^ 1074) k Hk0) as B2. fold q in D2.
  set (U := 2 ^ 1074) in *. set (r := q mod 2 ^ l) in *. set (s := U mod k) in *.
  assert (U = 2 ^ 52 * 2 ^ 1022) as E2 by (unfold U; by rewrite <- Z.pow_add_r).
  rewrite <- Em in *. clearbody m U r s q L.
  assert (k * (2 ^ 52 * 2 ^ l) <= k * q) by (apply Z.mul_le_mono_nonneg_l; lia).
  assert (k * 2 ^ l <= 2 ^ 1022) as Hkl.
  { apply (Z.mul_le_mono_pos_l _ _ (2 ^ 52)); [lia|]. rewrite <- E2. lia. }
  assert (U = k * (m * 2 ^ l) + (k * r + s)) as EU by (rewrite D2, D1; ring).
  assert (0 <= k * r) by (apply Z.mul_nonneg_nonneg; lia). assert (k * r <= k * (2 ^ l - 1)) by (apply Z.mul_le_mono_nonneg_l; lia). lia.
Qed.

Section rae.
Context (sum : list spec_float → spec_float).
#[local] Instance ar : Arith := double sum.
Definition recip (d : Z) : spec_float := wdiv (Arith := double sum) w1 (wadd w1 (wofZ d)).

Lemma recip_ok d : 0 <= d < 2 ^ 51 - 1 → number (recip d) ∧ Z.abs ((1 + d) * units (recip d) - 2 ^ 1074) < 2 ^ 1022.
Proof.
  intros Hd. destruct (C64_integers_lem sum 1 ltac:(lia)) as [N1 U1]. destruct (C64_integers_lem sum d ltac:(lia)) as [Nd Ud].
  destruct (C64_integers_lem sum (1 + d) ltac:(lia)) as [Ns Us].
  destruct (C64_operations_lem sum w1 (wofZ d) N1 Nd) as (Hadd & _). fold (w1 (H := double sum)) in U1.
  change (wofZ 1) with (w1 (H := double sum)) in *.
  rewrite U1, Ud in Hadd. unfold recip. set (s := wadd w1 (wofZ d)) in *. clearbody s.
  set (U := 2 ^ 1074) in *. assert (0 < U) as PU by (apply Z.pow_pos_nonneg; lia).
  assert ((2 ^ 54 - 1) * 2 ^ 2044 = (2 ^ 54 - 1) * 2 ^ 970 * U) as ET by (unfold U; rewrite <- Z.mul_assoc, <- Z.pow_add_r by lia; done).
  unfold rounded in Hadd. rewrite decide_False in Hadd.
  2:{ rewrite Z.mul_1_l, ET, Z.abs_eq by nia. assert (2 ^ 51 <= (2 ^ 54 - 1) * 2 ^ 970) by (vm_compute; discriminate). nia. }
  destruct Hadd as [HN Hc]. specialize (Hc _ Ns) as [Hc _]. rewrite Us in Hc.
  assert (units s = (1 + d) * U) as HU by nia.
  destruct (C64_operations_lem sum w1 s N1 HN) as (_ & _ & _ & Hdiv & _).
  specialize (Hdiv ltac:(nia)). rewrite U1, HU in Hdiv.
  rewrite Z.sgn_pos, Z.abs_eq in Hdiv by nia. unfold rounded in Hdiv. rewrite decide_False in Hdiv.
  2:{ rewrite ET, Z.abs_eq by nia. assert (1 < (2 ^ 54 - 1) * 2 ^ 970) as H1 by (vm_compute; done).
      set (T := (2 ^ 54 - 1) * 2 ^ 970) in *. clearbody T. assert (U * U * 1 < U * U * T) by nia.
      assert (1 * (U * U * T) <= (1 + d) * (U * U * T)) by (apply Z.mul_le_mono_nonneg_r; nia). nia. }
  destruct Hdiv as [HN2 Hc2]. split; [done|]. destruct (below (1 + d) ltac:(lia)) as (y & Hy & Hy1 & Hy2).
  specialize (Hc2 y Hy) as [Hc2 _]. fold U in Hy1, Hy2, Hc2 |- *.
  set (v := units (wdiv w1 s)) in *. clearbody v.
  replace ((1 + d) * U * v - 1 * U * 1 * U) with (U * ((1 + d) * v - U)) in Hc2 by ring.
  replace ((1 + d) * U * units y - 1 * U * 1 * U) with (U * ((1 + d) * units y - U)) in Hc2 by ring.
  rewrite !Z.abs_mul, !(Z.abs_eq U) in Hc2 by lia. apply Z.mul_le_mono_pos_l in Hc2; [|done]. lia.
Qed.
Lemma recip_lt d d' : 0 <= d < d' → d' < 2 ^ 51 - 1 → wlt (Arith := double sum) (recip d') (recip d) = true.
Proof.
  intros Hd Hd'. destruct (recip_ok d) as [N1 H1]; [lia|]. destruct (recip_ok d') as [N2 H2]; [lia|].
  apply C64_order_lem; [done..|]. set (u := units (recip d)) in *. set (u' := units (recip d')) in *. clearbody u u'.
  assert (2 ^ 1074 = 2 ^ 52 * 2 ^ 1022) as E2 by (by rewrite <- Z.pow_add_r). rewrite E2 in *.
  assert (0 < 2 ^ 1022) as P2 by (apply Z.pow_pos_nonneg; lia). set (R := 2 ^ 1022) in *. clearbody R.
  destruct (decide (u' < u)) as [|Hn]; [done|]. exfalso. clear N1 N2 E2.
  assert ((2 ^ 52 - 1) * R < (1 + d) * u) as A1 by lia. assert ((1 + d') * u' < (2 ^ 52 + 1) * R) as A2 by lia.
  assert ((1 + d') * ((2 ^ 52 - 1) * R) < (1 + d') * ((1 + d) * u)) as B1 by (apply Z.mul_lt_mono_pos_l; lia).
  assert ((1 + d) * ((1 + d') * u') < (1 + d) * ((2 ^ 52 + 1) * R)) as B2 by (apply Z.mul_lt_mono_pos_l; lia).
  assert ((1 + d') * ((1 + d) * u) <= (1 + d) * ((1 + d') * u')) as B3.
  { replace ((1 + d') * ((1 + d) * u)) with ((1 + d) * (1 + d') * u) by ring. rewrite Z.mul_assoc.
    apply Z.mul_le_mono_nonneg_l; [apply Z.mul_nonneg_nonneg|]; lia. }
  assert ((1 + d') * (2 ^ 52 - 1) * R < (1 + d) * (2 ^ 52 + 1) * R) as B4.
  { rewrite <- !Z.mul_assoc. lia. }
  apply Z.mul_lt_mono_pos_r in B4; [|done]. lia.
Qed.
Lemma recip_inf : recip (-1) = S754_infinity false.
Proof. vm_compute. done. Qed.

(** ** The wall of ex_rae.py *)

Lemma foil_ok npts bnd : length bnd = length npts →
  ∃ foil, rae_foil npts bnd = POk foil ∧
    ∀ c, c ∈ foil ↔ npts !! c = Some 4%nat ∧ ∃ b, bnd !! c = Some b ∧ 0 < b.
Proof.
  intros Hl. unfold rae_foil.
  assert (∀ l acc, (∀ x, x ∈ l → (x < length bnd)%nat) → ∃ foil,
    pfold (λ l x, b <~ pget bnd (Z.of_nat x); POk (if bool_decide (0 < b) then l ++ [x] else l)) l acc = POk foil ∧
    ∀ c, c ∈ foil ↔ c ∈ acc ∨ c ∈ l ∧ ∃ b, bnd !! c = Some b ∧ 0 < b) as Hg.
  { induction l as [|x l IH]; intros acc Hx.
    - exists acc. split; [done|]. intros c. rewrite elem_of_nil. tauto.
    - destruct (lookup_lt_is_Some_2 bnd x) as [b Hb]; [apply Hx; left|]. cbn [pfold].
      rewrite (pget_nat _ _ _ Hb). cbn [pbind].
      destruct (IH (if bool_decide (0 < b) then acc ++ [x] else acc)) as (foil & -> & Hf); [intros; apply Hx; by right|].
      exists foil. split; [done|]. intros c. rewrite Hf, elem_of_cons. case_bool_decide as Hb0.
      + rewrite elem_of_app, elem_of_list_singleton. split; [|naive_solver].
        intros [[?| ->]|?]; [by left|right; split; [by left|]; eauto|naive_solver].
      + split; [naive_solver|]. intros [?|[[-> |?] (b' & Hb' & ?)]]; [by left|congruence|right; eauto]. }
  destruct (Hg (rae_squares npts) []) as (foil & -> & Hf).
  { intros x Hx. unfold rae_squares in Hx. apply elem_of_list_filter in Hx as [_ Hx%elem_of_seq]. lia. }
  exists foil. split; [done|]. intros c. rewrite Hf, elem_of_nil. unfold rae_squares.
  rewrite elem_of_list_filter, elem_of_seq. split; [naive_solver|].
  intros [Hc ?]. right. split; [|done]. split; [done|]. apply lookup_lt_Some in Hc. lia.
Qed.

Lemma C83_lem n (idx col npts : list nat) (bnd : list Z) :
  csr n idx col → csr_sym idx col → length npts = n → length bnd = n → (0 < n)%nat →
  (∀ x, (x < n)%nat → ∃ y, edge idx col x y) →
  ∃ (foil : list nat) ws, rae_prio (H := double sum) (zs idx) (zs col) npts bnd = POk ws ∧ length ws = n ∧
    (∀ c, c ∈ foil ↔ npts !! c = Some 4%nat ∧ ∃ b, bnd !! c = Some b ∧ (0 < b)%Z) ∧
    (∀ x y kx ky u v, at_dist (edge idx col) (λ _, True) (λ c, c ∈ foil) kx x →
      at_dist (edge idx col) (λ _, True) (λ c, c ∈ foil) ky y → ws !! x = Some u → ws !! y = Some v →
      (Z.of_nat ky < 2 ^ 51 - 1)%Z →
      ((kx < ky)%nat → wlt (Arith := double sum) v u = true) ∧ (kx = ky → u = v)) ∧
    (∀ x u, (∀ k, ¬ walk (edge idx col) (λ _, True) (λ c, c ∈ foil) k x) → ws !! x = Some u → u = S754_infinity false).
Proof.
  intros Hcsr Hsym Hn Hb H0 Hnb. destruct (foil_ok npts bnd ltac:(congruence)) as (foil & Hf & Hin).
  assert (∀ c, c ∈ foil → (c < n)%nat) as Hlt. { intros c [Hc _]%Hin. apply lookup_lt_Some in Hc. lia. }
  destruct (C72_sym_lem n idx col foil Hcsr Hsym Hlt H0) as (d & Hd & Hlen & _ & Hval).
  { intros x Hx%Hlt. eauto. }
  exists foil, (rae_weights (H := double sum) d). unfold rae_prio. rewrite Hf. cbn [pbind]. rewrite Hd. cbn [pbind].
  assert (∀ x u, rae_weights (H := double sum) d !! x = Some u → ∃ v, d !! x = Some v ∧ u = recip v) as Hw.
  { intros x u Hu. unfold rae_weights in Hu. apply (list_lookup_fmap_inv _ d) in Hu as (v & -> & Hv). by exists v. }
  assert (∀ x k u, at_dist (edge idx col) (λ _, True) (λ c, c ∈ foil) k x → rae_weights (H := double sum) d !! x = Some u →
    u = recip (Z.of_nat k)) as Hk.
  { intros x k u [Hk1 Hk2] Hu. destruct (Hw _ _ Hu) as (v & Hv & ->).
    destruct (Hval _ _ Hv) as [[_ Hno]|(k' & -> & Hk1' & Hk2')]; [by destruct (Hno k)|].
    do 2 f_equal. specialize (Hk2 _ Hk1'). specialize (Hk2' _ Hk1). lia. }
  split_and!; [done|unfold rae_weights; by rewrite map_length|done| |].
  - intros x y kx ky u v Hx Hy Hu Hv Hky. rewrite (Hk _ _ _ Hx Hu), (Hk _ _ _ Hy Hv). split; [|by intros ->].
    intros. apply recip_lt; lia.
  - intros x u Hno Hu. destruct (Hw _ _ Hu) as (v & Hv & ->). destruct (Hval _ _ Hv) as [[-> _]|(k & _ & Hk1 & _)]; [apply recip_inf|].
    by destruct (Hno k).
Qed.
End rae.
