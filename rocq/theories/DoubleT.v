(** * DoubleT: the order of double precision numbers; proofs for C59 *)

From Verif Require Import Lib Spec SpecHash Main Double SpecDouble ApiT HashW.
#[local] Open Scope Z_scope.
#[local] Open Scope nat_scope.

(** ** The order *)

(** Numbers which are not NaN are ordered as these triples, read from the left. *)
Definition d_key (x : spec_float) : Z * Z * Z :=
  match x with
  | S754_nan => (0, 0, 0)%Z
  | S754_zero _ => (0, 0, 0)%Z
  | S754_infinity s => (if s then -2 else 2, 0, 0)%Z
  | S754_finite s m e => if s then (-1, - e, Z.neg m)%Z else (1, e, Z.pos m)%Z
  end.
Definition klt (a b : Z * Z * Z) : Prop :=
  (a.1.1 < b.1.1)%Z ∨ a.1.1 = b.1.1 ∧ ((a.1.2 < b.1.2)%Z ∨ a.1.2 = b.1.2 ∧ (a.2 < b.2)%Z).

Lemma d_lt_key x y : SFltb x y = true ↔ x ≠ S754_nan ∧ y ≠ S754_nan ∧ klt (d_key x) (d_key y).
Proof.
  unfold SFltb, SFcompare, klt.
  destruct x as [s|s| |s m e], y as [t|t| |t m' e']; try destruct s; try destruct t; simpl;
    try (split; [try done; intros _; (split; [done|split; [done|lia]])|intros (H1 & H2 & H3); first [done|exfalso; lia]]).
  all: destruct (Z.compare_spec e e'); change (Pos.compare_cont Eq m m') with (Pos.compare m m');
    try (destruct (Pos.compare_spec m m')); simpl;
    (split; [try done; intros _; (split; [done|split; [done|lia]])|intros (H1 & H2 & H3); first [done|exfalso; lia]]).
Qed.
Lemma d_lt_false x y : x ≠ S754_nan → y ≠ S754_nan → SFltb x y = false → ¬ klt (d_key x) (d_key y).
Proof. intros Hx Hy E Hk. assert (SFltb x y = true) as E' by (apply d_lt_key; auto). congruence. Qed.

Lemma d_irr x : SFltb x x = false.
Proof. apply not_true_is_false. intros E. apply d_lt_key in E as (_ & _ & E). unfold klt in E. lia. Qed.
Lemma d_tr x y z : SFltb x y = true → SFltb y z = true → SFltb x z = true.
Proof.
  intros E1 E2. apply d_lt_key in E1 as (H1 & H2 & E1). apply d_lt_key in E2 as (H3 & H4 & E2). apply d_lt_key.
  split; [done|]. split; [done|]. unfold klt in *. lia.
Qed.
Lemma d_weak : weak_order SFltb (λ x, x ≠ S754_nan).
Proof.
  split; [intros x _; apply d_irr|intros x y z _ _ _; apply d_tr|]. intros x y z Hx Hy Hz E.
  apply d_lt_key in E as (_ & _ & E).
  destruct (SFltb x y) eqn:Exy; [by left|]. destruct (SFltb y z) eqn:Eyz; [by right|].
  apply d_lt_false in Exy; [|done..]. apply d_lt_false in Eyz; [|done..]. unfold klt in *. lia.
Qed.

(** Numbers without minus sign are told apart by the order. *)
Lemma d_tot x y : sign_clear x → sign_clear y → x ≠ S754_nan → y ≠ S754_nan →
  SFltb x y = false → SFltb y x = false → x = y.
Proof.
  intros Sx Sy Hx Hy E1 E2. apply d_lt_false in E1; [|done..]. apply d_lt_false in E2; [|done..].
  destruct x as [s|s| |s m e], y as [t|t| |t m' e']; try done; simpl in Sx, Sy; subst; unfold klt in *; simpl in *; try done; try lia.
  assert (e = e') as -> by lia. assert (m = m') as -> by lia. done.
Qed.

(** ** Signs of results *)

Lemma round_sign p em sx mx ex lx : sx = false → sign_clear (binary_round_aux p em sx mx ex lx).
Proof.
  intros ->. unfold binary_round_aux. destruct (shr_fexp p em mx ex lx) as [mrs e].
  destruct (shr_fexp p em _ e loc_Exact) as [mrs' e']. destruct (shr_m mrs'); [done| |done]. by destruct (_ <=? _)%Z.
Qed.
Lemma mul_sign x : sign_clear (d_mul x x).
Proof. destruct x as [[]|[]| |[] m e]; simpl; try done; by apply round_sign. Qed.
Lemma add_sign x y : sign_clear x → sign_clear y → sign_clear (d_add x y).
Proof.
  destruct x as [s|s| |s m e], y as [t|t| |t m' e']; simpl; intros; subst; try done.
  unfold binary_normalize. simpl. unfold binary_round. destruct (shl_align _ _ _) as [mz ez]. by apply round_sign.
Qed.
Lemma sqrt_sign x : sign_clear x → sign_clear (d_sqrt x).
Proof.
  destruct x as [s|s| |s m e]; simpl; intros; subst; try done. unfold d_sqrt, SFsqrt.
  destruct (SFsqrt_core_binary _ _ _ _) as [[mz ez] lz]. by apply round_sign.
Qed.
Lemma div_sign x y : sign_clear x → sign_clear y → sign_clear (d_div x y).
Proof.
  destruct x as [s|s| |s m e], y as [t|t| |t m' e']; simpl; intros; subst; try done. unfold d_div, SFdiv.
  destruct (SFdiv_core_binary _ _ _ _ _ _) as [[mz ez] lz]. by apply round_sign.
Qed.
Lemma sign_not_neg x : sign_clear x → SFltb x (S754_zero false) = false.
Proof. by destruct x as [s|s| |s m e]; simpl; intros; subst. Qed.


Lemma sq_sum_sign sum ds : sign_clear (@sq_sum (double sum) ds).
Proof.
  unfold sq_sum. assert (sign_clear (@w0 (double sum))) as H0 by done. revert H0. generalize (@w0 (double sum)) as a.
  induction ds as [|d ds IH]; intros a Ha; [done|]. simpl. apply IH. apply add_sign; [done|apply mul_sign].
Qed.
Lemma is_dist_sign sum a : @is_dist (double sum) a → sign_clear a.
Proof. intros [ds [-> | ->]]; [|apply sqrt_sign]; apply sq_sum_sign. Qed.
Lemma double_dist_order sum : dist_order (double sum).
Proof.
  split; [exact d_irr|exact d_tr|]. intros a b m Ha Hb Hm.
  assert (a ≠ S754_nan ∧ b ≠ S754_nan) as [Na Nb].
  { destruct Hm as [[H1 H2]|[H1 H2]]; apply d_lt_key in H1 as (? & ? & _); apply d_lt_key in H2 as (? & ? & _); done. }
  by apply d_tot; [apply (is_dist_sign sum)|apply (is_dist_sign sum)|..].
Qed.

Lemma double_good (sum : list spec_float → spec_float) (i : @input (double sum)) (o : outs) :
  double_call sum i o → good_call i o.
Proof.
  intros D. split; [split| | | |].
  - apply D.
  - apply D.
  - apply D.
  - apply D.
  - apply D.
  - apply D.
  - apply D.
  - apply D.
  - pose proof d_weak as [W1 W2 W3]. assert (∀ x, x ∈ in_prio i → x ≠ S754_nan) as HN.
    { intros x Hx ->. by apply (dc_prio_nan _ _ _ D). }
    split.
    + intros x Hx. by apply W1, HN.
    + intros x y z Hx Hy Hz. apply W2; by apply HN.
    + intros x y z Hx Hy Hz. apply W3; by apply HN.
  - apply D.
  - apply D.
  - apply D.
  - apply D.
  - apply D.
  - intros [Ha _] Hb. split; [|by apply (dc_limit _ _ _ D)]. right. right.
    pose proof (dc_thr _ _ _ D Hb) as Hs. split; [by apply sign_not_neg|]. right. by apply sign_not_neg, div_sign.
  - apply D.
Qed.

Lemma C59_lem (sum : list spec_float → spec_float) (H : HashOrder) (i : @input (double sum)) (o : outs) :
  double_call sum i o →
  ∃ r, agglomerate_one_level i o = (r, Ok ()) ∧ length (o_fc2cc r) = in_n i ∧
    (in_corr i = false ∨ thresh_one i →
       contiguous (o_fc2cc r) ∧
       (given_paths i o → ∀ c, connected (in_edge i) (cells_of (o_fc2cc r) c)) ∧
       ∀ H' : HashOrder, @agglomerate_one_level _ H' i o = (r, Ok ())).
Proof.
  intros D. pose proof (double_good sum i o D) as HG. destruct (C01_lem i o HG) as (r & Hr & Hl).
  exists r. split; [done|]. split; [done|]. intros HC. split; [by apply (C02_lem i o r (Ok ()))|].
  split; [intros HP; by apply (C03_lem i o r (Ok ()))|]. intros H'. rewrite <- Hr. apply C26_lem; [done| |done].
  intros _. apply double_dist_order.
Qed.
