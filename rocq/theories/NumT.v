(** * NumT: lines built with double precision numbers (C62) *)

From Verif Require Import Lib Spec SpecHash SpecLine SpecNum Main Double SpecDouble DoubleT ApiT LineT TagM.
#[local] Open Scope Z_scope.
#[local] Open Scope nat_scope.

(** ** The order *)

Definition d_plain (x : spec_float) : Prop := x ≠ S754_nan ∧ x ≠ S754_zero true.

Lemma plain_weak : weak_order SFltb d_plain.
Proof.
  destruct d_weak as [H1 H2 H3]. split.
  - intros x [Hx _]. by apply H1.
  - intros x y z [Hx _] [Hy _] [Hz _]. by apply H2.
  - intros x y z [Hx _] [Hy _] [Hz _]. by apply H3.
Qed.
Lemma plain_tot x y : d_plain x → d_plain y → SFltb x y = false → SFltb y x = false → x = y.
Proof.
  intros [Hx Zx] [Hy Zy] E1 E2. apply d_lt_false in E1; [|done..]. apply d_lt_false in E2; [|done..].
  destruct x as [s|s| |s m e], y as [t|t| |t m' e']; try done; try destruct s; try destruct t; unfold klt in *; simpl in *;
    try done; try lia.
  all: assert (e = e') as -> by lia; assert (m = m') as -> by lia; done.
Qed.

(** ** Results are not NaN *)

Lemma shr_1_pos m : (0 <= shr_m m)%Z → (0 <= shr_m (shr_1 m))%Z.
Proof. destruct m as [m r s]. simpl. destruct m as [|[]|]; simpl; lia. Qed.
Lemma shr_iter_pos p m : (0 <= shr_m m)%Z → (0 <= shr_m (SpecFloat.iter_pos shr_1 p m))%Z.
Proof. revert m. induction p as [p IH|p IH|]; intros m Hm; simpl; auto using shr_1_pos. Qed.
Lemma shr_fexp_pos p em m e l : (0 <= m)%Z → (0 <= shr_m (shr_fexp p em m e l).1)%Z.
Proof.
  intros Hm. unfold shr_fexp, shr.
  assert (0 <= shr_m (shr_record_of_loc m l))%Z as H0 by (destruct l as [|[]]; done).
  destruct (_ - _)%Z; simpl; [done| |done]. by apply shr_iter_pos.
Qed.
Lemma round_num p em sx mx ex lx : (0 <= mx)%Z → binary_round_aux p em sx mx ex lx ≠ S754_nan.
Proof.
  intros Hm. unfold binary_round_aux. pose proof (shr_fexp_pos p em mx ex lx Hm) as H1.
  destruct (shr_fexp p em mx ex lx) as [mrs e]. simpl in H1.
  assert (0 <= round_nearest_even (shr_m mrs) (loc_of_shr_record mrs))%Z as H2.
  { unfold round_nearest_even. destruct (loc_of_shr_record mrs) as [|[]]; try destruct (Z.even _); lia. }
  pose proof (shr_fexp_pos p em _ e loc_Exact H2) as H3.
  destruct (shr_fexp p em _ e loc_Exact) as [mrs' e']. simpl in H3. destruct (shr_m mrs'); [done| |lia].
  by destruct (_ <=? _)%Z.
Qed.
Lemma normalize_num m e s : binary_normalize d_prec d_emax m e s ≠ S754_nan.
Proof.
  unfold binary_normalize. destruct m; [done|..]; unfold binary_round; destruct (shl_align _ _ _) as [mz ez];
    by apply round_num.
Qed.
Lemma sub_num x y : finite x → finite y → d_sub x y ≠ S754_nan.
Proof.
  destruct x as [s|s| |s m e], y as [t|t| |t m' e']; try done; intros _ _; unfold d_sub, SFsub; try destruct s; try destruct t; try done;
    apply normalize_num.
Qed.
Lemma mul_num x : x ≠ S754_nan → d_mul x x ≠ S754_nan.
Proof. destruct x as [s|s| |s m e]; try done; intros _. unfold d_mul, SFmul. by apply round_num. Qed.
Lemma add_num x y : sign_clear x → sign_clear y → x ≠ S754_nan → y ≠ S754_nan → d_add x y ≠ S754_nan.
Proof.
  destruct x as [s|s| |s m e], y as [t|t| |t m' e']; try done; simpl; intros -> ->; try done; intros _ _.
  apply normalize_num.
Qed.
Lemma div_core_pos m1 e1 m2 e2 : (0 <= (SFdiv_core_binary d_prec d_emax (Z.pos m1) e1 (Z.pos m2) e2).1.1)%Z.
Proof.
  unfold SFdiv_core_binary.
  set (m' := match _ with Z0 => _ | Z.pos _ => _ | Z.neg _ => _ end).
  assert (0 <= m')%Z as Hm.
  { subst m'. destruct (_ - _ - _)%Z; [lia| |lia]. apply Z.shiftl_nonneg. lia. }
  pose proof (Z.div_pos m' (Z.pos m2) Hm ltac:(lia)) as Hd. unfold Z.div in Hd.
  destruct (Z.div_eucl m' (Z.pos m2)) as [q r]. done.
Qed.
Lemma inv_num x : sign_clear x → x ≠ S754_nan → d_plain (d_div (d_of 1 0) x).
Proof.
  intros Sx Nx. destruct x as [s|s| |s m e]; try done; simpl in Sx; subst; [done..|].
  unfold d_plain. pose proof (div_sign (d_of 1 0) (S754_finite false m e) eq_refl eq_refl) as HS. split.
  - change (d_of 1 0) with (S754_finite false 4503599627370496 (-52)). unfold d_div, SFdiv.
    pose proof (div_core_pos 4503599627370496 (-52) m e) as Hq.
    destruct (SFdiv_core_binary _ _ _ _ _ _) as [[q e'] l]. by apply round_num.
  - intros E. by rewrite E in HS.
Qed.

Lemma sq_sum_num sum ds : (∀ d, d ∈ ds → d ≠ S754_nan) → @sq_sum (double sum) ds ≠ S754_nan.
Proof.
  unfold sq_sum. assert (sign_clear (@w0 (double sum)) ∧ @w0 (double sum) ≠ S754_nan) as H0 by done.
  revert H0. generalize (@w0 (double sum)) as a.
  induction ds as [|d ds IH]; intros a [Ha Na] Hd; [done|]. simpl. apply IH; [|intros x Hx; apply Hd; by right].
  split; [apply add_sign; [done|apply mul_sign]|].
  apply add_num; [done|apply mul_sign|done|]. apply mul_num, Hd. left.
Qed.

(** ** Calls of the library *)

Lemma double_line_order (sum : list spec_float → spec_float) (i : @input (double sum)) :
  double_faces sum i → line_order (A := double sum) d_plain i.
Proof.
  intros [Hv Hc]. split.
  - exact plain_weak.
  - exact plain_tot.
  - done.
  - done.
  - exact Hv.
  - intros Hcp x y _. specialize (Hc Hcp). apply inv_num; [apply (sq_sum_sign sum)|]. apply (sq_sum_num sum).
    intros d Hd. apply elem_of_list_lookup in Hd as [k Hk]. apply lookup_zip_with_Some in Hk as (a & b & -> & Ha & Hb).
    assert (∀ z k (v : spec_float), centre (in_cen i) z !! k = Some v → finite v) as Hf.
    { intros z j v Hz. unfold centre in Hz. destruct (in_cen i !! z) as [c|] eqn:E; [|done]. simpl in Hz.
      eapply (Hc z); [exact E|]. by eapply elem_of_list_lookup_2. }
    apply sub_num; by eapply Hf.
  - intros _ c Hc'. split; intros ->; done.
Qed.

Lemma C62_lines_lem (sum : list spec_float → spec_float) (H : HashOrder) (i : @input (double sum)) (o : outs) :
  double_call sum i o → double_faces sum i → aniso_on i o → in_build i = true →
  ∃ lines, call_lines i o = Ok lines ∧ built_lines i lines ∧
    ∀ lines', built_lines i lines' → lines' = lines.
Proof.
  intros DC DF. apply (@C44_numbers_lem (double sum) H d_plain); [by apply double_line_order|by apply double_good].
Qed.

Lemma C62_tag_lem (sum : list spec_float → spec_float) (H : HashOrder) (i : @input (double sum)) (o : outs) :
  double_call sum i o → double_faces sum i → aniso_on i o → in_build i = true →
  ∃ alt mw tags seeds,
    tag_anisotropic_cells (aniso_params_of i) (graph_of i) (in_prio i) (ratio_limit (in_thr i))
      = Ok (alt, mw, tags, seeds) ∧
    (∀ x, x ∈ seeds ↔
       anisotropic (in_row i) (in_col i) (in_val i) (bool_decide (in_dim i = 2%Z)) (in_compl i) (in_thr i) x) ∧
    NoDup seeds ∧ prio_sorted (in_prio i) seeds ∧
    length tags = in_n i ∧ (∀ x, tags !! x = Some true ↔ x ∈ seeds) ∧
    (∀ x, x ∈ in_compl i → ∃ m, mw !! x = Some m ∧
       max_coupling (in_row i) (in_col i) (in_val i) (in_cen i) (bool_decide (in_coupling i = 1%Z)) (in_thr i) x m).
Proof.
  intros DC DF Hon Hb. pose proof (double_good sum i o DC) as GC.
  destruct (@C43_numbers_lem (double sum) H d_plain i 0) as (alt & mw & tags & seeds & H1 & H2 & H3 & H4 & H5 & H6 & H7 & _ & H8).
  - by apply double_line_order.
  - apply GC.
  - apply GC.
  - by apply GC.
  - exists alt, mw, tags, seeds. rewrite H8 by done. split_and!; try done.
    intros x. rewrite H2. split; [tauto|]. intros Hx. split; [done|]. right. by intros ?.
Qed.
