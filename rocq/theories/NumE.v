(** * NumE: example and counter-example for C62 *)

From Verif Require Import Spec SpecSub SpecFeat SpecHash SpecLine SpecNum Main Inst GrowE Double SpecDouble DoubleT DoubleE TagM ApiT LineT NumT.
#[local] Open Scope Z_scope.
#[local] Open Scope nat_scope.
#[local] Existing Instance dbl | 10.
#[local] Existing Instance ord_id | 10.

(** The same call with lines built from the compliant cells [compl]. *)
Definition with_lines (i : @input dbl) (compl : list nat) (coupling : Z) (force : bool) : @input dbl :=
  @Input dbl (in_row i) (in_col i) (in_val i) (in_vol i) (in_cen i) (in_prio i) compl
    (in_bnd i) true true true (in_thr i) (in_order i) (in_corr i) (in_dim i)
    (in_goal i) (in_min i) (in_max i) (in_ar i) (in_sing i) None coupling
    force (in_iter i) (in_nbh i).
Lemma dc_lines (i : @input dbl) compl coupling force :
  in_aniso i = false → in_build i = false → sign_clear (in_thr i) → (∀ c, c ∈ compl → c < in_n i) →
  double_call d_sum i o0 → double_call d_sum (with_lines i compl coupling force) o0.
Proof.
  intros Ha Hb Ht Hc [D1 D2 D3 D4 D5 D6 D7 D8 D9 D10 D11 D12 D13 D14 D15 D16 D17]. split; try assumption.
  - by destruct D13.
  - intros _. exact Ht.
  - intros _ _ L _ m Hm. done.
  - intros _ Hb'. done.
Qed.

(** Two rows of three cells; the weights along the rows are 10 and infinity, across
    0.1 (rounded) and the smallest subnormal number.  *)
Definition tenth : spec_float := d_of 3602879701896397 (-55).
Definition drows : @input dbl :=
  mk_double [[1;3]; [0;2;4]; [1;5]; [0;4]; [1;3;5]; [2;4]]
    [d_of 10 0; tenth;  d_of 10 0; d_of 10 0; tenth;  d_of 10 0; d_of 1 (-1074);
     tenth; S754_infinity false;  tenth; S754_infinity false; S754_infinity false;  d_of 1 (-1074); S754_infinity false]
    (replicate 6 (d_of 1 0))
    [[d_of 0 0; d_of 0 0]; [d_of 1 0; d_of 0 0]; [d_of 2 0; d_of 0 0];
     [d_of 0 0; d_of 3 0]; [d_of 1 0; d_of 3 0]; [d_of 2 0; d_of 3 0]]
    (replicate 6 (d_of 1 0)) 0.

(** Two cells with faces of weights -0, 0 and 1. *)
Definition dzero : @input dbl :=
  mk_double [[2;3;1]; [2;3;0]; [0;1]; [0;1]]
    [S754_zero true; S754_zero false; d_of 1 0; S754_zero true; S754_zero false; d_of 1 0;
     S754_zero true; S754_zero true; S754_zero false; S754_zero false]
    (replicate 4 (d_of 1 0))
    [[d_of 0 0; d_of 0 0]; [d_of 1 0; d_of 0 0]; [d_of 2 0; d_of 0 0]; [d_of 0 0; d_of 3 0]]
    (replicate 4 (d_of 1 0)) 0.

Lemma drows_call coupling force : double_call d_sum (with_lines drows (seq 0 6) coupling force) o0.
Proof.
  apply dc_lines; [done..| |].
  - intros c Hc. apply elem_of_seq in Hc. change (in_n drows) with 6. lia.
  - apply dc_check; [done..|]. vm_compute. reflexivity.
Qed.
Definition plain_check (x : spec_float) : bool :=
  match x with S754_nan | S754_zero true => false | _ => true end.
Lemma plain_check_ok x : plain_check x = true → x ≠ S754_nan ∧ x ≠ S754_zero true.
Proof. by destruct x as [[]| | |]. Qed.
Definition finite_check (x : spec_float) : bool :=
  match x with S754_nan | S754_infinity _ => false | _ => true end.
Lemma drows_faces coupling force : double_faces d_sum (with_lines drows (seq 0 6) coupling force).
Proof.
  split.
  - intros w Hw. apply plain_check_ok.
    assert (forallb plain_check (in_val drows) = true) as Hall by (vm_compute; reflexivity).
    rewrite forallb_forall in Hall. by apply Hall, elem_of_list_In.
  - intros _ x c a Hc Ha.
    assert (forallb (forallb finite_check) (in_cen drows) = true) as Hall by (vm_compute; reflexivity).
    rewrite forallb_forall in Hall. apply elem_of_list_lookup_2, elem_of_list_In, Hall in Hc.
    rewrite forallb_forall in Hc. apply elem_of_list_In, Hc in Ha. by destruct a.
Qed.

(** With the weights as coupling, no line goes through the row of infinite weights:
    90% of infinity is not below infinity. *)
Lemma C62_lines_ex :
  let i := with_lines drows (seq 0 6) in
  (∀ coupling force, double_call d_sum (i coupling force) o0 ∧ double_faces d_sum (i coupling force) ∧
    aniso_on (i coupling force) o0 ∧ in_build (i coupling force) = true) ∧
  call_lines (i 0%Z false) o0 = Ok [[0;1;2]] ∧
  call_lines (i 1%Z true) o0 = Ok [[0;1;2];[3;4;5]].
Proof.
  cbv zeta. split; [|split; vm_compute; reflexivity].
  intros. split; [apply drows_call|]. split; [apply drows_faces|]. by split.
Qed.

Lemma C62_zero_ref : ∃ (i : @input dbl) o alt mw tags seeds x,
  double_call d_sum i o ∧ aniso_on i o ∧ in_build i = true ∧ S754_nan ∉ (in_val i : list spec_float) ∧
  tag_anisotropic_cells (aniso_params_of i) (graph_of i) (in_prio i) (ratio_limit (in_thr i))
    = Ok (alt, mw, tags, seeds) ∧
  anisotropic (in_row i) (in_col i) (in_val i) (bool_decide (in_dim i = 2%Z)) (in_compl i) (in_thr i) x ∧
  x ∉ seeds.
Proof.
  exists (with_lines dzero [0;1] 0 false), o0. do 3 eexists. exists (@nil nat), 0. split_and!.
  - apply dc_lines; [done..| |].
    + intros c Hc. change (in_n dzero) with 4. set_solver by lia.
    + apply dc_check; [done..|]. vm_compute. reflexivity.
  - by split.
  - done.
  - intros Hin. apply elem_of_list_In in Hin. vm_compute in Hin. naive_solver.
  - vm_compute. reflexivity.
  - split; [left|]. right. exists (S754_infinity false). split; [|vm_compute; reflexivity].
    exists (d_of 1 0), (S754_zero false). split_and!; [..|vm_compute; reflexivity].
    + split.
      * right. vm_compute. right. right. left.
      * intros w [-> |Hw]; [done|]. apply elem_of_list_In in Hw. vm_compute in Hw. naive_solver.
    + split.
      * right. vm_compute. right. left.
      * intros w [-> |Hw]; [done|]. apply elem_of_list_In in Hw. vm_compute in Hw. naive_solver.
  - apply not_elem_of_nil.
Qed.

Lemma C44_numbers_ex :
  let i := with_lines drows (seq 0 6) 1 true in
  line_order (A := dbl) d_plain i ∧ good_call i o0 ∧ aniso_on i o0 ∧ in_build i = true ∧
  ¬ total_order dbl ∧ call_lines i o0 = Ok [[0;1;2];[3;4;5]].
Proof.
  cbv zeta. split; [apply (double_line_order d_sum), drows_faces|].
  split; [apply (double_good d_sum), drows_call|]. split; [by split|]. split; [done|]. split; [|vm_compute; reflexivity].
  intros [_ HT]. specialize (HT (S754_zero true) (S754_zero false) eq_refl eq_refl). done.
Qed.
Lemma C43_numbers_ex :
  let i := with_lines drows (seq 0 6) 1 true in
  line_order (A := dbl) d_plain i ∧ wf_mesh i ∧ in_dim i = 2%Z ∧ buildable i ∧
  match tag_anisotropic_cells_p 0 (aniso_params_of i) (graph_of i) (in_prio i) (ratio_limit (in_thr i)) with
  | Ok (_, _, tags, seeds) => (tags, seeds) = (replicate 6 true, seq 0 6)
  | Err _ => False
  end.
Proof.
  cbv zeta. pose proof (double_good d_sum _ _ (drows_call 1 true)) as GC.
  split; [apply (double_line_order d_sum), drows_faces|]. split; [apply GC|]. split; [done|].
  split; [by apply GC|]. vm_compute. reflexivity.
Qed.
