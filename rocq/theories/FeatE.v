(** * FeatE: examples and counter-examples for C28 and C39 *)

From Coq Require Import QArith Qcanon.
From Verif Require Import Inst SpecSub SpecFeat SpecAR Features GraphP FeatU.
#[local] Open Scope Z_scope.
#[local] Open Scope nat_scope.
#[local] Existing Instance qarith | 100.
#[local] Existing Instance ord_id | 100.

Lemma q_ring : @ring_theory Qc (qc 0 1) (qc 1 1) Qcplus Qcmult Qcminus (Qcminus (qc 0 1)) eq.
Proof.
  change (qc 0 1) with (0%Qc). change (qc 1 1) with (1%Qc). split; intros; ring.
Qed.
Lemma q_sum (l : list Qc) : foldl Qcplus (qc 0 1) l = foldr Qcplus (qc 0 1) l.
Proof.
  change (qc 0 1) with (0%Qc).
  assert (∀ a, foldl Qcplus a l = Qcplus a (foldr Qcplus 0%Qc l)) as Hg.
  { induction l as [|x l IH]; intros a; simpl; [ring|]. rewrite IH. ring. }
  rewrite Hg. ring.
Qed.
Lemma q_exact : @exact_arith qarith.
Proof.
  split.
  - exact q_ring.
  - apply Qc_is_canon. reflexivity.
  - exact q_sum.
Qed.
Lemma q_total (a b : Qc) : @wlt qarith a b = false → @wlt qarith b a = false → a = b.
Proof.
  change (qlt a b = false → qlt b a = false → a = b). intros H1 H2.
  apply Qcle_antisym.
  - apply Qcnot_lt_le. intros Hx%qlt_iff. congruence.
  - apply Qcnot_lt_le. intros Hx%qlt_iff. congruence.
Qed.

(** A row of four cells of volume 2 and distance 10 (the third one being at
    distance 20 of the second one), faces of weight 3. *)
Definition rows4 : list (list nat) := [[1]; [0; 2]; [1; 3]; [2]].
Definition g4 : graph :=
  @Graph qarith 4 (row_of 0 rows4) (concat rows4) (replicate 6 (qc 3 1)) (replicate 4 (qc 2 1))
    [[qc 0 1]; [qc 10 1]; [qc 30 1]; [qc 40 1]] [1; 0; 0; 2]%Z ∅ true.

Section check.
Context (row col : list nat) (val : list Qc) (n : nat).
Notation ft := (@faces_to qarith row col val).
Lemma sym_weights_check : csr n row col → length val = length col →
  forallb (λ x, forallb (λ y, bool_decide ((ft (λ z, z = y) x : list Qc) = ft (λ z, z = x) y))
    (seq 0 n)) (seq 0 n) = true → @sym_weights qarith row col val.
Proof.
  intros [H1 H2 H3 H4] Hl Hc x y.
  assert (∀ x P `{∀ y, Decision (P y)}, n ≤ x → ft P x = []) as Hout.
  { intros x' P ? Hx'. unfold faces_to, entries. destruct (row !! x'); [|done].
    rewrite (lookup_ge_None_2 row (S x')) by lia. done. }
  assert (∀ x y, n ≤ y → ft (λ z, z = y) x = []) as Hin.
  { intros x' y' Hy'. unfold faces_to. destruct (filter _ _) as [|[z w] l] eqn:He; [done|]. exfalso.
    pose proof (elem_of_list_here (z, w) l) as Hz. rewrite <- He in Hz.
    apply elem_of_list_filter in Hz as [Hz Hent]. simpl in Hz. subst z.
    unfold entries in Hent. destruct (row !! x') as [a|]; [|by apply elem_of_nil in Hent].
    destruct (row !! S x') as [b|]; [|by apply elem_of_nil in Hent].
    apply elem_of_take in Hent as (j & Hj & _). rewrite lookup_drop in Hj.
    apply lookup_zip_with_Some in Hj as (u & v & Hj & Hu & _). simplify_eq.
    apply H4 in Hu. lia. }
  destruct (decide (x < n)) as [Hx|Hx]; [destruct (decide (y < n)) as [Hy|Hy]|].
  - rewrite forallb_forall in Hc. specialize (Hc x ltac:(apply in_seq; lia)).
    rewrite forallb_forall in Hc. specialize (Hc y ltac:(apply in_seq; lia)).
    apply bool_decide_eq_true in Hc. by rewrite Hc.
  - rewrite Hin by lia. rewrite Hout by lia. done.
  - rewrite Hout by lia. rewrite Hin by lia. done.
Qed.
End check.

Lemma g4_data : mesh_data g4 1.
Proof.
  assert (csr (g_n g4) (g_row g4) (g_col g4)) as Hc by (apply csr_check_ok; vm_compute; reflexivity).
  split; try (vm_compute; reflexivity).
  - done.
  - apply sym_check_ok. vm_compute. reflexivity.
  - apply (sym_weights_check _ _ _ _ Hc); vm_compute; reflexivity.
  - intros x c Hx. do 4 (destruct x as [|x]; [vm_compute in Hx; injection Hx as <-; reflexivity|]).
    vm_compute in Hx. discriminate Hx.
Qed.

Definition run_f (r : res feats) : feats := match r with Ok f => f | Err _ => feats_default end.
Definition run_c (r : res (Z * Qc * feats)) : Z * Qc * feats :=
  match r with Ok f => f | Err _ => (0%Z, qc 0 1, feats_default) end.

(** Adding cells 1, 2, then 3 to cell 0, in two orders. *)
Definition f4 (k : ar_kind) : feats := run_f (features_of k g4 0 [1; 2]).
Lemma C28_ex : exact_arith ∧ weak_order (@wlt qarith) (λ _, True) ∧
  (∀ a b, @wlt qarith a b = false → wlt b a = false → a = b) ∧ mesh_data g4 1 ∧
  features_of ExternalW g4 0 [1; 2] = Ok (f4 ExternalW) ∧
  f_meas (f4 ExternalW) = qc 6 1 ∧ f_int (f4 ExternalW) = qc 6 1 ∧ f_ext (f4 ExternalW) = qc 6 1 ∧
  f_nint (f4 ExternalW) = 2%Z ∧
  features_of Diameter g4 0 [1; 2] = Ok (f4 Diameter) ∧
  f_sqdiam (f4 Diameter) = qc 900 1 ∧ f_sqmin (f4 Diameter) = qc 100 1 ∧
  features_of MaxOverMinBary g4 0 [1; 2] = Ok (f4 MaxOverMinBary) ∧
  f_sum (f4 MaxOverMinBary) = [qc 80 1] ∧
  map (λ x, f_facets (f4 MaxOverMinBary) !! x) (seq 0 4) = [Some 1%Z; Some 0%Z; Some 1%Z; None].
Proof.
  split; [exact q_exact|]. split; [apply q_weak_order|]. split; [exact q_total|]. split; [exact g4_data|].
  split_and!; vm_compute; reflexivity.
Qed.

Definition a4 (k : ar_kind) : Z * Qc * feats := run_c (compute_features k g4 3 (f4 k) {[0; 1; 2]}).
Lemma C39_ex : compute_features ExternalW g4 3 (f4 ExternalW) {[0; 1; 2]} = Ok (a4 ExternalW) ∧
  (a4 ExternalW).1.1 = 1%Z ∧ @weq qarith (a4 ExternalW).1.2 (qc 9 1) = true ∧
  @weq qarith (a4 (DiamOverRadius true)).1.2 (qc 200 1) = true ∧
  @weq qarith (a4 DiamOverMinEdge).1.2 (qc 16 1) = true ∧
  @weq qarith (a4 (MaxBaryOverRadius true)).1.2 (qc 200 1) = true.
Proof. split_and!; vm_compute; reflexivity. Qed.

(** ** Counter-examples *)

Lemma pair_01 w : pair_dist (g_cen g4) {[1; 0]} w → w = qc 100 1.
Proof.
  intros (x & y & c & c' & Hx & Hy & Hne & Hc & Hc' & ->).
  assert (x = 0 ∧ y = 1 ∨ x = 1 ∧ y = 0) as [[-> ->]|[-> ->]] by set_solver;
    vm_compute in Hc; vm_compute in Hc'; injection Hc as <-; injection Hc' as <-; vm_compute; apply Qc_is_canon; reflexivity.
Qed.
Lemma pair_01_at : pair_dist (g_cen g4) {[1; 0]} (qc 100 1).
Proof.
  exists 0, 1, [qc 0 1], [qc 10 1]. split_and!; [set_solver|set_solver|lia|reflexivity|reflexivity|].
  vm_compute. apply Qc_is_canon. reflexivity.
Qed.

Definition c39 (k : ar_kind) := run_c (compute_features k g4 1 (run_f (features_of k g4 0 [])) {[0]}).

(** Two cells: the squared diameter, not the ratio. *)
Lemma C39_edge_ref : ∃ g f s a f', mesh_data g 1 ∧ features_of DiamOverMinEdge g 0 [] = Ok f ∧
  compute_features DiamOverMinEdge g 1 f (list_to_set [0]) = Ok (s, a, f') ∧
  ∀ q, ¬ is_ar g 1 q DiamOverMinEdge ({[1]} ∪ list_to_set [0]) a.
Proof.
  exists g4, (run_f (features_of DiamOverMinEdge g4 0 [])), (c39 DiamOverMinEdge).1.1, (c39 DiamOverMinEdge).1.2, (c39 DiamOverMinEdge).2.
  split; [exact g4_data|]. split; [vm_compute; reflexivity|]. split; [vm_compute; reflexivity|].
  intros q (D & E & [HD HD'] & [HE HE'] & Ha).
  replace ({[1]} ∪ list_to_set [0] : gset nat) with ({[1; 0]} : gset nat) in * by set_solver.
  assert (D = qc 100 1) as ->.
  { destruct HD as [-> |HD%pair_01]; [|done]. exfalso.
    specialize (HD' _ (or_intror pair_01_at)). vm_compute in HD'. discriminate. }
  assert (E = qc 100 1) as ->.
  { destruct HE as [-> |HE%pair_01]; [|done]. exfalso.
    specialize (HE' _ (or_intror pair_01_at)). vm_compute in HE'. discriminate. }
  vm_compute in Ha. discriminate Ha.
Qed.

(** The distances are not taken from the barycentre. *)
Lemma C39_bary_ref : ∃ g f s a f', mesh_data g 1 ∧ features_of (MaxBaryOverRadius true) g 0 [] = Ok f ∧
  compute_features (MaxBaryOverRadius true) g 1 f (list_to_set [0]) = Ok (s, a, f') ∧
  let Y := {[1]} ∪ list_to_set [0] in ¬ is_ar g 1 (measure (g_vol g) Y) (MaxBaryOverRadius true) Y a.
Proof.
  set (k := MaxBaryOverRadius true).
  exists g4, (run_f (features_of k g4 0 [])), (c39 k).1.1, (c39 k).1.2, (c39 k).2.
  split; [exact g4_data|]. split; [vm_compute; reflexivity|]. split; [vm_compute; reflexivity|].
  cbv zeta. intros (b & D & Hb & Hc & [HD HD'] & Ha). destruct b as [|b0 [|??]]; try discriminate Hb.
  specialize (Hc 0). simpl in Hc. injection Hc as Hc. vm_compute in Hc.
  assert (b0 = qc 5 1) as ->. { rewrite Hc. apply Qc_is_canon. reflexivity. }
  destruct HD as (x & c & Hx & Hcx & ->).
  assert (x = 0 ∨ x = 1) as [-> | ->] by set_solver; vm_compute in Hcx; injection Hcx as <-; vm_compute in Ha; discriminate Ha.
Qed.

Lemma C39_extremes : extremes_ok g4 (@wofZ qarith 4) ({[3]} ∪ list_to_set [0; 1; 2]).
Proof.
  intros b w Hb (x & c & Hx & Hc & -> & HO & Ht).
  assert (b = [] ∨ ∃ b', b = qc 40 1 :: b') as Hbb.
  { destruct b as [|b0 b']; [by left|]. right. exists b'. f_equal. specialize (Hb 0). simpl in Hb.
    injection Hb as Hb. rewrite Hb. vm_compute. apply Qc_is_canon. reflexivity. }
  assert (x = 0 ∨ x = 1 ∨ x = 2 ∨ x = 3) as Hx' by set_solver.
  destruct Hx' as [-> |[-> |[-> | ->]]]; vm_compute in Hc; injection Hc as <-;
    (destruct Hbb as [-> |[b' ->]]; [|destruct b']; first [split; vm_compute; reflexivity|vm_compute in Ht; discriminate Ht|
       vm_compute in HO; discriminate HO]).
Qed.
Lemma C39_minmax_ex : compute_features MaxOverMinBary g4 3 (f4 MaxOverMinBary) {[0; 1; 2]} = Ok (a4 MaxOverMinBary) ∧
  @weq qarith (a4 MaxOverMinBary).1.2 (qc 40 40) = true.
Proof. split_and!; vm_compute; reflexivity. Qed.
