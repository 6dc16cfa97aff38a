(** * WholeE: examples for C57 *)

From Coq Require Import QArith Qcanon.
From Verif Require Import Inst Spec SpecSub SpecFeat SpecAR SpecHash SpecMove SpecFeed SpecWhole GraphP FeatE BestE ApiE GrowE
  HashE FeedE MoveE GeoE WholeU.
#[local] Open Scope Z_scope.
#[local] Open Scope nat_scope.
#[local] Existing Instance qarith | 100.
#[local] Existing Instance ord_id | 100.

Ltac sym_tac HG :=
  apply (sym_weights_check _ _ _ _ (wf_csr _ (gc_mesh _ _ HG))); vm_compute; reflexivity.

Lemma only_in {X} {P : X → Prop} {C : Prop} {r} : P r ∧ (C → ∀ r', P r' → r' = r) → P r.
Proof. by intros [HP _]. Qed.
Lemma only_out {X} {P : X → Prop} {C : Prop} {r} : P r ∧ (C → ∀ r', P r' → r' = r) → C → ∀ r', r' ≠ r → ¬ P r'.
Proof. intros [_ HP] HC r' Hr HR. by apply Hr, HP. Qed.

(** For the 3 x 3 grid, a path with a given line,
    and a chain whose last cell is moved by the correction. *)
Lemma C57_ex :
  ((@exact_arith qarith) ∧ total_order qarith ∧ good_call grid9_nc o0 ∧ simple_csr (in_row grid9_nc) (in_col grid9_nc) ∧
   sym_weights (in_row grid9_nc) (in_col grid9_nc) (in_val grid9_nc) ∧ extremes_fine grid9_nc ∧
   result_right grid9_nc o0 (Outs [0;0;1;0;0;1;2;2;2] [] []) ∧
   ¬ result_right grid9_nc o0 (Outs [0;0;1;0;1;1;2;2;2] [] [])) ∧
  (good_call line7_nc o_line5 ∧ aniso_on line7_nc o_line5 ∧
   result_right line7_nc o_line5 (Outs [0;0;1;1;1;2;2] [0;2] [0;1]) ∧
   ¬ result_right line7_nc o_line5 (Outs [0;0;0;1;1;2;2] [0;2] [0;1]) ∧
   ¬ result_right line7_nc o_line5 (Outs [0;0;1;1;1;2;2] [0;1] [0;1])) ∧
  (good_call (chain7 true) o0 ∧ in_corr (chain7 true) = true ∧
   result_right (chain7 true) o0 (Outs [0;0;1;1;2;2;2] [] []) ∧
   ¬ result_right (chain7 true) o0 (Outs [0;0;1;1;2;2;3] [] [])).
Proof.
  destruct C45_ex as [(HG & Hc & Hs & WO & HE) (HG' & Hc' & Hs' & HA & HL & HE' & _)].
  destruct C41_ex as [(HG2 & Hc2 & Hs2 & Hz & _ & E2) _].
  assert (sym_weights (in_row grid9_nc) (in_col grid9_nc) (in_val grid9_nc)) as S1 by sym_tac HG.
  assert (sym_weights (in_row line7_nc) (in_col line7_nc) (in_val line7_nc)) as S2 by sym_tac HG'.
  assert (sym_weights (in_row (chain7 true)) (in_col (chain7 true)) (in_val (chain7 true))) as S3 by sym_tac HG2.
  assert (corr_size (chain7 true) <= 1)%Z as Hz' by (by rewrite Hz).
  assert (extremes_fine grid9_nc) as X1 by (intros E; discriminate E).
  assert (extremes_fine line7_nc) as X2 by (intros E; discriminate E).
  assert (extremes_fine (chain7 true)) as X3 by (intros E; discriminate E).
  destruct (C57_lem _ _ _ _ q_exact q_total HG Hs S1 X1 HE) as [_ R1].
  destruct (C57_lem _ _ _ _ q_exact q_total HG' Hs' S2 X2 HE') as [_ R2].
  destruct (C57_lem _ _ _ _ q_exact q_total HG2 Hs2 S3 X3 E2) as [_ R3].
  split; [|split].
  - split; [exact q_exact|]. split; [exact q_total|]. split; [exact HG|]. split; [exact Hs|]. split; [exact S1|].
    split; [exact X1|]. split; [by apply (only_in R1)|]. apply (only_out R1 (or_introl Hc)). discriminate.
  - split; [exact HG'|]. split; [exact HA|]. split; [by apply (only_in R2)|].
    split; apply (only_out R2 (or_introl Hc')); discriminate.
  - split; [exact HG2|]. split; [exact Hc2|]. split; [by apply (only_in R3)|]. apply (only_out R3 (or_intror Hz')). discriminate.
Qed.

(** Two lines of three cells built by the program. *)
Lemma C57_built_ex :
  good_call (built6 0 false) o0 ∧ in_build (built6 0 false) = true ∧ in_corr (built6 0 false) = true ∧
  corr_size (built6 0 false) = 1%Z ∧
  result_right (built6 0 false) o0 (Outs [0;0;0;1;1;1] [0;1;2] [0;1]) ∧
  ¬ result_right (built6 0 false) o0 (Outs [1;1;1;0;0;0] [0;1;2] [0;1]).
Proof.
  destruct C14_ex as (HG & Hon & Hb & _ & HE).
  assert (simple_csr (in_row (built6 0 false)) (in_col (built6 0 false))) as Hs
    by (apply (good_simple _ _ HG); vm_compute; reflexivity).
  assert (sym_weights (in_row (built6 0 false)) (in_col (built6 0 false)) (in_val (built6 0 false))) as S by sym_tac HG.
  assert (extremes_fine (built6 0 false)) as X by (intros E; discriminate E).
  assert (corr_size (built6 0 false) = 1%Z) as Hz by done.
  assert (corr_size (built6 0 false) <= 1)%Z as Hz' by (by rewrite Hz).
  destruct (C57_lem _ _ _ _ q_exact q_total HG Hs S X HE) as [_ R].
  split; [exact HG|]. split; [exact Hb|]. split; [done|]. split; [exact Hz|].
  split; [by apply (only_in R)|]. apply (only_out R (or_intror Hz')). discriminate.
Qed.

(** The condition on the extreme values can be met for the ratio which needs
    it. *)
Lemma subsets3 (Y : gset nat) : (∀ x, x ∈ Y → x < 3) →
  Y = ∅ ∨ Y = {[0]} ∨ Y = {[1]} ∨ Y = {[2]} ∨ Y = {[0; 1]} ∨ Y = {[0; 2]} ∨ Y = {[1; 2]} ∨ Y = {[0; 1; 2]}.
Proof.
  intros HY.
  destruct (decide (0 ∈ Y)) as [H0|H0], (decide (1 ∈ Y)) as [H1|H1], (decide (2 ∈ Y)) as [H2|H2];
    [do 7 right|do 4 right; left|do 5 right; left|right; left|do 6 right; left|do 2 right; left|do 3 right; left|left];
    apply set_eq; intros x;
    (destruct (decide (x < 3)) as [Hx|Hx];
     [destruct x as [|[|[|x]]]; [set_solver..|lia]|
      split; [intros HH; exfalso; by apply Hx, HY|rewrite ?elem_of_union, ?elem_of_singleton, ?elem_of_empty; lia]]).
Qed.

Definition far3 : @input qarith := tri3 8 (qc 3 1) (qc 1 1).
Lemma far3_extremes : extremes_fine far3.
Proof.
  intros _ Y HY b w Hb (x & c & Hx & Hc & -> & HO & Ht).
  assert (x < 3) as Hx3 by (by apply HY).
  assert (∀ d bd, b !! d = Some bd →
    bd = wmul (moment (g_vol (mesh_of far3)) (g_cen (mesh_of far3)) Y d) (wdiv w1 (wofZ (Z.of_nat (size Y))))) as Hb'.
  { intros d bd Hd. rewrite (Hb d) in Hd. case_decide; [by injection Hd as <-|done]. }
  clear Hb. destruct (subsets3 Y HY) as [-> |[-> |[-> |[-> |[-> |[-> |[-> | ->]]]]]]]; clear HY;
    (destruct x as [|[|[|x]]]; [..|lia]);
    pose proof (bool_decide_pack _ Hx) as Hx2; vm_compute in Hx2; try (by destruct Hx2);
    clear Hx Hx2 Hx3; vm_compute in Hc; injection Hc as <-;
    (vm_compute in HO; first [discriminate HO|clear HO]);
    (destruct b as [|b0 [|b1 [|b2 b]]];
     [|pose proof (Hb' 0 _ eq_refl) as ->|
       pose proof (Hb' 0 _ eq_refl) as ->; pose proof (Hb' 1 _ eq_refl) as ->..]);
    clear Hb'; first [split; vm_compute; reflexivity|vm_compute in Ht; discriminate Ht].
Qed.
Lemma C57_extremes_ex : good_call far3 o0 ∧ in_ar far3 = 8%Z ∧ extremes_fine far3 ∧
  result_right far3 o0 (Outs [0;0;1] [] []) ∧ ¬ result_right far3 o0 (Outs [0;1;0] [] []).
Proof.
  assert (good_call far3 o0) as HG by (apply good_off; [done|vm_compute; reflexivity]).
  assert (simple_csr (in_row far3) (in_col far3)) as Hs by (apply (good_simple _ _ HG); vm_compute; reflexivity).
  assert (sym_weights (in_row far3) (in_col far3) (in_val far3)) as S by sym_tac HG.
  assert (in_corr far3 = false) as Hc by done.
  assert (agglomerate_one_level far3 o0 = (Outs [0;0;1] [] [], Ok ())) as HE by (vm_compute; reflexivity).
  destruct (C57_lem _ _ _ _ q_exact q_total HG Hs S far3_extremes HE) as [_ R].
  split; [exact HG|]. split; [done|]. split; [exact far3_extremes|].
  split; [by apply (only_in R)|]. apply (only_out R (or_introl Hc)). discriminate.
Qed.
