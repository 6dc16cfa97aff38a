(** * RuleE: examples for C51 *)

From Coq Require Import QArith Qcanon.
From Verif Require Import Inst Spec SpecSub SpecMove SpecRules SpecFeed GraphP BestE ApiE GrowE HashE FeedE MoveE MoveT FeedT RuleT.
#[local] Open Scope Z_scope.
#[local] Open Scope nat_scope.
#[local] Existing Instance qarith | 100.
#[local] Existing Instance ord_id | 100.

(** Of two results for the 3 x 3 grid one follows the rules; the same for a
    path with a line, where both have the same anisotropic coarse cells. *)
Lemma C51_ex :
  (by_rules grid9_nc o0 (Outs [0;0;1;0;0;1;2;2;2] [] []) ∧
   ¬ by_rules grid9_nc o0 (Outs [0;0;1;0;1;1;2;2;2] [] [])) ∧
  (by_rules line7_nc o_line5 (Outs [0;0;1;1;1;2;2] [0;2] [0;1]) ∧
   ¬ by_rules line7_nc o_line5 (Outs [0;0;1;1;1;3;2] [0;2] [0;1])).
Proof.
  destruct C45_ex as [(HG & Hc & Hs & WO & HE) (HG' & Hc' & Hs' & HA & HL & HE' & _)]. split.
  - pose proof (C51_lem _ _ _ _ HG Hc Hs WO HE) as HU. split.
    + apply HU; [done| |done]. by split.
    + intros HR. apply HU in HR; [done..|]. split; [done|]. intros x c [Ha _]. by destruct Ha.
  - pose proof (C51_lem _ _ _ _ HG' Hc' Hs' WO HE') as HU. split.
    + apply HU; [done| |done]. by split.
    + intros HR. apply HU in HR; [done..|]. split; [done|]. intros x c [_ Hc1]. simpl in Hc1.
      clear -Hc1. assert (c = 0 ∨ c = 1) as Hc2 by (repeat (apply elem_of_cons in Hc1 as [->|Hc1]; [lia|]); by apply elem_of_nil in Hc1).
      do 7 (destruct x as [|x]; [simpl; split; intros E; injection E; intros; first [done|exfalso; lia]|]).
      done.
Qed.

(** The last cell of a path of seven cells is single and joins its neighbour. *)
Lemma C51_corrected_ex :
  corrected_from (chain7 true) o0 (Outs [0;0;1;1;2;2;3] [] []) (Outs [0;0;1;1;2;2;2] [] []) ∧
  ¬ corrected_from (chain7 true) o0 (Outs [0;0;1;1;2;2;3] [] []) (Outs [0;0;1;1;2;2;1] [] []).
Proof.
  destruct C41_ex as [(HG & Hc & Hs & Hz & E0 & E1) _].
  assert (corr_size (chain7 true) <= 1)%Z as Hz' by (by rewrite Hz).
  pose proof (C51_corrected_lem _ _ _ _ _ _ HG Hs Hc Hz' E0 E1) as HU. split; [by apply HU|].
  intros HR. by apply HU in HR.
Qed.

Lemma C51_choice_lem : ∃ (i : @input qarith) o r0 r r',
  good_call i o ∧ simple_csr (in_row i) (in_col i) ∧ in_corr i = true ∧ corr_size i = 2%Z ∧
  agglomerate_one_level (uncorrected i) o = (r0, Ok ()) ∧
  corrected_from i o r0 r ∧ corrected_from i o r0 r' ∧ r' ≠ r.
Proof.
  assert (good_call cas8 o0) as HG by (apply good_off; [done|vm_compute; reflexivity]).
  assert (simple_csr (in_row cas8) (in_col cas8)) as Hs by (apply (good_simple _ _ HG); vm_compute; reflexivity).
  destruct (@agglomerate_one_level qarith ord_id (uncorrected cas8) o0) as [r0 e0] eqn:E0.
  destruct (@agglomerate_one_level qarith ord_id cas8 o0) as [r e] eqn:E1.
  destruct (@agglomerate_one_level qarith ord_rev cas8 o0) as [r' e'] eqn:E2.
  assert (@agglomerate_one_level qarith ord_rev (uncorrected cas8) o0 = (r0, e0)) as E3.
  { rewrite <- E0. vm_compute. reflexivity. }
  destruct (@C41_lem qarith ord_id cas8 o0 _ _ _ _ HG Hs eq_refl E0 E1) as (-> & -> & H1).
  destruct (@C41_lem qarith ord_rev cas8 o0 _ _ _ _ HG Hs eq_refl E3 E2) as (_ & -> & H2).
  exists cas8, o0, r0, r, r'. split; [done|]. split; [done|]. split; [done|]. split; [done|].
  split; [done|]. split; [exact H1|]. split; [exact H2|]. intros ->. rewrite <- E1 in E2. revert E2. vm_compute. congruence.
Qed.

(** There is such a sequence for the 3 x 3 grid. *)
Lemma C51_sequence_ex : ∃ ip aggl nb p Xs,
  started (in_prio grid9_nc) (fixed_bnd grid9_nc) true false aggl nb p ∧
  made ip (graph_of grid9_nc) (in_prio grid9_nc) (compactness (in_row grid9_nc) (in_col grid9_nc)) aggl p Xs ∧
  (∃ X, Xs !! 0 = Some X ∧ 4 ∈ X ∧ 5 ∉ X).
Proof.
  destruct C51_ex as [[(ip & m & aggl & p & w & Xs & _ & _ & _ & _ & _ & _ & _ & _ & Hm & _ & _ & _ & _ & S1 & M1 & E) _] _].
  eexists ip, aggl, _, p, Xs. split; [exact S1|]. split; [exact M1|].
  assert (m = 0) as ->.
  { destruct m as [|m]; [done|]. destruct (Hm 0) as [_ [[Ha _] _]]; [lia|]. discriminate Ha. }
  destruct (E 0 4) as [_ (X & HX & H4)]; [done|]. exists X. split; [done|]. split; [done|]. intros H5.
  destruct (E 0 5) as [H5' _]. assert (Some 1 = Some 0); [|done]. apply H5'. by exists X.
Qed.
