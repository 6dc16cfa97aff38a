(** * LevelE: examples and counter-examples for the levels of the scripts (C81) *)

From Coq Require Import QArith Qcanon.
From Verif Require Import Inst Base Main Spec SpecHier SpecChain SpecTools SpecLevel ToolsM LevelM ApiE ChainE GrowE.
#[local] Open Scope Z_scope.
#[local] Open Scope nat_scope.
#[local] Existing Instance qarith | 100.
#[local] Existing Instance ord_id | 100.

(** One priority for each cell, decreasing. *)
Definition down (n : nat) : list Qc := map (λ k, qc (Z.of_nat k) 1) (reverse (seq 1 n)).
Definition posq (x : Qc) : Prop := (qc 0 1 < x)%Qc.

Lemma down_good : good_prio (in_order (line7 true None) = 10%Z ∨ in_order (line7 true None) = 11%Z) down.
Proof.
  intros n. split; [unfold down; by rewrite map_length, reverse_length, seq_length|].
  split; [apply q_weak_order|]. intros [E|E]; vm_compute in E; discriminate.
Qed.
Lemma posq_good : good_vol posq.
Proof.
  split.
  - intros x Hx. change (qc 0 1 < Q2Qc 0 + x)%Qc. by rewrite Qcplus_0_l.
  - intros x y Hx Hy. change (qc 0 1 < x + y)%Qc. unfold posq in *.
    apply Qclt_le_trans with x; [done|]. rewrite <- (Qcplus_0_r x) at 1.
    apply Qcplus_le_compat; [apply Qcle_refl|by apply Qclt_le_weak].
  - intros x Hx. cbn. destruct (x ?= _)%Qc eqn:E; try done. apply Qceq_alt in E. subst x. by apply Qclt_not_eq in Hx.
Qed.

(** Three levels; the lines of the first call are kept over the levels. *)
Lemma C81_ex : good_call (line7 true None) o_line5 ∧ in_connected (line7 true None) ∧ thresh_one (line7 true None) ∧
  (∀ L, limit_safe (line7 true None) L) ∧
  good_prio (in_order (line7 true None) = 10%Z ∨ in_order (line7 true None) = 11%Z) down ∧
  good_vol posq ∧ (∀ v, v ∈ in_vol (line7 true None) → posq v) ∧
  py_levels down 4 (line7 true None) o_line5 (zs (seq 0 7)) []
  = LOk (zs [0; 0; 0; 0; 0; 0; 0], [[0; 0; 1; 1; 1; 2; 2]; [0; 0; 1]; [0; 0]]).
Proof.
  destruct C32_ex as (H1 & H2 & _ & H4 & H5 & _).
  split; [done|]. split; [done|]. split; [done|]. split; [done|]. split; [apply down_good|]. split; [apply posq_good|].
  split; [|vm_compute; reflexivity].
  intros v Hv. apply Forall_forall with (x := v) (l := in_vol (line7 true None)); [|done].
  repeat (apply Forall_cons; split; [reflexivity|]). apply Forall_nil. done.
Qed.

(** The priorities of the scripts are one too few: the third call is undefined (the second has three cells and reads two priorities only). *)
Lemma C81_ref : ∃ (i : @input qarith) o, good_call i o ∧ in_connected i ∧ thresh_one i ∧ (∀ L, limit_safe i L) ∧
  good_vol posq ∧ (∀ v, v ∈ in_vol i → posq v) ∧
  py_levels py_weights 3 i o (zs (seq 0 (in_n i))) [] = LCpp EUB.
Proof.
  destruct C81_ex as (H1 & H2 & H3 & H4 & _ & H6 & H7 & _). exists (line7 true None), o_line5.
  split; [done|]. split; [done|]. split; [done|]. split; [done|]. split; [done|]. split; [done|]. vm_compute. reflexivity.
Qed.

(** Cells without neighbours: the first call ends normally, but the coarse graph cannot be built. *)
Lemma C81_iso : ∃ (i : @input qarith) o, good_call i o ∧ in_aniso i = false ∧ in_corr i = false ∧
  (∃ r, agglomerate_one_level i o = (r, Ok ())) ∧
  py_levels down 2 i o (zs (seq 0 (in_n i))) [] = LPy IndexError.
Proof.
  exists isolated4, o0. split; [apply good_off; [done|vm_compute; reflexivity]|].
  split; [done|]. split; [done|]. split; [eexists; vm_compute; reflexivity|]. vm_compute. reflexivity.
Qed.
