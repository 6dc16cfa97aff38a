(** * CheckE: examples and a counter-example for the checks of the arguments *)

From Coq Require Import QArith Qcanon.
From Verif Require Export Inst ApiE CheckT.

#[local] Open Scope Z_scope.
#[local] Open Scope nat_scope.

#[local] Existing Instance qarith.
#[local] Existing Instance ord_id.

(** Two wrong arguments: the one checked first decides. *)
Definition bad2 : @input qarith := with_sing 0 (mk_input (chain 7) (chain_bnd 7) 0 true 2 1 2 1).
Lemma C08_ex : (agglomerate_one_level bad2 o0).2 = Err (EInvalid KCard) ∧
  bad_arg bad2 o0 KCard ∧ bad_arg bad2 o0 KSing.
Proof. split_and!; [vm_compute; reflexivity|cbn; lia|cbn; lia]. Qed.

Lemma C08_ar_ex : (agglomerate_one_level (with_ar 10 (chain7 true)) o0).2 = Err (EInvalid KAR) ∧
  first_bad (with_ar 10 (chain7 true)) o0 KAR ∧ good_call (with_ar 0 (with_ar 10 (chain7 true))) o0.
Proof.
  assert ((agglomerate_one_level (with_ar 10 (chain7 true)) o0).2 = Err (EInvalid KAR)) as E
    by (vm_compute; reflexivity).
  split_and!; [done|by apply C08_ar_lem|]. apply good_off; [done|vm_compute; reflexivity].
Qed.
(** An ill-formed call which fails before the aspect ratio is looked at. *)
Lemma C08_first_ex : ∃ i : @input qarith, first_bad i o0 KAR ∧ agglomerate_one_level i o0 = (o0, Err EUB).
Proof.
  exists (with_ar 10 (mk_input [] [] 0 true 2 2 2 1)). split; [|vm_compute; reflexivity].
  apply first_bad_ar. split; [vm_compute; reflexivity|cbn; lia].
Qed.

(** The lines have been overwritten when the aspect ratio is rejected. *)
Lemma C33_ref : ∃ i o ar, good_call (with_ar ar i) o ∧ ∃ r, agglomerate_one_level i o = (r, Err (EInvalid KAR)) ∧
  o_idx r ≠ o_idx o ∧ o_lines r ≠ o_lines o.
Proof.
  exists (with_ar 10 (line7 false None)), o_line5, 0%Z. split.
  - apply good_given; vm_compute; reflexivity.
  - eexists. split; [vm_compute; reflexivity|]. done.
Qed.
Lemma C33_ex : (agglomerate_one_level (with_ar 10 (chain7 true)) o_line5).2 = Err (EInvalid KAR) ∧
  (agglomerate_one_level (with_sing 0 (line7 false None)) o_line5).2 = Err (EInvalid KSing).
Proof. split; vm_compute; reflexivity. Qed.

Lemma C34_ex : map (Z.min (in_dim (chain7 true))) [5; 1; 1; 1; 1; 1; 1]%Z
    = map (Z.min (in_dim (chain7 true))) (in_bnd (chain7 true)) ∧
  [5; 1; 1; 1; 1; 1; 1]%Z ≠ in_bnd (chain7 true) ∧
  ∃ f, agglomerate_one_level (chain7 true) o0 = (f, Ok ()).
Proof. split_and!; [done..|]. eexists. vm_compute. reflexivity. Qed.

Lemma C35_ex : (in_min (tree10_in true 1) <= 7)%Z ∧
  (agglomerate_one_level (with_sing 7 (tree10_in true 1)) o0).2 = Ok () ∧
  agglomerate_one_level (with_sing 7 (tree10_in true 1)) o0 ≠ agglomerate_one_level (tree10_in true 1) o0.
Proof. split_and!; [done|vm_compute; reflexivity|by vm_compute]. Qed.
