(** * HashE: example and refutation for the iteration order (C26) *)

From Verif Require Import Lib Spec SpecHash Main Inst ApiE HashW.
From Coq Require Import QArith Qcanon.
#[local] Open Scope Z_scope.
#[local] Open Scope nat_scope.
#[local] Existing Instance qarith | 100.

Lemma q_total : total_order qarith.
Proof.
  split; [apply q_weak_order|]. intros a b Hab Hba.
  change (qlt a b = false) in Hab. change (qlt b a = false) in Hba.
  assert (∀ x y, qlt x y = false → (y <= x)%Qc) as Hle.
  { intros x y Hxy. destruct (Qclt_le_dec x y) as [Hlt|]; [|done]. apply qlt_iff in Hlt. congruence. }
  apply Qcle_antisym; by apply Hle.
Qed.

(** The hypotheses hold for the 3x3 grid, whose aspect ratio is a distance,
    and the two orders differ on the sets iterated. *)
Lemma C26_ex : good_call grid9_in o0 ∧ dist_ratio grid9_in ∧ dist_order qarith ∧ thresh_one grid9_in ∧
  @hset ord_id 0 {[1; 2]} ≠ @hset ord_rev 0 {[1; 2]} ∧
  o_fc2cc (@agglomerate_one_level qarith ord_rev grid9_in o0).1 = [0; 0; 1; 0; 0; 1; 2; 2; 2].
Proof.
  split_and!.
  - apply good_off; [done|]. vm_compute. reflexivity.
  - unfold dist_ratio. vm_compute. set_solver.
  - apply total_dist_order, q_total.
  - by left.
  - vm_compute. congruence.
  - vm_compute. reflexivity.
Qed.

(** Eight cells; a coarse cell of two cells is corrected cell by cell. *)
Definition cas8 : @input qarith :=
  mk_input [[1]; [0; 2; 6; 7]; [1]; [4]; [3; 5; 7]; [4]; [1; 7]; [1; 4; 6]] [1; 0; 0; 2; 0; 0; 0; 0]%Z 0 true 3 3 3 2.
Lemma C26_ref : ∃ (i : @input qarith) o, good_call i o ∧ total_order qarith ∧
  (@agglomerate_one_level qarith ord_id i o).2 = Ok () ∧
  (@agglomerate_one_level qarith ord_rev i o).2 = Ok () ∧
  o_fc2cc (@agglomerate_one_level qarith ord_id i o).1 ≠ o_fc2cc (@agglomerate_one_level qarith ord_rev i o).1.
Proof.
  exists cas8, o0. split_and!.
  - apply good_off; [done|]. vm_compute. reflexivity.
  - apply q_total.
  - vm_compute. reflexivity.
  - vm_compute. reflexivity.
  - vm_compute. congruence.
Qed.
