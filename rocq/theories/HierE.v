(** * HierE: example for C70 *)

From Coq Require Import QArith Qcanon.
From Verif Require Import Inst Main Spec SpecSub SpecGrid SpecChain SpecHier GrowE ApiE GridE.
#[local] Open Scope Z_scope.
#[local] Open Scope nat_scope.
#[local] Existing Instance qarith | 100.
#[local] Existing Instance ord_id | 100.

(** A rectangle of 8 by 4 cells, numbered line by line; two levels. *)
Definition rc_co (x k : nat) : nat := match k with 0 => x mod 8 | _ => x / 8 end.
Definition rc_half (k : nat) : nat := match k with 0 => 4 | _ => 2 end.
Definition rc_last (k : nat) : nat := match k with 0 => 2 | _ => 1 end.
Definition rc32 : @input qarith := grid_in 2 32 rc_co true 2 3 4 0 1 0.

Lemma rc32_good : good_call rc32 o0.
Proof. apply good_off; [done|vm_compute; reflexivity]. Qed.

Lemma rc32_grid : regular_grid rc32 (λ k, 2 ^ 2 * rc_last k) rc_co.
Proof.
  assert (even_grid rc32 rc_half rc_co) as [H1 H2 H3 H4 H5] by (apply grid_check_ok; vm_compute; reflexivity).
  assert (∀ k, 2 ^ 2 * rc_last k = 2 * rc_half k) as He by (by intros [|k]).
  split; [|..|done|done|].
  - intros x k Hx Hk. rewrite He. by apply H1.
  - intros f Hf. apply H2. intros k Hk. rewrite <- He. by apply Hf.
  - intros x b Hb. rewrite (H5 x b Hb). reflexivity.
Qed.

Lemma C70_ex : good_call rc32 o0 ∧ in_aniso rc32 = false ∧ simple_csr (in_row rc32) (in_col rc32) ∧
  weak_order (@wlt qarith) (λ _, True) ∧ regular_grid rc32 (λ k, 2 ^ length [[0;1]; []] * rc_last k) rc_co ∧
  in_max rc32 = (2 ^ in_dim rc32)%Z ∧ in_dim rc32 = 2%Z ∧
  level_maps [[0;1]; []] rc32 o0 =
    [[0;0;4;4;5;5;1;1; 0;0;4;4;5;5;1;1; 2;2;6;6;7;7;3;3; 2;2;6;6;7;7;3;3]; [0;1;0;1;0;1;0;1]] ∧
  follow (level_maps [[0;1]; []] rc32 o0) <$> [0; 11; 27; 4; 31] = [Some 0; Some 0; Some 0; Some 1; Some 1].
Proof.
  split_and!; [apply rc32_good|done| |apply q_weak_order|apply rc32_grid|done|done|vm_compute; reflexivity|vm_compute; reflexivity].
  apply (simple_check_ok (in_n rc32)); [apply rc32_good|vm_compute; reflexivity].
Qed.
