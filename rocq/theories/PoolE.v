(** * PoolE: examples and counter-examples for the pools of seeds *)

From Coq Require Import QArith Qcanon.
From Verif Require Export Inst ApiE PoolT.

#[local] Open Scope Z_scope.
#[local] Open Scope nat_scope.

#[local] Existing Instance qarith.
#[local] Existing Instance ord_id.

Definition data_check (prio : list (@W qarith)) (bnd : list Z) : bool :=
  bool_decide (0 < length bnd) && bool_decide (length prio = length bnd)
  && forallb (λ b, bool_decide (0 <= b <= 3)%Z) bnd.
Lemma data_check_ok prio bnd : data_check prio bnd = true → pool_data prio bnd.
Proof.
  unfold data_check. rewrite !andb_true_iff, !bool_decide_eq_true, forallb_forall. intros [[H1 H2] H3].
  pose proof (q_weak_order (λ w, w ∈ prio)) as [O1 O2 O3]. split; [done..| |].
  - intros c b Hb. apply elem_of_list_lookup_2, elem_of_list_In, H3 in Hb. by apply bool_decide_eq_true in Hb.
  - intros x y z Hx Hy Hz. split_and!; [by apply O1|by apply O2|by apply O3].
Qed.

Definition ones (n : nat) : list (@W qarith) := replicate n (qc 1 1).
Definition run_pool (m : res (@pool)) : pool := match m with Ok p => p | Err _ => pool_new false false end.
Definition run_seed (m : res (option nat * pool)) : pool := match m with Ok r => r.2 | Err _ => pool_new false false end.

(** A pool from which a seed has been taken and cells been added: cell 2 is a
    corner which the history has not seen. *)
Definition bnd4 : list Z := [2; 0; 2; 1]%Z.
Definition aggl4 : list bool := [true; false; false; false].
Definition pool4 (bp : bool) : pool :=
  run_pool (order_new_seeds_and_update (ones 4) bnd4
    (run_seed (choose_new_seed (ones 4) bnd4 (replicate 4 false)
      (run_pool (pool_initialize (ones 4) bnd4 (pool_new bp true))))) {[1; 3]}).
Lemma pool4_hist bp : pool_hist (ones 4) bnd4 bp true aggl4 (pool4 bp).
Proof.
  eapply (ph_new _ _ _ _ _ _ {[1; 3]}).
  - eapply (ph_aggl _ _ _ _ (replicate 4 false)); [|done|].
    + eapply (ph_seed _ _ _ _ _ (run_pool (pool_initialize (ones 4) bnd4 (pool_new bp true))) 0).
      * apply ph_start; [done|]. destruct bp; vm_compute; reflexivity.
      * destruct bp; vm_compute; reflexivity.
    + intros c Hc. apply elem_of_list_lookup_2, elem_of_replicate in Hc as [? _]. done.
  - intros c Hc. simpl. set_solver by lia.
  - destruct bp; vm_compute; reflexivity.
Qed.
Lemma ones_pos n w : w ∈ ones n → wlt w wminv = false.
Proof. intros [-> _]%elem_of_replicate. vm_compute. reflexivity. Qed.

Lemma C16_ex : pool_data (ones 4) bnd4 ∧ pool_hist (ones 4) bnd4 true true aggl4 (pool4 true) ∧
  (∀ w, w ∈ ones 4 → wlt w wminv = false) ∧
  ∃ p', choose_new_seed (ones 4) bnd4 aggl4 (pool4 true) = Ok (Some 2, p').
Proof.
  split_and!; [by apply data_check_ok|apply pool4_hist|apply ones_pos|].
  eexists. vm_compute. reflexivity.
Qed.
Lemma C17_ex : pool_data (ones 4) bnd4 ∧ pool_hist (ones 4) bnd4 false true aggl4 (pool4 false) ∧
  (∀ w, w ∈ ones 4 → wlt w wminv = false) ∧
  ∃ p', choose_new_seed (ones 4) bnd4 aggl4 (pool4 false) = Ok (Some 3, p').
Proof.
  split_and!; [by apply data_check_ok|apply pool4_hist|apply ones_pos|].
  eexists. vm_compute. reflexivity.
Qed.

(** The second coarse cell does not touch the first one, though there are
    neighbours of the first one left. *)
Definition chain7_np : @input qarith := mk_input (chain 7) [1; 0; 0; 0; 0; 0; 1]%Z 1 false 2 2 2 1.
Lemma C17_neighbour_ref : ∃ i o r, good_call i o ∧ in_aniso i = false ∧ in_corr i = false ∧ in_order i = 1%Z ∧
  agglomerate_one_level i o = (r, Ok ()) ∧
  (∀ x y, o_fc2cc r !! x = Some 0 → o_fc2cc r !! y = Some 1 → ¬ in_edge i x y) ∧
  (∃ x y, o_fc2cc r !! x = Some 0 ∧ o_fc2cc r !! y = Some 2 ∧ in_edge i x y).
Proof.
  exists chain7_np, o0, (Outs [0; 0; 2; 2; 3; 1; 1] [] []). split_and!; [|done..| | |].
  - apply good_off; [done|vm_compute; reflexivity].
  - vm_compute. reflexivity.
  - simpl. intros x y Hx Hy He.
    assert (x = 0 ∨ x = 1) as Hx'. { do 7 (destruct x as [|x]; [simpl in Hx; simplify_eq; by auto|]). done. }
    assert (y = 5 ∨ y = 6) as Hy'. { do 7 (destruct y as [|y]; [simpl in Hy; simplify_eq; by auto|]). done. }
    apply elem_of_nbl, (bool_decide_eq_true_2 _) in He.
    destruct Hx' as [-> | ->], Hy' as [-> | ->]; vm_compute in He; done.
  - exists 1, 2. split_and!; [done..|]. apply elem_of_nbl, (bool_decide_unpack _). vm_compute. exact I.
Qed.

(** When the pool is exhausted the next seed has one boundary face although a
    cell with two is left. *)
Definition comps8 : list (list nat) := [[1]; [0;4]; [6]; [7]; [1;5]; [4]; [2]; [3]].
Definition comps8_np : @input qarith := mk_input comps8 [2; 0; 1; 2; 0; 0; 0; 0]%Z 11 false 2 2 2 1.
Lemma C17_highest_ref : ∃ i o r, good_call i o ∧ in_aniso i = false ∧ in_corr i = false ∧ in_order i = 11%Z ∧
  agglomerate_one_level i o = (r, Ok ()) ∧
  (∀ x y, o_fc2cc r !! x = Some 0 ∨ o_fc2cc r !! x = Some 1 → o_fc2cc r !! y = Some 2 ∨ o_fc2cc r !! y = Some 3 →
     ¬ in_edge i x y) ∧
  (∀ x b, o_fc2cc r !! x = Some 2 → in_bnd i !! x = Some b → (b <= 1)%Z) ∧
  (∃ x, o_fc2cc r !! x = Some 3 ∧ in_bnd i !! x = Some 2%Z).
Proof.
  exists comps8_np, o0, (Outs [0; 0; 2; 3; 1; 1; 2; 3] [] []). split_and!; [|done..| | | |].
  - apply good_off; [done|vm_compute; reflexivity].
  - vm_compute. reflexivity.
  - simpl. intros x y Hx Hy He.
    assert (x = 0 ∨ x = 1 ∨ x = 4 ∨ x = 5) as Hx'.
    { do 8 (destruct x as [|x]; [simpl in Hx; destruct Hx as [Hx|Hx]; simplify_eq; by auto|]). by destruct Hx. }
    assert (y = 2 ∨ y = 3 ∨ y = 6 ∨ y = 7) as Hy'.
    { do 8 (destruct y as [|y]; [simpl in Hy; destruct Hy as [Hy|Hy]; simplify_eq; by auto|]). by destruct Hy. }
    apply elem_of_nbl, (bool_decide_eq_true_2 _) in He.
    destruct Hx' as [-> | [-> | [-> | ->]]], Hy' as [-> | [-> | [-> | ->]]]; vm_compute in He; done.
  - simpl. intros x b Hx Hb. do 8 (destruct x as [|x]; [simpl in *; simplify_eq; lia|]). done.
  - exists 3. done.
Qed.

Lemma C18_ex : pool_data (ones 4) bnd4 ∧ weak_order wlt (λ w, w ∈ wminv :: ones 4) ∧
  highest_free bnd4 (replicate (length bnd4) false) 2 ∧ bnd4 !! 0 = Some 2%Z ∧
  ones 4 !! 0 = Some (qc 1 1) ∧ wlt (qc 1 1) wminv = false.
Proof.
  split_and!; [by apply data_check_ok|apply q_weak_order| |done|done|vm_compute; reflexivity].
  split; [by exists 0|]. intros c b' _ Hb. do 4 (destruct c as [|c]; [simpl in Hb; simplify_eq; lia|]). done.
Qed.
Definition zeros (n : nat) : list (@W qarith) := replicate n (qc 0 1).
Lemma C18_ub_ex : pool_data (zeros 4) bnd4 ∧ weak_order wlt (λ w, w ∈ wminv :: zeros 4) ∧
  highest_free bnd4 (replicate (length bnd4) false) 2 ∧
  (∀ c w, bnd4 !! c = Some 2%Z → zeros 4 !! c = Some w → wlt w wminv = true).
Proof.
  split_and!; [by apply data_check_ok|apply q_weak_order|apply C18_ex|].
  intros c w _ Hw. apply elem_of_list_lookup_2, elem_of_replicate in Hw as [-> _]. vm_compute. reflexivity.
Qed.
(** No first seed although the data are fine: all priorities are zero. *)
Lemma C18_ref : ∃ prio bnd p, pool_data prio bnd ∧
  pool_initialize prio bnd (pool_new true true) = Ok p ∧
  choose_new_seed prio bnd (replicate (length bnd) false) p = Err EUB.
Proof.
  exists (zeros 4), bnd4. eexists. split_and!; [by apply data_check_ok|vm_compute; reflexivity..].
Qed.
