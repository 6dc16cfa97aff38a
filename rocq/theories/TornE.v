(** * TornE: examples for C66 *)

From Coq Require Import QArith Qcanon.
From Verif Require Import Inst SpecSub SpecMove SpecTorn GraphP MoveP ApiE GrowE MoveE TornT.
#[local] Open Scope Z_scope.
#[local] Open Scope nat_scope.
#[local] Existing Instance qarith | 100.
#[local] Existing Instance ord_id | 100.

Lemma no_aniso (i : @input qarith) o r k : in_aniso i = false → ¬ aniso_id i o r k.
Proof. intros Ha [[Hb _] _]. congruence. Qed.

(** Cells 4 and 9 are left behind. *)
Lemma C66_rule_ex : let i := tree10_in true 2 in let r0 := Outs [0;0;0;1;1;2;2;2;3;3] [] [] in
  good_call i o0 ∧ simple_csr (in_row i) (in_col i) ∧ in_corr i = true ∧
  agglomerate_one_level (uncorrected i) o0 = (r0, Ok ()) ∧
  agglomerate_one_level i o0 = (Outs [0;0;0;0;1;1;1;1;1;3] [] [], Ok ()) ∧
  left_behind r0 {[1;3]} [0;0;0;0;1;2;2;2;2;3] 4 1 ∧ left_behind r0 {[1;3]} [0;0;0;0;1;2;2;2;2;3] 9 3.
Proof.
  pose proof (tree10_good true) as HG. cbv zeta. split; [done|].
  split; [apply (good_simple _ _ HG); vm_compute; reflexivity|]. split; [done|].
  split; [vm_compute; reflexivity|]. split; [vm_compute; reflexivity|]. split; (split; [set_solver|done]).
Qed.

(** Both cells of the small coarse cell of the ring touch the other one. *)
Lemma C66_static_ex : let i := ring5_in true in let r0 := Outs [0;0;1;1;0] [] [] in
  good_call i o0 ∧ simple_csr (in_row i) (in_col i) ∧ in_corr i = true ∧ corr_size i = 2%Z ∧
  agglomerate_one_level (uncorrected i) o0 = (r0, Ok ()) ∧
  (∀ k, small_id i o0 r0 k → (∀ x, o_fc2cc r0 !! x = Some k → touches i o0 r0 x) ∨
     (∀ x, o_fc2cc r0 !! x = Some k → ¬ touches i o0 r0 x)) ∧
  agglomerate_one_level i o0 = (Outs [0;0;0;0;0] [] [], Ok ()).
Proof.
  cbv zeta. assert (good_call (ring5_in true) o0) as HG by (apply good_off; [done|vm_compute; reflexivity]).
  split; [done|]. split; [apply (good_simple _ _ HG); vm_compute; reflexivity|]. split; [done|]. split; [done|].
  split; [vm_compute; reflexivity|]. split; [|vm_compute; reflexivity].
  intros k [[[x Hx] _] Hk]. simpl in *. left.
  assert (iso_id (ring5_in true) o0 (Outs [0;0;1;1;0] [] []) 0) as Hi.
  { split; [by exists 0|]. by apply no_aniso. }
  assert (k = 1) as ->.
  { do 5 (destruct x as [|x]; [simpl in Hx; injection Hx as <-; first [done|exfalso; revert Hk; vm_compute; intros Hk; by apply Hk]|]). done. }
  assert (∀ a b, b ∈ nb_list (in_row (ring5_in true)) (in_col (ring5_in true)) a → in_edge (ring5_in true) a b) as Hnb.
  { intros a b Hab. by apply elem_of_nbl. }
  intros z Hz. destruct z as [|[|[|[|[|z]]]]]; simpl in Hz; try done.
  - exists 1, 1, 0. split_and!; try done. apply Hnb. vm_compute. set_solver.
  - exists 1, 4, 0. split_and!; try done. apply Hnb. vm_compute. set_solver.
Qed.

Lemma C66_ref : ∃ (i : @input qarith) o r0 r c,
  good_call i o ∧ simple_csr (in_row i) (in_col i) ∧ in_aniso i = false ∧ in_corr i = true ∧ corr_size i = 2%Z ∧
  agglomerate_one_level (uncorrected i) o = (r0, Ok ()) ∧ agglomerate_one_level i o = (r, Ok ()) ∧
  ¬ contiguous (o_fc2cc r) ∧ ¬ connected (in_edge i) (cells_of (o_fc2cc r) c).
Proof.
  destruct C66_rule_ex as (HG & Hs & Hc & E0 & E1 & _). exists (tree10_in true 2), o0. do 2 eexists. exists 1.
  split; [done|]. split; [done|]. split; [done|]. split; [done|]. split; [done|]. split; [exact E0|]. split; [exact E1|]. split.
  - simpl. intros [k Hk]. assert (3 < k) by (apply Hk; by exists 9).
    destruct (proj1 (Hk 2)) as [x Hx]; [lia|]. do 10 (destruct x as [|x]; [done|]). done.
  - clear E0 E1 HG Hs Hc. apply (not_connected _ _ (λ x, x = 4) 4 5); try done.
    intros a b -> Hab Hb. apply elem_of_nbl in Hab. vm_compute in Hab.
    apply elem_of_list_singleton in Hab as ->. done.
Qed.
