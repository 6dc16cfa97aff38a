(** * MoveE: examples for C41 *)

From Coq Require Import QArith Qcanon.
From Verif Require Import Inst SpecSub SpecMove GraphP MoveP ApiE GrowE MoveT.
#[local] Open Scope Z_scope.
#[local] Open Scope nat_scope.
#[local] Existing Instance qarith | 100.
#[local] Existing Instance ord_id | 100.

(** A ring of five cells. *)
Definition ring5 : list (list nat) := [[1;4];[0;2];[1;3];[2;4];[3;0]].
Definition ring5_in (corr : bool) : @input qarith := mk_input ring5 [1;0;0;0;0]%Z 0 corr 3 3 3 2.

(** One cell; all the cells of a coarse cell together; the cells of a coarse
    cell one by one, one of them staying where it is. *)
Lemma C41_ex :
  (good_call (chain7 true) o0 ∧ in_corr (chain7 true) = true ∧
   simple_csr (in_row (chain7 true)) (in_col (chain7 true)) ∧ corr_size (chain7 true) = 1%Z ∧
   agglomerate_one_level (uncorrected (chain7 true)) o0 = (Outs [0;0;1;1;2;2;3] [] [], Ok ()) ∧
   agglomerate_one_level (chain7 true) o0 = (Outs [0;0;1;1;2;2;2] [] [], Ok ())) ∧
  (good_call (ring5_in true) o0 ∧ in_corr (ring5_in true) = true ∧
   simple_csr (in_row (ring5_in true)) (in_col (ring5_in true)) ∧ corr_size (ring5_in true) = 2%Z ∧
   agglomerate_one_level (uncorrected (ring5_in true)) o0 = (Outs [0;0;1;1;0] [] [], Ok ()) ∧
   agglomerate_one_level (ring5_in true) o0 = (Outs [0;0;0;0;0] [] [], Ok ())) ∧
  (good_call (tree10_in true 2) o0 ∧ in_corr (tree10_in true 2) = true ∧
   simple_csr (in_row (tree10_in true 2)) (in_col (tree10_in true 2)) ∧ corr_size (tree10_in true 2) = 2%Z ∧
   agglomerate_one_level (uncorrected (tree10_in true 2)) o0 = (Outs [0;0;0;1;1;2;2;2;3;3] [] [], Ok ()) ∧
   agglomerate_one_level (tree10_in true 2) o0 = (Outs [0;0;0;0;1;1;1;1;1;3] [] [], Ok ()) ∧
   map (rank {[1;3]}) [0;2] = [0;1]).
Proof.
  split; [|split].
  - pose proof (chain7_good true) as HG. split; [done|]. split; [done|].
    split; [apply (good_simple _ _ HG); vm_compute; reflexivity|]. split; [done|]. split; vm_compute; reflexivity.
  - assert (good_call (ring5_in true) o0) as HG by (apply good_off; [done|vm_compute; reflexivity]).
    split; [done|]. split; [done|].
    split; [apply (good_simple _ _ HG); vm_compute; reflexivity|]. split; [done|]. split; vm_compute; reflexivity.
  - pose proof (tree10_good true) as HG. split; [done|]. split; [done|].
    split; [apply (good_simple _ _ HG); vm_compute; reflexivity|]. split; [done|].
    split; [vm_compute; reflexivity|]. split; vm_compute; reflexivity.
Qed.

(** Four cells next to each other, a path of four cells, and a last cell which
    shares three faces with the former and two with the latter. *)
Definition k9 : list (list nat) :=
  [[1;2;3;8];[0;2;3;8];[0;1;3;8];[0;1;2;5];[5;8];[3;4;6];[5;7];[6;8];[0;1;2;4;7]].
Definition k9_in (corr : bool) : @input qarith := mk_input k9 [0;0;0;2;0;1;0;0;0]%Z 0 corr 4 4 4 1.
Lemma k9_good : good_call (k9_in true) o0.
Proof. apply good_off; [done|]. vm_compute. reflexivity. Qed.

Lemma C46_ref : ∃ (i : @input qarith) o r0 r x k0 y k z k',
  good_call i o ∧ simple_csr (in_row i) (in_col i) ∧ in_corr i = true ∧
  agglomerate_one_level (uncorrected i) o = (r0, Ok ()) ∧ agglomerate_one_level i o = (r, Ok ()) ∧
  (Z.of_nat (size (cells_in (o_fc2cc r0) k0)) <= corr_size i)%Z ∧ cells_in (o_fc2cc r0) k0 = {[x]} ∧
  o_fc2cc r0 !! y = Some k ∧ o_fc2cc r !! y = o_fc2cc r !! x ∧
  o_fc2cc r0 !! z = Some k' ∧ o_fc2cc r !! z ≠ o_fc2cc r !! x ∧
  beside (in_row i) (in_col i) (iso_id i o r0) (o_fc2cc r0) k0 {[x]} k' ∧
  faces_with (in_row i) (in_col i) x (cells_in (o_fc2cc r0) k)
    < faces_with (in_row i) (in_col i) x (cells_in (o_fc2cc r0) k').
Proof.
  exists (k9_in true), o0, (Outs [0;0;0;0;1;1;1;1;2] [] []), (Outs [0;0;0;0;1;1;1;1;1] [] []), 8, 2, 4, 1, 0, 0.
  split; [apply k9_good|]. split; [apply (good_simple _ _ k9_good); vm_compute; reflexivity|]. split; [done|].
  split; [vm_compute; reflexivity|]. split; [vm_compute; reflexivity|]. split; [vm_compute; done|].
  split; [apply (bool_decide_unpack _); vm_compute; exact I|]. split; [done|]. split; [done|]. split; [done|].
  split; [done|]. split.
  { split; [done|]. split; [split; [by exists 0|by intros [[? _] _]]|]. exists 8, 0. split; [set_solver|]. split; [|done].
    apply elem_of_nbl, (bool_decide_unpack _). vm_compute. exact I. }
  apply (bool_decide_unpack _). vm_compute. exact I.
Qed.

Lemma C46_ex : let r0 := Outs [0;0;1;1;2;2;3] [] [] in let i := chain7 true in
  good_call i o0 ∧ simple_csr (in_row i) (in_col i) ∧ in_corr i = true ∧
  agglomerate_one_level (uncorrected i) o0 = (r0, Ok ()) ∧
  (∀ k, iso_id i o0 r0 k ∧ (Z.of_nat (size (cells_in (o_fc2cc r0) k)) <= corr_size i)%Z ↔ k = 3) ∧
  cells_in (o_fc2cc r0) 3 = {[6]} ∧
  (∀ k, beside (in_row i) (in_col i) (iso_id i o0 r0) (o_fc2cc r0) 3 {[6]} k →
     ¬ gains (in_row i) (in_col i) {[6]} (cells_in (o_fc2cc r0) k)).
Proof.
  cbv zeta. pose proof (chain7_good true) as HG. split; [done|].
  split; [apply (good_simple _ _ HG); vm_compute; reflexivity|]. split; [done|].
  split; [vm_compute; reflexivity|]. split; [|split].
  - intros k. split.
    + intros [[[x Hx] _] Hs]. do 7 (destruct x as [|x]; [injection Hx as <-; try done; by vm_compute in Hs|]).
      apply lookup_lt_Some in Hx. simpl in Hx. lia.
    + intros ->. split; [split; [by exists 6|by intros [[? _] _]]|]. vm_compute. done.
  - apply (bool_decide_unpack _). vm_compute. exact I.
  - intros k (Hk & _ & x & y & Hx & Hy & Hf) (a & b & Ha & Hb & Hab). apply elem_of_singleton in Hx as ->.
    assert (y = 5) as ->.
    { apply elem_of_nbl in Hy. assert (nbl (in_row (chain7 true)) (in_col (chain7 true)) 6 = [5]) as E by (vm_compute; reflexivity).
      rewrite E in Hy. by apply elem_of_list_singleton in Hy. }
    assert (k = 2) as -> by (by injection Hf as <-).
    unfold compactness in Ha, Hb. cbv zeta in Ha, Hb.
    rewrite decide_True in Ha by (apply (bool_decide_unpack _); vm_compute; exact I).
    rewrite decide_True in Hb by (apply (bool_decide_unpack _); vm_compute; exact I).
    assert (b <= 1)%Z by (destruct Hb as [_ Hb]; etrans; [apply (Hb 6); set_solver|vm_compute; done]).
    destruct Ha as [(x & Hx & <-) _]. apply elem_of_cells_in in Hx.
    do 7 (destruct x as [|x]; [try done; match type of Hab with (?t < _)%Z => assert (t = 1%Z) as E by (vm_compute; reflexivity); rewrite E in Hab end; lia|]). apply lookup_lt_Some in Hx. simpl in Hx. lia.
Qed.
