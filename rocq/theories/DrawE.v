(** * DrawE: examples and counter-examples for what the scripts compute (C82, C83) *)

From Coq Require Import SpecFloat QArith Qcanon.
From Verif Require Import Inst Main Spec SpecTools UtilM ToolsM DrawM ApiP ApiT ApiE GrowE ToolsE Double DoubleE.
#[local] Open Scope Z_scope.
#[local] Open Scope nat_scope.

(** A line of five cells, cut in coarse cells of two and three, then with the
    last cell left out. *)
Section draw.
#[local] Existing Instance qarith | 100.
#[local] Existing Instance ord_id | 100.
Lemma C82_ex : good_call (line7 true None) o_line5 ∧ aniso_on (line7 true None) o_line5 ∧
  in_maxline (line7 true None) = None ∧ call_lines (line7 true None) o_line5 = Ok [[0; 1; 2; 3; 4]] ∧
  agglomerate_one_level (line7 true None) o_line5 = (Outs [0;0;1;1;1;2;2] [0;2] [0;1], Ok ()) ∧
  py_line_dict (zs [0;2]) (zs [0;1]) (zs [0;0;1;1;1;2;2]) = POk [[0; 1; 2; 3; 4]] ∧
  good_call (line7 false None) o_line5 ∧ aniso_on (line7 false None) o_line5 ∧
  agglomerate_one_level (line7 false None) o_line5 = (Outs [0;0;1;1;2;2;2] [0;2] [0;1], Ok ()) ∧
  py_line_dict (zs [0;2]) (zs [0;1]) (zs [0;0;1;1;2;2;2]) = POk [[0; 1; 2; 3]].
Proof.
  destruct C11_ex as (H1 & H2 & H3 & H4 & H5 & H6).
  split_and!; [done|done|done|vm_compute; reflexivity|done|vm_compute; reflexivity|done|done|done|vm_compute; reflexivity].
Qed.
Lemma C82_limit_ex : good_call (line7 true (Some 2%Z)) o_line5 ∧ aniso_on (line7 true (Some 2%Z)) o_line5 ∧
  in_maxline (line7 true (Some 2%Z)) = Some 2%Z ∧ call_lines (line7 true (Some 2%Z)) o_line5 = Ok [[0; 1; 2; 3; 4]] ∧
  agglomerate_one_level (line7 true (Some 2%Z)) o_line5 = (Outs [0;0;1;1;2;2;2] [0;1] [0], Ok ()) ∧
  py_line_dict (zs [0;1]) (zs [0]) (zs [0;0;1;1;2;2;2]) = POk [[0; 1]].
Proof.
  destruct C12_ex as (H1 & H2 & H3 & _). split_and!; [done|done|done|vm_compute; reflexivity|done|vm_compute; reflexivity].
Qed.
End draw.

(** Two components, cell 0 is the wall: the third cell has priority 1/3, those
    of the other component are not reached. *)
Definition third : spec_float := S754_finite false 6004799503160661 (-54).
Lemma wi_nb x : x < 5 → ∃ y, edge wi wc x y.
Proof.
  intros Hx. exists (nth x [1; 0; 1; 4; 3] 0). apply elem_of_nbl.
  do 5 (destruct x as [|x]; [vm_compute; by repeat constructor|]). lia.
Qed.
Lemma C83_ex : csr 5 wi wc ∧ csr_sym wi wc ∧ (∀ x, x < 5 → ∃ y, edge wi wc x y) ∧
  rae_prio (H := dbl) (zs wi) (zs wc) [4; 4; 3; 3; 3] [1; 0; 1; 1; 1]%Z =
    POk [wofZ (Arith := dbl) 1; wdiv (Arith := dbl) (wofZ (Arith := dbl) 1) (wofZ (Arith := dbl) 2); third; S754_infinity false; S754_infinity false].
Proof.
  destruct C72_ex as (H1 & H2 & _). split_and!; [done|done|apply wi_nb|vm_compute; reflexivity].
Qed.
(** A cell which is not reached has a higher priority than those of the wall. *)
Lemma C83_ref : ∃ n idx col npts bnd ws x y u v,
  csr n idx col ∧ csr_sym idx col ∧ (∀ z, z < n → ∃ y, edge idx col z y) ∧ length npts = n ∧ length bnd = n ∧
  rae_prio (H := dbl) (zs idx) (zs col) npts bnd = POk ws ∧
  (npts !! y = Some 4 ∧ ∃ b, bnd !! y = Some b ∧ (0 < b)%Z) ∧ ws !! y = Some v ∧
  (∀ k, ¬ walk (edge idx col) (λ _, True) (λ c, npts !! c = Some 4 ∧ ∃ b, bnd !! c = Some b ∧ (0 < b)%Z) k x) ∧ ws !! x = Some u ∧
  wlt (Arith := dbl) v u = true.
Proof.
  destruct C83_ex as (H1 & H2 & H3 & H4).
  exists 5, wi, wc, [4; 4; 3; 3; 3], [1; 0; 1; 1; 1]%Z. do 5 eexists. split_and!; [done|done|done|done|done|exact H4| | | | | |].
  - instantiate (1 := 0). done.
  - exists 1%Z. split; [done|lia].
  - done.
  - instantiate (1 := 3).
    assert (∀ k x, walk (edge wi wc) (λ _, True) (λ c, [4; 4; 3; 3; 3] !! c = Some 4 ∧ ∃ b, [1; 0; 1; 1; 1]%Z !! c = Some b ∧ (0 < b)%Z) k x → x < 3) as Hw.
    { intros k x. induction 1 as [c Hc|k x y Hp IH He]; [destruct Hc as [Hc _]; do 3 (destruct c as [|c]; [lia|]); do 2 (destruct c as [|c]; [done|]); done|].
      apply elem_of_nbl in He. destruct x as [|[|[|x]]]; [..|lia]; vm_compute in He; repeat (apply elem_of_cons in He as [->|He]; [lia|]); by apply elem_of_nil in He. }
    intros k Hk%Hw. lia.
  - done.
  - vm_compute. done.
Qed.
