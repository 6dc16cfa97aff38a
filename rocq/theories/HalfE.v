(** * HalfE: examples and counter-examples for the number of coarse cells (C61) *)

From Coq Require Import QArith Qcanon.
From Verif Require Export GrowP ApiE UtilM SpecCoarse SpecChain ChainT ChainE HalfT.

#[local] Open Scope Z_scope.
#[local] Open Scope nat_scope.
#[local] Existing Instance qarith | 100.
#[local] Existing Instance ord_id | 100.

(** A cell with five neighbours which have no others. *)
Definition star6 (corr : bool) : @input qarith :=
  mk_input [[1;2;3;4;5]; [0]; [0]; [0]; [0]; [0]] [0;1;1;1;1;1]%Z 0 corr 2 2 2 1.
(** Two cells on a line, each with two neighbours which have no others. *)
Definition comb6 : @input qarith :=
  let i := mk_input [[1;2;3]; [0;4;5]; [0]; [0]; [1]; [1]] [0;0;1;1;1;1]%Z 0 true 2 2 2 1 in
  mk_aniso i false true None 0 false (in_val i) (qc 4 1).
Definition o_comb : outs := Outs [] [0; 2] [0; 1].

Lemma star6_good corr : good_call (star6 corr) o0.
Proof. apply good_off; [done|]. destruct corr; vm_compute; reflexivity. Qed.
Lemma comb6_good : good_call comb6 o_comb.
Proof. apply good_given; [done|]. vm_compute; reflexivity. Qed.

Lemma C61_half_ex : good_call (chain7 true) o0 ∧ ¬ aniso_on (chain7 true) o0 ∧ in_corr (chain7 true) = true ∧
  thresh_one (chain7 true) ∧ (∀ x, x < in_n (chain7 true) → ∃ y, in_edge (chain7 true) x y ∧ y ≠ x) ∧
  agglomerate_one_level (chain7 true) o0 = (Outs [0;0;1;1;2;2;2] [] [], Ok ()).
Proof.
  split; [apply chain7_good|]. split; [by intros [? _]|]. split; [done|]. split; [by left|].
  split; [|vm_compute; reflexivity].
  apply other_neighbour; [apply chain7_good| |vm_compute; lia].
  apply tree_connected; [apply chain7_good|vm_compute; reflexivity].
Qed.

(** The four cells at the ends are all that may stay alone, and they do. *)
Lemma C61_count_ex : good_call comb6 o_comb ∧ in_corr comb6 = true ∧ thresh_one comb6 ∧
  agglomerate_one_level comb6 o_comb = (Outs [0;0;1;2;3;4] [0;1] [0], Ok ()) ∧
  let r := Outs [0;0;1;2;3;4] [0;1] [0] in
  let L : gset nat := {[2; 3; 4; 5]} in
  (∀ x, x < in_n comb6 →
    (∀ y c, in_edge comb6 x y → y ≠ x → o_fc2cc r !! y = Some c → aniso_id comb6 o_comb r c) → x ∈ L) ∧
  2 * 5 = in_n comb6 + size L.
Proof.
  split; [apply comb6_good|]. split; [done|]. split; [by left|]. split; [vm_compute; reflexivity|].
  cbv zeta. split; [|vm_compute; reflexivity]. intros x Hx Hy.
  destruct x as [|[|[|[|[|[|x]]]]]]; try set_solver; [..|vm_compute in Hx; lia].
  - destruct (Hy 2 1) as [_ Hc]; [by apply elem_of_nbl; vm_compute; right; left|lia|done|].
    by apply elem_of_list_singleton in Hc.
  - destruct (Hy 4 3) as [_ Hc]; [by apply elem_of_nbl; vm_compute; right; left|lia|done|].
    by apply elem_of_list_singleton in Hc.
Qed.

Lemma C61_few_ex : good_call (chain7 false) o0 ∧ ¬ aniso_on (chain7 false) o0 ∧ in_corr (chain7 false) = false ∧
  agglomerate_one_level (chain7 false) o0 = (Outs [0;0;1;1;2;2;3] [] [], Ok ()) ∧ in_max (chain7 false) = 2%Z.
Proof. split; [apply chain7_good|]. split; [by intros [? _]|]. split; [done|]. split; [vm_compute; reflexivity|done]. Qed.

(** Seven cells, three, one. *)
Lemma C61_levels_ex : good_call (chain7 true) o0 ∧ in_connected (chain7 true) ∧ in_aniso (chain7 true) = false ∧
  in_corr (chain7 true) = true ∧ thresh_one (chain7 true) ∧ weak_order (@wlt qarith) (λ _, True) ∧
  match levels [[]] (chain7 true) o0, levels [[]; []] (chain7 true) o0, levels [[]; []; []] (chain7 true) o0 with
  | Ok (a, _), Ok (b, _), Ok (c, _) => (in_n a, in_n b, in_n c) = (3, 1, 1)
  | _, _, _ => False
  end.
Proof.
  split; [apply chain7_good|].
  split; [apply tree_connected; [apply chain7_good|vm_compute; reflexivity]|].
  split; [done|]. split; [done|]. split; [by left|]. split; [apply q_weak_order|]. vm_compute. reflexivity.
Qed.

(** Without the correction, and with lines, more than half may remain. *)
Lemma C61_uncorrected_ref : ∃ (i : @input qarith) o r, good_call i o ∧ in_connected i ∧ in_aniso i = false ∧
  in_corr i = false ∧ agglomerate_one_level i o = (r, Ok ()) ∧
  ∀ m, (∀ c, c ∈ o_fc2cc r ↔ c < m) → in_n i < 2 * m.
Proof.
  exists (star6 false), o0, (Outs [0;0;1;2;3;4] [] []). split; [apply star6_good|].
  split; [apply tree_connected; [apply star6_good|vm_compute; reflexivity]|].
  split; [done|]. split; [done|]. split; [vm_compute; reflexivity|]. intros m Hm. simpl in Hm.
  assert (4 < m) by (apply Hm; by do 5 right; left). replace (in_n _) with 6 by done. lia.
Qed.
Lemma C61_lines_ref : ∃ (i : @input qarith) o r, good_call i o ∧ in_connected i ∧ given_paths i o ∧
  in_corr i = true ∧ thresh_one i ∧ agglomerate_one_level i o = (r, Ok ()) ∧
  ∀ m, (∀ c, c ∈ o_fc2cc r ↔ c < m) → in_n i < 2 * m.
Proof.
  exists comb6, o_comb, (Outs [0;0;1;2;3;4] [0;1] [0]). split; [apply comb6_good|].
  split; [apply tree_connected; [apply comb6_good|vm_compute; reflexivity]|].
  split; [apply paths_given; vm_compute; reflexivity|].
  split; [done|]. split; [by left|]. split; [vm_compute; reflexivity|]. intros m Hm. simpl in Hm.
  assert (4 < m) by (apply Hm; by do 5 right; left). replace (in_n _) with 6 by done. lia.
Qed.
(** With the correction, fewer may remain than the maximal cardinal allows. *)
Lemma C61_few_ref : ∃ (i : @input qarith) o r, good_call i o ∧ in_aniso i = false ∧
  in_corr i = true ∧ thresh_one i ∧ agglomerate_one_level i o = (r, Ok ()) ∧
  ∃ m, (∀ c, c ∈ o_fc2cc r ↔ c < m) ∧ (Z.of_nat m * in_max i < Z.of_nat (in_n i))%Z.
Proof.
  exists (chain7 true), o0, (Outs [0;0;1;1;2;2;2] [] []). split; [apply chain7_good|].
  split; [done|]. split; [done|]. split; [by left|]. split; [vm_compute; reflexivity|].
  exists 3. split; [|vm_compute; reflexivity]. simpl. intros c. rewrite !elem_of_cons, elem_of_nil. lia.
Qed.
