(** * SubE: examples and counter-examples for C30 and C31 *)

From Coq Require Import QArith Qcanon.
From Verif Require Import Inst SpecSub Subgraph GraphP ConnT SubT.
#[local] Open Scope Z_scope.
#[local] Open Scope nat_scope.
#[local] Existing Instance qarith | 100.
#[local] Existing Instance ord_id | 100.

(** Faces of weight [10 i + j]. *)
Definition mkg (rows : list (list nat)) : graph :=
  let n := length rows in
  @Graph qarith n (row_of 0 rows) (concat rows)
    (concat (imap (λ i r, map (λ j, qc (Z.of_nat (10 * i + j)) 1) r) rows))
    (map (λ i, qc (Z.of_nat i) 1) (seq 1 n)) [] [] ∅ true.
Definition g_chain : graph := mkg [[1]; [0; 2]; [1; 3]; [2]].
Definition g_two : graph := mkg [[1]; [0]; [3]; [2]].
Definition g_none : graph := mkg [[]; []].


Lemma mkg_check rows : csr_check (length rows) (row_of 0 rows) (concat rows) = true →
  sym_check (row_of 0 rows) (concat rows) = true → length (g_val (mkg rows)) = length (concat rows) →
  csr (g_n (mkg rows)) (g_row (mkg rows)) (g_col (mkg rows)) ∧ csr_sym (g_row (mkg rows)) (g_col (mkg rows)) ∧
  length (g_val (mkg rows)) = length (g_col (mkg rows)).
Proof. intros H1%csr_check_ok H2%sym_check_ok H3. done. Qed.

(** ** Connectivity *)

Lemma C30_ex : csr (g_n g_chain) (g_row g_chain) (g_col g_chain) ∧ csr_sym (g_row g_chain) (g_col g_chain) ∧
  length (g_val g_chain) = length (g_col g_chain) ∧ conn_calls 3 g_chain [] = Ok [true; true; true] ∧
  csr (g_n g_two) (g_row g_two) (g_col g_two) ∧ csr_sym (g_row g_two) (g_col g_two) ∧
  length (g_val g_two) = length (g_col g_two) ∧ conn_calls 3 g_two [] = Ok [false; false; false].
Proof.
  assert (∀ P Q R S : Prop, P ∧ Q ∧ R → S → P ∧ Q ∧ R ∧ S) as Hx by tauto.
  assert (∀ P Q R S T : Prop, P ∧ Q ∧ R → S → T → P ∧ Q ∧ R ∧ S ∧ T) as Hy by tauto.
  apply Hy; [apply mkg_check; vm_compute; reflexivity|vm_compute; reflexivity|].
  apply Hx; [apply mkg_check; vm_compute; reflexivity|vm_compute; reflexivity].
Qed.
Lemma C30_ref : ∃ g, csr (g_n g) (g_row g) (g_col g) ∧ csr_sym (g_row g) (g_col g) ∧
  length (g_val g) = length (g_col g) ∧ 0 < g_n g ∧ check_connectivity g [] = Err EUB.
Proof.
  exists g_none. assert (∀ P Q R S : Prop, P ∧ Q ∧ R → S → P ∧ Q ∧ R ∧ S) as Hx by tauto.
  apply Hx; [apply mkg_check; vm_compute; reflexivity|]. split; [vm_compute; lia|]. vm_compute. reflexivity.
Qed.

(** ** Subgraphs *)

Definition run_sg (r : res subg) : subg := match r with Ok s => s | Err _ => SubG [] [] [] [] [] 0 0 end.
Definition sg_12 : subg := run_sg (make_subgraph g_chain {[1; 2]}).
Lemma C31_ex : make_subgraph g_chain {[1; 2]} = Ok sg_12 ∧ sg_row sg_12 = [0; 1; 2] ∧ sg_col sg_12 = [1; 0] ∧
  sg_map sg_12 = [1; 2] ∧ sg_cpt sg_12 = 1%Z ∧ sg_card sg_12 = 2%Z.
Proof. split_and!; vm_compute; reflexivity. Qed.

(** Adding cell 3 to the second and third cells of the chain. *)
Definition sg_12i : subg := run_sg (insert_node sg_12 (adj g_chain 3) 3 (qc 4 1) (adjw g_chain 3)).
Lemma C31_ins : insert_node sg_12 (nb_list (g_row g_chain) (g_col g_chain) 3) 3 (qc 4 1) (adjw g_chain 3) = Ok sg_12i ∧
  sg_row sg_12i = [0; 2; 3; 4] ∧ sg_col sg_12i = [1; 2; 0; 1].
Proof. split_and!; vm_compute; reflexivity. Qed.
Lemma g_chain_wf : wfg g_chain.
Proof. destruct (mkg_check [[1]; [0; 2]; [1; 3]; [2]]) as (H1 & H2 & H3); [vm_compute; reflexivity..|]. done. Qed.
Lemma sg_12_induced : sub_induced g_chain {[1; 2]} sg_12.
Proof.
  pose proof (make_subgraph_ok g_chain g_chain_wf ltac:(vm_compute; reflexivity) {[1; 2]}) as Hm.
  rewrite (proj1 C31_ex) in Hm. apply Hm. intros x Hx. change (x < 4). set_solver by lia.
Qed.

Lemma C31_ins_ref : ∃ (g : graph) s sg x v w sg',
  csr (g_n g) (g_row g) (g_col g) ∧ csr_sym (g_row g) (g_col g) ∧ length (g_val g) = length (g_col g) ∧
  make_subgraph g s = Ok sg ∧
  induced (g_row g) (g_col g) (g_val g) (g_vol g) s
    (sg_row sg) (sg_col sg) (sg_val sg) (sg_vol sg) (sg_map sg) ∧ x ∉ s ∧ g_vol g !! x = Some v ∧
  insert_node sg (nb_list (g_row g) (g_col g) x) x v w = Ok sg' ∧
  ¬ induced (g_row g) (g_col g) (g_val g) (g_vol g) ({[x]} ∪ s)
      (sg_row sg') (sg_col sg') (sg_val sg') (sg_vol sg') (sg_map sg').
Proof.
  exists g_chain, {[1; 2]}, sg_12, 3, (qc 4 1), (adjw g_chain 3), sg_12i.
  split_and!; [apply g_chain_wf..|apply C31_ex|apply sg_12_induced|set_solver|vm_compute; reflexivity|apply C31_ins|].
  apply (C31_ins_neg g_chain {[1; 2]} sg_12 3 2 (qc 4 1) (adjw g_chain 3));
    [apply g_chain_wf..|apply sg_12_induced|set_solver| |apply C31_ins].
  apply elem_of_adj, (bool_decide_unpack _). vm_compute. exact I.
Qed.

(** Removing a leaf of a star whose centre comes last. *)
Definition g_star : graph := mkg [[2]; [2]; [0; 1]].
Definition sg_star : subg := run_sg (make_subgraph g_star {[0; 1; 2]}).
Lemma g_star_wf : wfg g_star.
Proof. destruct (mkg_check [[2]; [2]; [0; 1]]) as (H1 & H2 & H3); [vm_compute; reflexivity..|]. done. Qed.
Lemma g_star_sub : make_subgraph g_star {[0; 1; 2]} = Ok sg_star.
Proof. vm_compute. reflexivity. Qed.
Lemma sg_star_induced : sub_induced g_star {[0; 1; 2]} sg_star.
Proof.
  pose proof (make_subgraph_ok g_star g_star_wf ltac:(vm_compute; reflexivity) {[0; 1; 2]}) as Hm.
  rewrite g_star_sub in Hm. apply Hm. intros x Hx. change (x < 3). set_solver by lia.
Qed.
Lemma C31_rem_ref : ∃ (g : graph) s sg x,
  csr (g_n g) (g_row g) (g_col g) ∧ csr_sym (g_row g) (g_col g) ∧ length (g_val g) = length (g_col g) ∧
  make_subgraph g s = Ok sg ∧
  induced (g_row g) (g_col g) (g_val g) (g_vol g) s
    (sg_row sg) (sg_col sg) (sg_val sg) (sg_vol sg) (sg_map sg) ∧ x ∈ s ∧ remove_node sg x = Err EUB.
Proof.
  exists g_star, {[0; 1; 2]}, sg_star, 0.
  split_and!; [apply g_star_wf..|apply g_star_sub|apply sg_star_induced|set_solver|vm_compute; reflexivity].
Qed.

(** Isolated cells, inside the mesh or inside the subgraph. *)
Definition g_iso : graph := mkg [[1]; [0]; []; [4]; [3]].
Definition sg_iso : subg := run_sg (make_subgraph g_iso {[0; 1; 3]}).
Definition sg_iso_i : subg := run_sg (insert_node sg_iso [] 2 (qc 3 1) []).
Definition sg_iso_r : subg := run_sg (remove_node sg_iso 3).
Lemma C31_iso_ex : csr (g_n g_iso) (g_row g_iso) (g_col g_iso) ∧ csr_sym (g_row g_iso) (g_col g_iso) ∧
  length (g_val g_iso) = length (g_col g_iso) ∧ make_subgraph g_iso {[0; 1; 3]} = Ok sg_iso ∧
  nb_list (g_row g_iso) (g_col g_iso) 2 = [] ∧
  insert_node sg_iso [] 2 (qc 3 1) [] = Ok sg_iso_i ∧ sg_map sg_iso_i = [0; 1; 3; 2] ∧ sg_row sg_iso_i = [0; 1; 2; 2; 2] ∧
  remove_node sg_iso 3 = Ok sg_iso_r ∧ sg_map sg_iso_r = [0; 1] ∧ sg_row sg_iso_r = [0; 1; 2] ∧ sg_col sg_iso_r = [1; 0].
Proof. split_and!; [apply csr_check_ok|apply sym_check_ok|..]; vm_compute; reflexivity. Qed.

(** The removal of a cell with two neighbours gives wrong rows. *)
Definition g_tri : graph := mkg [[1; 2]; [0; 2]; [0; 1]].
Definition sg_tri : subg := run_sg (make_subgraph g_tri {[0; 1; 2]}).
Definition sg_tri_r : subg := run_sg (remove_node sg_tri 0).
Lemma C31_tri_ex : make_subgraph g_tri {[0; 1; 2]} = Ok sg_tri ∧ remove_node sg_tri 0 = Ok sg_tri_r ∧
  sg_map sg_tri_r = [1; 2] ∧ sg_row sg_tri_r = [0; 0; 2] ∧ sg_col sg_tri_r = [1; 0].
Proof. split_and!; vm_compute; reflexivity. Qed.
