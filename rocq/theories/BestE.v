(** * BestE: examples and counter-example for C38 *)

From Coq Require Import QArith Qcanon.
From Verif Require Import Inst SpecSub SpecFeat SpecAR SpecBest Features GraphP FeatU FeatE BestT ApiE SearchT.
#[local] Open Scope Z_scope.
#[local] Open Scope nat_scope.
#[local] Existing Instance qarith | 100.
#[local] Existing Instance ord_id | 100.

Lemma grid9_data : mesh_data grid9_g 2.
Proof.
  assert (csr (g_n grid9_g) (g_row grid9_g) (g_col grid9_g)) as Hc by (apply csr_check_ok; vm_compute; reflexivity).
  split; try (vm_compute; reflexivity).
  - done.
  - apply sym_check_ok. vm_compute. reflexivity.
  - apply (sym_weights_check _ _ _ _ Hc); vm_compute; reflexivity.
  - intros x c Hx. do 9 (destruct x as [|x]; [vm_compute in Hx; injection Hx as <-; reflexivity|]).
    vm_compute in Hx. discriminate Hx.
Qed.

Lemma grid9_shape : mesh_shape grid9_g 2.
Proof. destruct grid9_data. by split. Qed.

(** The 3 x 3 grid; the coarse cell made of the corner 0 and its neighbours 1
    and 3 has candidates 2, 4, 6 of order 2; 4 shares two faces with it. *)
Definition dn9 : gmap nat Z := list_to_map [(2, 2%Z); (4, 2%Z); (6, 2%Z); (5, 3%Z); (7, 3%Z); (8, 4%Z)].
Definition al9 : gset nat := list_to_set [1; 2; 3; 4; 5; 6; 7; 8].
Definition prio9 : list Qc := in_prio grid9_in.
Definition grow9 : res nbh :=
  foldM (λ h c, l ← nbrs grid9_g c; nbh_update prio9 h c l) [0; 1; 3] (nbh_create al9 None).
Definition h9 : nbh := run_res (nbh_create al9 None) grow9.
Definition f9 : feats := run_f (features_of OverMeasure grid9_g 0 [1; 3]).
Definition X9 : gset nat := list_to_set [0; 1; 3].
Definition run_b (r : res best) : best := run_res (Best 0 0%Z feats_default (qc 0 1) 0 0%Z) r.
Definition b9 : best := run_b (best_biconnected OverMeasure grid9_g h9 dn9 f9 X9 0 0%Z feats_default).
Definition i9 (n : nat) : best := run_b (best_iterative n OverMeasure grid9_g prio9 h9 dn9 f9 X9 0 0%Z feats_default).

Lemma C38_ex : weak_order (@wlt qarith) (λ _, True) ∧ mesh_shape grid9_g 2 ∧
  features_of OverMeasure grid9_g 0 [1; 3] = Ok f9 ∧ grow9 = Ok h9 ∧ nb_cand h9 = [2; 4; 6] ∧
  best_biconnected OverMeasure grid9_g h9 dn9 f9 X9 0 0%Z feats_default = Ok b9 ∧
  b_arg b9 = 4 ∧ b_faces b9 = 2%Z ∧
  best_iterative 0 OverMeasure grid9_g prio9 h9 dn9 f9 X9 0 0%Z feats_default = Ok (i9 0) ∧
  b_arg (i9 0) = 4 ∧
  best_iterative 1 OverMeasure grid9_g prio9 h9 dn9 f9 X9 0 0%Z feats_default = Ok (i9 1) ∧
  b_arg (i9 1) = 2.
Proof.
  split; [apply q_weak_order|]. split; [exact grid9_shape|]. split_and!; vm_compute; reflexivity.
Qed.

(** With one step of look-ahead, cell 2 is chosen although it shares one face
    and cell 4, of the same order, shares two. *)
Lemma C38_look_ref : ∃ g prio dim k seed l h f dn b x,
  mesh_shape g dim ∧ weak_order (@wlt qarith) (λ _, True) ∧ features_of k g seed l = Ok f ∧
  foldM (λ h c, l ← nbrs g c; nbh_update prio h c l) (seed :: l) (nbh_create al9 None) = Ok h ∧
  best_iterative 1 k g prio h dn f (list_to_set (seed :: l)) 0 0%Z feats_default = Ok b ∧
  x ∈ nb_cand h ∧
  let faces x := Z.of_nat (nb_in (g_row g) (g_col g) (list_to_set (seed :: l)) (λ y, y ≠ x) x) in
  ∀ ar : nat → @W qarith, beats (faces x, default 0%Z (dn !! x), ar x)
                     (faces (b_arg b), default 0%Z (dn !! b_arg b), ar (b_arg b)).
Proof.
  exists grid9_g, prio9, 2, OverMeasure, 0, [1; 3], h9, f9, dn9, (i9 1), 4.
  split; [exact grid9_shape|]. split; [apply q_weak_order|]. split; [vm_compute; reflexivity|].
  split; [vm_compute; reflexivity|]. split; [vm_compute; reflexivity|].
  split; [apply (bool_decide_unpack _); vm_compute; exact I|]. intros faces ar. left. vm_compute. reflexivity.
Qed.
