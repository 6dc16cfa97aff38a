(** * LineE: examples for C42, C43 and C44 *)

From Verif Require Import Fidelity ApiE HashE LineT.
From Coq Require Import QArith Qcanon.
#[local] Open Scope Z_scope.
#[local] Open Scope nat_scope.
#[local] Existing Instance qarith | 100.
#[local] Existing Instance ord_id | 100.

(** The line is given from its end with fewer boundary faces, and agglomerated
    from the other one. *)
Lemma C42_ex : good_call (line7 true None) (Outs [] [0;5] [4;3;2;1;0]) ∧
  aniso_on (line7 true None) (Outs [] [0;5] [4;3;2;1;0]) ∧
  agglomerate_one_level (line7 true None) (Outs [] [0;5] [4;3;2;1;0]) =
    (Outs [0;0;1;1;1;2;2] [0;2] [0;1], Ok ()).
Proof.
  split; [apply good_given; [done|vm_compute; reflexivity]|]. split; [|vm_compute; reflexivity].
  split; [done|]. intros _. split; [simpl; lia|done].
Qed.

Lemma built6_good c f : good_call (built6 c f) o0.
Proof.
  destruct (decide (c = 1%Z)) as [->|Hc].
  - apply good_built; [done|done|by left|]. destruct f; vm_compute; reflexivity.
  - apply good_built; [done|done|right; split; vm_compute; reflexivity|].
    destruct f; vm_compute; reflexivity.
Qed.

(** With MIN_DISTANCE (1) too. *)
Lemma C44_ex : total_order qarith ∧ good_call (built6 0 true) o0 ∧ aniso_on (built6 0 true) o0 ∧
  in_build (built6 0 true) = true ∧ call_lines (built6 0 true) o0 = Ok [[0;1;2;5];[3;4]] ∧
  call_lines (built6 0 false) o0 = Ok [[0;1;2];[3;4;5]].
Proof.
  split; [apply q_total|]. split; [apply built6_good|]. split; [done|]. split; [done|]. split; vm_compute; reflexivity.
Qed.

(** Only the two cells with three neighbours and a boundary face are kept. *)
Lemma C43_ex : total_order qarith ∧ wf_mesh (built6 0 false) ∧ in_dim (built6 0 false) = 2%Z ∧
  buildable (built6 0 false) ∧
  ∃ alt mw, tag_anisotropic_cells_p 2 (aniso_params_of (built6 0 false)) (graph_of (built6 0 false))
    (in_prio (built6 0 false)) (ratio_limit (in_thr (built6 0 false))) =
    Ok (alt, mw, [false; true; false; false; true; false], [1; 4]).
Proof.
  split; [apply q_total|]. split; [apply built6_good|]. split; [done|].
  split; [right; right; split; [vm_compute; reflexivity|left; vm_compute; reflexivity]|].
  do 2 eexists. vm_compute. reflexivity.
Qed.

(** The same mesh, said to be a 3D one. *)
Definition flat6 : @input qarith :=
  let i := built6 0 false in
  @Input qarith (in_row i) (in_col i) (in_val i) (in_vol i) (map (λ c, c ++ [qc 0 1]) (in_cen i)) (in_prio i) (in_compl i)
    (in_bnd i) true true true (qc 2 1) (in_order i) (in_corr i) 3
    (in_goal i) (in_min i) (in_max i) (in_ar i) (in_sing i) None 0 false (in_iter i) (in_nbh i).
Lemma C43_ref : ∃ i alt mw tags seeds x, wf_mesh i ∧ in_dim i = 3%Z ∧ buildable i ∧
  wlt (ratio_limit (in_thr i)) w0 = false ∧
  tag_anisotropic_cells_p 3 (aniso_params_of i) (graph_of i) (in_prio i) (ratio_limit (in_thr i)) =
    Ok (alt, mw, tags, seeds) ∧
  x ∈ seeds ∧ ¬ layer_faces (in_row i) (in_col i) (in_bnd i) 6 x.
Proof.
  exists flat6. do 4 eexists. exists 0. split.
  { apply wf_check_ok; [apply q_weak_order|]. vm_compute. reflexivity. }
  split; [done|]. split; [right; right; split; [vm_compute; reflexivity|left; vm_compute; reflexivity]|].
  split; [vm_compute; reflexivity|]. split; [vm_compute; reflexivity|]. split; [left|].
  unfold layer_faces. cbn zeta.
  assert (length (filter (λ y, y ≠ 0) (nb_list (in_row flat6) (in_col flat6) 0)) = 2) as ->
    by (vm_compute; reflexivity).
  lia.
Qed.
