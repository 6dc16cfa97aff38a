(** * ChainE: examples and counter-examples for the chaining of levels (C32) *)

From Coq Require Import QArith Qcanon.
From Verif Require Export GrowP ApiE UtilM SpecCoarse SpecChain ChainT.

#[local] Open Scope Z_scope.
#[local] Open Scope nat_scope.
#[local] Existing Instance qarith.
#[local] Existing Instance ord_id.

(** ** Connected meshes *)

Definition tree_check (i : input) : bool :=
  forallb (λ k, bool_decide (k = 0) || existsb (λ j, bool_decide (j < k)) (nbl (in_row i) (in_col i) k))
    (seq 0 (in_n i)).
(** A mesh in which each cell but the first has a neighbour before it is in one
    piece. *)
Lemma tree_connected i : wf_mesh i → tree_check i = true → in_connected i.
Proof.
  intros WM. unfold tree_check. rewrite forallb_forall. intros Hs.
  assert (∀ x, x < in_n i → ∃ k, walk (in_edge i) (λ z, z < in_n i) (λ z, z = 0) k x) as H0.
  { intros x. induction (lt_wf x) as [x _ IH]. intros Hx.
    specialize (Hs x). rewrite orb_true_iff, bool_decide_eq_true, existsb_exists in Hs.
    destruct Hs as [-> |(j & Hj & Hjx)]; [apply in_seq; lia|exists 0; by constructor|].
    apply elem_of_list_In, elem_of_nbl in Hj. apply bool_decide_eq_true in Hjx.
    destruct (IH j) as [k Hk]; [done|lia|]. exists (S k). econstructor; [done| |done].
    by apply (wf_sym _ WM). }
  intros x y Hx Hy. destruct (H0 x Hx) as [k Hk]. destruct (H0 y Hy) as [l Hl].
  apply walk_rev in Hk; [|intros; by apply (wf_sym _ WM)|pose proof (wf_pos _ WM); lia].
  exists (l + k). by eapply walk_trans.
Qed.

(** Two levels of a chain of seven cells, the first five of them on a line:
    three coarse cells with a line of two, then two with a line of one. *)
Definition two_levels : @input qarith * outs :=
  match levels [[]; []] (line7 true None) o_line5 with Ok x => x | Err _ => (line7 true None, o0) end.
Lemma C32_ex : good_call (line7 true None) o_line5 ∧ in_connected (line7 true None) ∧
  given_paths (line7 true None) o_line5 ∧ thresh_one (line7 true None) ∧
  (∀ L, limit_safe (line7 true None) L) ∧
  levels [[]; []] (line7 true None) o_line5 = Ok two_levels ∧
  (in_row two_levels.1, in_col two_levels.1, o_fc2cc two_levels.2, o_idx two_levels.2, o_lines two_levels.2)
  = ([0;1;2], [1;0], [0;0;1], [0;1], [0]).
Proof.
  split; [apply line7_good|].
  split; [apply tree_connected; [apply line7_good|vm_compute; reflexivity]|].
  split; [apply paths_given; vm_compute; reflexivity|].
  split; [by left|]. split; [by intros L m|]. split; vm_compute; reflexivity.
Qed.

(** Four cells without neighbours and a chain of four. *)
Definition isolated4 : @input qarith :=
  mk_input [[]; []; []; []; [5]; [4; 6]; [5; 7]; [6]] [1;1;1;1;2;1;1;2]%Z 0 false 2 2 2 1.
Lemma C32_ref : ∃ (i : @input qarith) o compl, good_call i o ∧ in_aniso i = false ∧ in_corr i = false ∧
  (∃ r, agglomerate_one_level i o = (r, Ok ())) ∧ levels [compl] i o = Err EUB.
Proof.
  exists isolated4, o0, []. split; [apply good_off; [done|vm_compute; reflexivity]|].
  split; [done|]. split; [done|]. split; [eexists; vm_compute; reflexivity|]. vm_compute. reflexivity.
Qed.

(** On a mesh in one piece, with a threshold of two: the first level leaves out
    identifier 2, the coarse graph has a cell 2 with [INT_MIN] boundary faces,
    and the second level is undefined. *)
Lemma C32_thresh_ref : ∃ (i : @input qarith) o i' o', good_call i o ∧ in_connected i ∧ in_aniso i = false ∧
  levels [[]] i o = Ok (i', o') ∧ ¬ good_call i' o' ∧ levels [[]; []] i o = Err EUB.
Proof.
  destruct (levels [[]] (tree10_in true 2) o0) as [[i' o']|e] eqn:E; [|by vm_compute in E].
  exists (tree10_in true 2), o0, i', o'. split; [apply tree10_good|].
  split; [apply tree_connected; [apply tree10_good|vm_compute; reflexivity]|].
  split; [done|]. split; [done|]. split; [|vm_compute; reflexivity].
  intros [WM _ _ _ _]. assert (in_bnd i' !! 2 = Some int_min) as Hb.
  { assert (match levels [[]] (tree10_in true 2) o0 with Ok x => in_bnd x.1 | Err _ => [] end
      = [2; 1; int_min; 0]%Z) as Hx by (vm_compute; reflexivity).
    rewrite E in Hx. simpl in Hx. by rewrite Hx. }
  apply (wf_bnd_pos _ WM) in Hb. unfold int_min in Hb. lia.
Qed.
