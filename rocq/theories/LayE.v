(** * LayE: examples for C71 *)

From Coq Require Import QArith Qcanon.
From Verif Require Import Inst Main Spec SpecSub SpecLine SpecGrid SpecChain SpecHier SpecCol SpecLay GrowE ApiE GridE HashE LineT ColG ColE ChainE.
#[local] Open Scope Z_scope.
#[local] Open Scope nat_scope.
#[local] Existing Instance qarith | 100.
#[local] Existing Instance ord_id | 100.

(** The square of [ColE] with two given lines; the other eight cells are not
    in lines.  Two levels: each line becomes one cell. *)
Definition gl16 : @input qarith :=
  mk_aniso (grid_in 2 16 sq_co true 2 3 4 0 1 0) false true None 0 false st_val (qc 4 1).
Definition o_gl : outs := Outs [] [0;4;8] [0;1;2;3;7;6;5;4].

Lemma gl16_good : good_call gl16 o_gl.
Proof. apply good_given; [done|]. vm_compute. reflexivity. Qed.

Lemma C71_given_ex : good_call gl16 o_gl ∧ in_connected gl16 ∧ given_paths gl16 o_gl ∧
  (in_corr gl16 = false ∨ thresh_one gl16) ∧ weak_order (@wlt qarith) (λ _, True) ∧
  in_aniso gl16 = true ∧ in_build gl16 = false ∧ in_maxline gl16 = None ∧
  [7;6;5;4] ∈ split_lines (o_idx o_gl) (o_lines o_gl) ∧ length [7;6;5;4] = 2 ^ length [[0;1]; []] * 1 ∧
  level_maps [[0;1]; []] gl16 o_gl = [[0;0;1;1;2;2;3;3;4;4;5;5;4;4;5;5]; [0;0;1;1;2;2]] ∧
  match levels [[0;1]; []] gl16 o_gl with Ok (_, o') => split_lines (o_idx o') (o_lines o') = [[0]; [1]] | Err _ => False end ∧
  grouped (level_maps [[0;1]; []] gl16 o_gl) 4 [7;6;5;4] [1].
Proof.
  split_and!; [apply gl16_good|apply tree_connected; [apply gl16_good|vm_compute; reflexivity]
    |apply paths_given; vm_compute; reflexivity|right; by left|apply q_weak_order|done|done|done| |done|vm_compute; reflexivity|vm_compute; reflexivity|].
  - vm_compute. right. left.
  - replace (level_maps [[0;1]; []] gl16 o_gl) with [[0;0;1;1;2;2;3;3;4;4;5;5;4;4;5;5]; [0;0;1;1;2;2]] by (vm_compute; reflexivity).
    split.
    + exists [7;6;5;4]. split; [by left|]. intros [|[|[|[|j]]]] x [= <-]; by exists 1.
    + intros x c Hf Hc. apply elem_of_list_singleton in Hc as ->.
      do 16 (destruct x as [|x]; [vm_compute in Hf; first [discriminate Hf|apply elem_of_list_In; simpl; lia]|]). done.
Qed.

(** The whole square of [ColE]: two levels, the lines being found at the first. *)
Lemma C71_ex : line_order (λ _, True) (st16 false) ∧ good_call (st16 false) o0 ∧ in_connected (st16 false) ∧
  (in_corr (st16 false) = false ∨ thresh_one (st16 false)) ∧ weak_order (@wlt qarith) (λ _, True) ∧
  in_aniso (st16 false) = true ∧ in_build (st16 false) = true ∧ in_maxline (st16 false) = None ∧
  columns (st16 false) st_cols ∧ stretched_grid (st16 false) (λ _, 4) sq_co (qc 9 1) (qc 1 1) ∧
  far_apart (st16 false) (qc 9 1) (qc 1 1) ∧ (∀ x, x < in_n (st16 false) → x ∈ in_compl (st16 false)) ∧
  level_maps [[0;1]; []] (st16 false) o0 = [[0;0;1;1;2;2;3;3;4;4;5;5;6;6;7;7]; [0;0;1;1;2;2;3;3]] ∧
  follow (level_maps [[0;1]; []] (st16 false) o0) <$> [4; 5; 6; 7; 8] = [Some 1; Some 1; Some 1; Some 1; Some 2].
Proof.
  split_and!; [apply total_line_order, q_total|apply st16_good|apply tree_connected; [apply st16_good|vm_compute; reflexivity]
    |right; by left|apply q_weak_order|done|done|done|apply st16_columns|apply st16_grid|apply st16_apart|apply st16_all
    |vm_compute; reflexivity|vm_compute; reflexivity].
Qed.
