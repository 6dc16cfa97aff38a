(** * PropsLevel: Levels of the example scripts (C81) *)

From Verif Require Import Lib ApiP ApiT UtilM Spec SpecCoarse SpecHier SpecChain SpecTools SpecLevel ToolsM LevelM CoarseT CoarseU ChainT ToolsT ToolsC ToolsU LevelT Inst ApiE ChainE LevelE.

From Coq Require Import QArith Qcanon.
#[local] Open Scope Z_scope.
#[local] Open Scope nat_scope.
#[local] Existing Instance qarith | 100.
#[local] Existing Instance ord_id | 100.

(** C81.  With one comparable priority for each cell, the loop of the scripts ends normally: each level covers the
    cells of the previous one, and what is drawn is the coarse cell of each cell over all levels. *)
Theorem C81_levels_partial : ∀ {A : Arith} {H : HashOrder} (prio : nat → list W) (k : nat) (i : input) (o : outs) (P : W → Prop),
  good_call i o → in_connected i → in_corr i = false ∨ thresh_one i → (in_aniso i = true → ∀ L, limit_safe i L) →
  good_prio (in_order i = 10%Z ∨ in_order i = 11%Z) prio → good_vol P → (∀ v, v ∈ in_vol i → P v) → 0 < k →
  ∃ (l : list nat) maps, py_levels prio k i o (zs (seq 0 (in_n i))) [] = LOk (zs l, maps) ∧
    0 < length maps ≤ k ∧ level_maps (in_n i) maps ∧
    (length maps < k → ∃ f, last maps = Some f ∧ ∀ c, c ∈ f → c = 0) ∧
    length l = in_n i ∧ ∀ x, x < in_n i → is_Some (follow maps x) ∧ l !! x = follow maps x.
Proof. exact @C81_lem. Qed.
Print Assumptions C81_levels_partial.

Example C81_levels_partial_example :
  good_call (line7 true None) o_line5 ∧ in_connected (line7 true None) ∧ thresh_one (line7 true None) ∧
  (∀ L, limit_safe (line7 true None) L) ∧
  good_prio (in_order (line7 true None) = 10%Z ∨ in_order (line7 true None) = 11%Z) down ∧
  good_vol posq ∧ (∀ v, v ∈ in_vol (line7 true None) → posq v) ∧
  py_levels down 4 (line7 true None) o_line5 (zs (seq 0 7)) []
  = LOk (zs [0; 0; 0; 0; 0; 0; 0], [[0; 0; 1; 1; 1; 2; 2]; [0; 0; 1]; [0; 0]]).
Proof. exact @C81_ex. Qed.

(** C81 at full strength fails: with the priorities of the scripts, one too few, a later call is undefined. *)
Theorem C81_priorities_refuted :
  ∃ (i : @input qarith) o, good_call i o ∧ in_connected i ∧ thresh_one i ∧ (∀ L, limit_safe i L) ∧
  good_vol posq ∧ (∀ v, v ∈ in_vol i → posq v) ∧
  py_levels py_weights 3 i o (zs (seq 0 (in_n i))) [] = LCpp EUB.
Proof. exact @C81_ref. Qed.
Print Assumptions C81_priorities_refuted.

(** C81 at full strength fails: with cells without neighbours, the coarse graph is not built. *)
Theorem C81_isolated_refuted :
  ∃ (i : @input qarith) o, good_call i o ∧ in_aniso i = false ∧ in_corr i = false ∧
  (∃ r, agglomerate_one_level i o = (r, Ok ())) ∧
  py_levels down 2 i o (zs (seq 0 (in_n i))) [] = LPy IndexError.
Proof. exact @C81_iso. Qed.
Print Assumptions C81_isolated_refuted.
