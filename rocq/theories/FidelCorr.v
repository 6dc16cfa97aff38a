(** * FidelCorr: the model on the tests of the correction

    tests/test_correction.cpp: coarse cells made by hand, the array of coarse
    cells before and after [correct], as required by the C++ tests.  The examples
    by hand were extracted mechanically (tools/mkcorr.py); each is evaluated with
    the unordered containers visited forwards and backwards.  Tests of the model,
    not proofs of properties. *)

From Coq Require Import Floats Uint63.
From Verif Require Import Main Double Fidelity FidelMesh.

Set Warnings "-inexact-float".
#[local] Open Scope Z_scope.
#[local] Open Scope nat_scope.
#[local] Existing Instance float_arith.
#[local] Existing Instance Fidelity.ord_id.

Definition ids (ct : container) : option (list nat) := mapM id (ct_fc2cc ct).
Definition by_hand1 (H : HashOrder) (i : input) (th : Z) (l : list (list nat * Z * bool))
    : option (list nat * list nat) :=
  match foldM (λ ct '(s, cpt, an), create_cc ct (list_to_set s) cpt an false) l (cont_new (length (in_bnd i)) th) with
  | Ok ct =>
      match correct (graph_of i) ct with
      | Ok ct' => match ids ct, ids ct' with Some b, Some a => Some (b, a) | _, _ => None end
      | Err _ => None
      end
  | Err _ => None
  end.
Definition by_hand (i : input) (th : Z) (l : list (list nat * Z * bool)) : option (list nat * list nat) :=
  let a := by_hand1 Fidelity.ord_id i th l in let b := by_hand1 Fidelity.ord_rev i th l in
  if decide (a = b) then a else None.

(** tests/test_correction.cpp:81-107. *)
Example corr_1 :
  by_hand correction 1 [([0; 4; 5], 1%Z, false); ([1], 0%Z, false); ([2; 3; 6; 7], 2%Z, false)]
  = Some ([0; 1; 2; 2; 0; 0; 2; 2], [0; 0; 1; 1; 0; 0; 1; 1]).
Proof. vm_compute. reflexivity. Qed.

(** tests/test_correction.cpp:110-137. *)
Example corr_2 :
  by_hand correction 1 [([1], 0%Z, false); ([0; 4; 5], 1%Z, false); ([2; 3; 6; 7], 2%Z, false)]
  = Some ([1; 0; 2; 2; 1; 1; 2; 2], [0; 0; 1; 1; 0; 0; 1; 1]).
Proof. vm_compute. reflexivity. Qed.

(** tests/test_correction.cpp:140-167. *)
Example corr_3 :
  by_hand correction 1 [([0; 4; 5], 1%Z, false); ([2; 3; 6; 7], 2%Z, false); ([1], 0%Z, false)]
  = Some ([0; 2; 1; 1; 0; 0; 1; 1], [0; 0; 1; 1; 0; 0; 1; 1]).
Proof. vm_compute. reflexivity. Qed.

(** tests/test_correction.cpp:186-217. *)
Example corr_4 :
  by_hand quad_3 1 [([0; 1; 2; 5; 8], 1%Z, false); ([4], 0%Z, false); ([3; 6; 7], 1%Z, false)]
  = Some ([0; 0; 0; 2; 1; 0; 2; 2; 0], [0; 0; 0; 1; 1; 0; 1; 1; 0]).
Proof. vm_compute. reflexivity. Qed.

(** tests/test_correction.cpp:220-252. *)
Example corr_5 :
  by_hand quad_3 1 [([0; 3], 1%Z, false); ([6; 7], 1%Z, false); ([4], 0%Z, false); ([1; 2; 5; 8], 1%Z, false)]
  = Some ([0; 3; 3; 0; 2; 3; 1; 1; 3], [0; 2; 2; 0; 2; 2; 1; 1; 2]).
Proof. vm_compute. reflexivity. Qed.

(** tests/test_correction.cpp:255-287. *)
Example corr_6 :
  by_hand quad_3 1 [([0; 1; 3; 4], 2%Z, false); ([7; 8], 1%Z, false); ([6], 0%Z, false); ([2; 5], 1%Z, false)]
  = Some ([0; 0; 3; 0; 0; 3; 2; 1; 1], [0; 0; 2; 0; 0; 2; 1; 1; 1]).
Proof. vm_compute. reflexivity. Qed.

(** tests/test_correction.cpp:290-324. *)
Example corr_7 :
  by_hand quad_3 1 [([0; 3], 1%Z, false); ([6; 7], 1%Z, false); ([4], 0%Z, false); ([5; 8], 1%Z, false); ([1; 2], 1%Z, false)]
  = Some ([0; 4; 4; 0; 2; 3; 1; 1; 3], [0; 3; 3; 0; 0; 2; 1; 1; 2]).
Proof. vm_compute. reflexivity. Qed.

(** tests/test_correction.cpp:327-360. *)
Example corr_8 :
  by_hand quad_3 1 [([0; 3], 1%Z, true); ([6; 7], 1%Z, false); ([4], 0%Z, false); ([5; 8], 1%Z, false); ([1; 2], 1%Z, false)]
  = Some ([0; 4; 4; 0; 2; 3; 1; 1; 3], [0; 3; 3; 0; 1; 2; 1; 1; 2]).
Proof. vm_compute. reflexivity. Qed.

(** tests/test_correction.cpp:363-395. *)
Example corr_9 :
  by_hand quad_3 1 [([0; 3], 1%Z, true); ([6; 7], 1%Z, true); ([4], 0%Z, false); ([5; 8], 1%Z, true); ([1; 2], 1%Z, true)]
  = Some ([0; 4; 4; 0; 2; 3; 1; 1; 3], [0; 4; 4; 0; 2; 3; 1; 1; 3]).
Proof. vm_compute. reflexivity. Qed.

(** tests/test_correction.cpp:398-428. *)
Example corr_10 :
  by_hand quad_3 1 [([0; 1], 1%Z, false); ([2], 0%Z, false); ([6], 0%Z, false); ([3; 4; 7], 1%Z, false); ([5; 8], 1%Z, false)]
  = Some ([0; 0; 1; 3; 3; 4; 2; 3; 4], [0; 0; 0; 1; 1; 2; 1; 1; 2]).
Proof. vm_compute. reflexivity. Qed.

(** tests/test_correction.cpp:431-462. *)
Example corr_11 :
  by_hand quad_3 1 [([3; 4; 5], 1%Z, false); ([6; 7; 8], 1%Z, false); ([0], 0%Z, false); ([1], 0%Z, false); ([2], 0%Z, false)]
  = Some ([2; 3; 4; 0; 0; 0; 1; 1; 1], [2; 2; 2; 0; 0; 0; 1; 1; 1]).
Proof. vm_compute. reflexivity. Qed.

(** tests/test_correction.cpp:465-492. *)
Example corr_12 :
  by_hand quad_3 3 [([0; 1], 1%Z, false); ([2], 0%Z, false); ([3; 4; 5; 6; 7; 8], 2%Z, false)]
  = Some ([0; 0; 1; 2; 2; 2; 2; 2; 2], [0; 0; 0; 0; 0; 0; 0; 0; 0]).
Proof. vm_compute. reflexivity. Qed.

(** tests/test_correction.cpp:26-62: no single cell is left. *)
Definition sizes (i : input) : option (list nat) :=
  match run i with
  | Some f => Some (map (λ c, length (filter (λ x, x = c) f)) (seq 0 (S (foldr max 0 f))))
  | None => None
  end.
Definition with_cards (i : input) (corr : bool) (goal mn mx : Z) : input :=
  Input _ (in_row i) (in_col i) (in_val i) (in_vol i) (in_cen i) (in_prio i)
    (in_compl i) (in_bnd i) (in_build i) (in_aniso i) (in_odd i) (in_thr i)
    (in_order i) corr (in_dim i) goal mn mx (in_ar i) (in_sing i)
    (in_maxline i) (in_coupling i) (in_force i) (in_iter i) (in_nbh i).
Example corr_minimal : sizes (with_cards minimal true 2 2 2) = Some [3; 2; 2; 2].
Proof. vm_compute. reflexivity. Qed.

(** tests/test_correction.cpp:496-594: a tenth cell without neighbours stays alone,
    with and without correction. *)
Definition quad_3_plus : input :=
  Input _ (in_row quad_3 ++ [24]) (in_col quad_3) (in_val quad_3) (in_vol quad_3 ++ [1%float])
    (in_cen quad_3 ++ [[-10; -10]%float]) (in_prio quad_3 ++ [(-1)%float])
    (in_compl quad_3 ++ [9]) (in_bnd quad_3 ++ [0%Z]) (in_build quad_3) (in_aniso quad_3) (in_odd quad_3) (in_thr quad_3)
    (in_order quad_3) (in_corr quad_3) (in_dim quad_3) (in_goal quad_3) (in_min quad_3) (in_max quad_3) (in_ar quad_3) (in_sing quad_3)
    (in_maxline quad_3) (in_coupling quad_3) (in_force quad_3) (in_iter quad_3) (in_nbh quad_3).
Definition alone (corr : bool) : option nat :=
  match run (with_cards quad_3_plus corr 4 2 6) with
  | Some f => match f !! 9 with Some c => Some (length (filter (λ x, x = c) f)) | None => None end
  | None => None
  end.
Example corr_unconnected : alone false = Some 1 ∧ alone true = Some 1.
Proof. vm_compute. done. Qed.

(** tests/test_isoagglo.cpp:66-140, 176-231: without the correction the results
    are those of Fidelity.v, which are with it. *)
Example corr_not_needed :
  map (λ z, run (with_cards (with_iso quad_4 4 0 1 z) false 4 4 4)) [0; 1]%Z = replicate 2 (Some quad_4_ref) ∧
  map (λ z, run (with_cards (with_iso cube_4 8 0 1 z) false 8 8 8)) [0; 1]%Z = replicate 2 (Some cube_4_ref).
Proof. vm_compute. auto. Qed.
