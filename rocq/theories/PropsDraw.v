(** * PropsDraw: What the example scripts draw and their priorities (C82, C83) *)

From Verif Require Import Lib ApiP ApiT UtilM Spec SpecLine SpecTools ToolsM DrawM ToolsT ToolsC ToolsL DrawT Inst ApiE GrowE ToolsE Double DoubleE SpecNum SpecBin RaeT DrawE.

From Coq Require Import SpecFloat Sorted QArith Qcanon.
#[local] Open Scope Z_scope.
#[local] Open Scope nat_scope.
#[local] Existing Instance qarith | 100.
#[local] Existing Instance ord_id | 100.

(** C82.  Without a limit on the lines, what is drawn for each line is increasing and holds exactly the cells of that line,
    but its last one, once turned, when the line is odd and odd lines are not allowed. *)
Theorem C82_drawn_lines : ∀ {A : Arith} {H : HashOrder} i o r e,
  good_call i o → aniso_on i o →
  in_maxline i = None ∨ in_build i = true ∧ (∃ m, in_maxline i = Some m ∧ m <= 0)%Z →
  agglomerate_one_level i o = (r, e) →
  ∃ lines dic, call_lines i o = Ok lines ∧
    py_line_dict (zs (o_idx r)) (zs (o_lines r)) (zs (o_fc2cc r)) = POk dic ∧
    Forall2 (λ line d, StronglySorted lt d ∧ ∃ l, oriented i line l ∧
      ∀ x, x ∈ d ↔ x ∈ take (length l - if negb (in_odd i) && Nat.odd (length l) then 1 else 0) l) lines dic.
Proof. exact @C82_lem. Qed.
Print Assumptions C82_drawn_lines.

Example C82_drawn_lines_example :
  good_call (line7 true None) o_line5 ∧ aniso_on (line7 true None) o_line5 ∧
  in_maxline (line7 true None) = None ∧ call_lines (line7 true None) o_line5 = Ok [[0; 1; 2; 3; 4]] ∧
  agglomerate_one_level (line7 true None) o_line5 = (Outs [0;0;1;1;1;2;2] [0;2] [0;1], Ok ()) ∧
  py_line_dict (zs [0;2]) (zs [0;1]) (zs [0;0;1;1;1;2;2]) = POk [[0; 1; 2; 3; 4]] ∧
  good_call (line7 false None) o_line5 ∧ aniso_on (line7 false None) o_line5 ∧
  agglomerate_one_level (line7 false None) o_line5 = (Outs [0;0;1;1;2;2;2] [0;2] [0;1], Ok ()) ∧
  py_line_dict (zs [0;2]) (zs [0;1]) (zs [0;0;1;1;2;2;2]) = POk [[0; 1; 2; 3]].
Proof. exact @C82_ex. Qed.

(** C82.  With a limit, the cells drawn are the first K ones of each line, but the last of them when K is odd and odd lines
    are not allowed, or K is one; K is the limit or the length, or one more than an even limit (C12). *)
Theorem C82_limited_lines : ∀ {A : Arith} {H : HashOrder} i o r e m,
  good_call i o → aniso_on i o → in_maxline i = Some m → (0 < m)%Z ∨ in_build i = false →
  agglomerate_one_level i o = (r, e) →
  ∃ lines dic, call_lines i o = Ok lines ∧
    py_line_dict (zs (o_idx r)) (zs (o_lines r)) (zs (o_fc2cc r)) = POk dic ∧
    Forall2 (λ line d, StronglySorted lt d ∧ ∃ l K, oriented i line l ∧
      Z.of_nat K = (if bool_decide (Z.even m = true ∧ Z.of_nat (length l) = m + 1) then m + 1
                    else Z.max 0 (Z.min m (Z.of_nat (length l))))%Z ∧
      ∀ x, x ∈ d ↔ x ∈ take (K - if negb (in_odd i) && Nat.odd K || bool_decide (K = 1) then 1 else 0) l) lines dic.
Proof. exact @C82_limit_lem. Qed.
Print Assumptions C82_limited_lines.

Example C82_limited_lines_example :
  good_call (line7 true (Some 2%Z)) o_line5 ∧ aniso_on (line7 true (Some 2%Z)) o_line5 ∧
  in_maxline (line7 true (Some 2%Z)) = Some 2%Z ∧ call_lines (line7 true (Some 2%Z)) o_line5 = Ok [[0; 1; 2; 3; 4]] ∧
  agglomerate_one_level (line7 true (Some 2%Z)) o_line5 = (Outs [0;0;1;1;2;2;2] [0;1] [0], Ok ()) ∧
  py_line_dict (zs [0;1]) (zs [0]) (zs [0;0;1;1;2;2;2]) = POk [[0; 1]].
Proof. exact @C82_limit_ex. Qed.

(** C83.  In double precision, cells closer to the wall have strictly higher priorities and cells at the same distance
    the same one; cells which are not reached have an infinite one. *)
Theorem C83_priorities_partial : ∀ (sum : list spec_float → spec_float) n (idx col npts : list nat) (bnd : list Z),
  csr n idx col → csr_sym idx col → length npts = n → length bnd = n → (0 < n)%nat →
  (∀ x, (x < n)%nat → ∃ y, edge idx col x y) →
  ∃ (foil : list nat) ws, rae_prio (H := double sum) (zs idx) (zs col) npts bnd = POk ws ∧ length ws = n ∧
    (∀ c, c ∈ foil ↔ npts !! c = Some 4%nat ∧ ∃ b, bnd !! c = Some b ∧ (0 < b)%Z) ∧
    (∀ x y kx ky u v, at_dist (edge idx col) (λ _, True) (λ c, c ∈ foil) kx x →
      at_dist (edge idx col) (λ _, True) (λ c, c ∈ foil) ky y → ws !! x = Some u → ws !! y = Some v →
      (Z.of_nat ky < 2 ^ 51 - 1)%Z →
      ((kx < ky)%nat → wlt (Arith := double sum) v u = true) ∧ (kx = ky → u = v)) ∧
    (∀ x u, (∀ k, ¬ walk (edge idx col) (λ _, True) (λ c, c ∈ foil) k x) → ws !! x = Some u → u = S754_infinity false).
Proof. exact @C83_lem. Qed.
Print Assumptions C83_priorities_partial.

Example C83_priorities_partial_example :
  csr 5 wi wc ∧ csr_sym wi wc ∧ (∀ x, x < 5 → ∃ y, edge wi wc x y) ∧
  rae_prio (H := dbl) (zs wi) (zs wc) [4; 4; 3; 3; 3] [1; 0; 1; 1; 1]%Z =
    POk [wofZ (Arith := dbl) 1; wdiv (Arith := dbl) (wofZ (Arith := dbl) 1) (wofZ (Arith := dbl) 2); third; S754_infinity false; S754_infinity false].
Proof. exact @C83_ex. Qed.

(** C83 at full strength fails: a cell without a path to the wall has a higher priority than the cells of the wall. *)
Theorem C83_refuted :
  ∃ n idx col npts bnd ws x y u v,
  csr n idx col ∧ csr_sym idx col ∧ (∀ z, z < n → ∃ y, edge idx col z y) ∧ length npts = n ∧ length bnd = n ∧
  rae_prio (H := dbl) (zs idx) (zs col) npts bnd = POk ws ∧
  (npts !! y = Some 4 ∧ ∃ b, bnd !! y = Some b ∧ (0 < b)%Z) ∧ ws !! y = Some v ∧
  (∀ k, ¬ walk (edge idx col) (λ _, True) (λ c, npts !! c = Some 4 ∧ ∃ b, bnd !! c = Some b ∧ (0 < b)%Z) k x) ∧ ws !! x = Some u ∧
  wlt (Arith := dbl) v u = true.
Proof. exact @C83_ref. Qed.
Print Assumptions C83_refuted.
