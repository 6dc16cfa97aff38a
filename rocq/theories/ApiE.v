(** * ApiE: examples and counter-examples for the properties of the library call *)

From Coq Require Import QArith Qcanon.
From Verif Require Export Inst ApiT.

#[local] Open Scope Z_scope.
#[local] Open Scope nat_scope.

#[local] Existing Instance qarith.
#[local] Existing Instance ord_id.

(** ** Checking calls by computation *)

Definition acc_check (i : input) : bool :=
  (bool_decide (in_dim i = 2%Z) || bool_decide (in_dim i = 3%Z))
  && bool_decide (1 < in_min i)%Z && bool_decide (in_min i <= in_goal i)%Z
  && bool_decide (in_goal i <= in_max i)%Z && bool_decide (1 <= in_iter i <= 4)%Z
  && bool_decide (0 < in_sing i)%Z && bool_decide (in_order i ∈ [0; 1; 10; 11]%Z)
  && bool_decide (0 <= in_ar i <= 9)%Z.
Lemma acc_check_ok i : acc_check i = true → accepted i.
Proof.
  unfold acc_check. rewrite !andb_true_iff, orb_true_iff, !bool_decide_eq_true.
  intros [[[[[[[? ?] ?] ?] ?] ?] ?] ?]. by split.
Qed.
Definition pos_check (i : input) : bool := forallb (λ w, negb (wlt w wminv)) (in_prio i).
Lemma pos_check_ok i : pos_check i = true → prio_pos i.
Proof.
  unfold pos_check. rewrite forallb_forall. intros Hp w Hw. apply elem_of_list_In, Hp in Hw.
  by apply negb_true_iff.
Qed.

Lemma good_off i o : in_aniso i = false → wf_check i && acc_check i && pos_check i = true → good_call i o.
Proof.
  intros Han. rewrite !andb_true_iff. intros [[H1 H2] H3]. split.
  - by apply wf_check_ok; [apply q_weak_order|].
  - by apply acc_check_ok.
  - intros _. by apply pos_check_ok.
  - intros [Ho _]. congruence.
  - intros [Ho _]. congruence.
Qed.

Definition lines_check (n : nat) (idx cells : list nat) : bool :=
  bool_decide (idx ≠ [])
  && forallb (λ k, match idx !! k, idx !! S k with
                   | Some a, Some b => bool_decide (a ≤ b) | _, _ => true end) (seq 0 (length idx))
  && bool_decide (last idx = Some (length cells)) && bool_decide (NoDup cells)
  && forallb (λ x, bool_decide (x < n)) cells.
Lemma lines_check_ok n idx cells : lines_check n idx cells = true → wf_lines n idx cells.
Proof.
  unfold lines_check. rewrite !andb_true_iff, !bool_decide_eq_true, !forallb_forall.
  intros [[[[H1 H2] H3] H4] H5]. split; try done.
  - intros k a b Ha Hb. specialize (H2 k). rewrite Ha, Hb, bool_decide_eq_true in H2.
    apply H2, in_seq. apply lookup_lt_Some in Ha. lia.
  - intros x Hx. apply elem_of_list_In, H5 in Hx. by apply bool_decide_eq_true in Hx.
Qed.
Lemma line_at_split idx cells k l : line_at idx cells k l → l ∈ split_lines idx cells.
Proof.
  intros (a & b & Ha & Hb & ->). apply elem_of_list_lookup_2 with k. unfold split_lines.
  rewrite lookup_zip_with, Ha. simpl. by rewrite lookup_tail, Hb.
Qed.
Definition limit_check (i : input) (L : nat) : bool :=
  match in_maxline i with
  | Some m => negb (Z.odd m && bool_decide (Z.of_nat L = (m - 1)%Z)) | None => true end.
Lemma limit_check_ok i L : limit_check i L = true → limit_safe i L.
Proof.
  unfold limit_check. intros Hl m Hm Ho He. rewrite Hm, Ho, bool_decide_true in Hl by done. done.
Qed.
Definition path_check (i : input) (l : list nat) : bool :=
  forallb (λ k, match l !! k, l !! S k with
    | Some x, Some y => bool_decide (y ∈ nbl (in_row i) (in_col i) x) | _, _ => true end) (seq 0 (length l)).
Lemma path_check_ok i l : path_check i l = true → path (in_edge i) l.
Proof.
  unfold path_check. rewrite forallb_forall. intros Hp k x y Hx Hy. specialize (Hp k).
  rewrite Hx, Hy, bool_decide_eq_true in Hp. apply elem_of_nbl, Hp, in_seq.
  apply lookup_lt_Some in Hx. lia.
Qed.

Lemma good_given i o : in_build i = false →
  wf_check i && acc_check i && pos_check i && lines_check (in_n i) (o_idx o) (o_lines o)
  && forallb (λ l, limit_check i (length l)) (split_lines (o_idx o) (o_lines o)) = true → good_call i o.
Proof.
  intros Hb. rewrite !andb_true_iff, forallb_forall. intros [[[[H1 H2] H3] H4] H5]. split.
  - by apply wf_check_ok; [apply q_weak_order|].
  - by apply acc_check_ok.
  - intros _. by apply pos_check_ok.
  - intros _ ?. congruence.
  - intros _ _. split; [by apply lines_check_ok|]. intros k l Hl _.
    apply limit_check_ok, H5, elem_of_list_In. by eapply line_at_split.
Qed.
Lemma paths_given i o : forallb (path_check i) (split_lines (o_idx o) (o_lines o)) = true → given_paths i o.
Proof.
  rewrite forallb_forall. intros Hp _ _ k l Hl. apply path_check_ok, Hp, elem_of_list_In.
  by eapply line_at_split.
Qed.

Lemma good_built i o : in_build i = true → in_maxline i = None →
  in_coupling i = 1%Z ∨ (wlt (in_thr i) w0 = false ∧ wlt w1 (in_thr i) = true) →
  wf_check i && acc_check i && pos_check i = true → good_call i o.
Proof.
  intros Hb Hm Hc. rewrite !andb_true_iff. intros [[H1 H2] H3]. split.
  - by apply wf_check_ok; [apply q_weak_order|].
  - by apply acc_check_ok.
  - intros _. by apply pos_check_ok.
  - intros _ _. split.
    + destruct Hc as [?|[? ?]]; [by left|right; right]. split; [done|by left].
    + intros L _ m. congruence.
  - intros _ ?. congruence.
Qed.

Lemma not_connected (E : nat → nat → Prop) (X S : nat → Prop) x y :
  X x → X y → S x → ¬ S y → (∀ a b, S a → E a b → X b → S b) → ¬ connected E X.
Proof.
  intros Hx Hy Hsx Hsy HS Hc. destruct (Hc x y Hx Hy) as [k Hk]. apply Hsy. clear Hy Hsy Hc.
  induction Hk as [z ->|k a b Hw IH Hab Hb]; [done|]. eapply HS; [apply IH|done|done].
Qed.

(** ** Calls *)

Definition o0 : outs := Outs [] [] [].

(** With anisotropy. *)
Definition mk_aniso (i : @input qarith) (build odd : bool) (mx : option Z) (coupling : Z) (force : bool)
    (val : list Qc) (thr : Qc) : @input qarith :=
  @Input qarith (in_row i) (in_col i) val (in_vol i) (in_cen i) (in_prio i) (in_compl i)
    (in_bnd i) build true odd thr (in_order i) (in_corr i) (in_dim i)
    (in_goal i) (in_min i) (in_max i) (in_ar i) (in_sing i) mx coupling
    force (in_iter i) (in_nbh i).

(** A path of [n] cells. *)
Definition chain (n : nat) : list (list nat) :=
  map (λ k, filter (λ j, j < n ∧ (S j = k ∨ j = S k)) (seq 0 (n + 1))) (seq 0 n).
Definition chain_bnd (n : nat) : list Z := map (λ k, if bool_decide (k = 0) then 2%Z else 1%Z) (seq 0 n).

(** A path of seven cells, the first five forming a line. *)
Definition chain7 (corr : bool) : @input qarith := mk_input (chain 7) (chain_bnd 7) 0 corr 2 2 2 1.
Definition line7 (odd : bool) (mx : option Z) : @input qarith :=
  mk_aniso (chain7 true) false odd mx 0 false (in_val (chain7 true)) (qc 4 1).
Definition o_line5 : outs := Outs [] [0; 5] [0; 1; 2; 3; 4].
Definition o_line3 : outs := Outs [] [0; 3] [0; 1; 2].
Definition o_line2 : outs := Outs [] [0; 2] [0; 1].

(** Two rows of three cells; strong couplings along the rows. *)
Definition rows6 : list (list nat) := [[1;3]; [0;2;4]; [1;5]; [0;4]; [1;3;5]; [2;4]].
Definition built6 (coupling : Z) (force : bool) : @input qarith :=
  mk_aniso (mk_input rows6 [2;1;2;2;1;2]%Z 0 true 2 2 4 1) true true None coupling force
    (map (λ k, qc k 1) [9;1; 9;9;1; 9;1; 1;9; 1;9;9; 1;9]%Z) (qc 4 1).

(** A tree of ten cells. *)
Definition tree10 : list (list nat) :=
  [[1;5];[0;2];[1;3];[2;4];[3];[0;6];[5;7];[6;8];[7;9];[8]].
Definition tree10_in (corr : bool) (sing : Z) : @input qarith :=
  mk_input tree10 [0;2;0;0;1;0;0;0;0;0]%Z 0 corr 3 3 3 sing.

Lemma grid9_good : good_call grid9_in o0.
Proof. apply good_off; [done|]. vm_compute. reflexivity. Qed.
Lemma chain7_good b : good_call (chain7 b) o0.
Proof. apply good_off; [done|]. destruct b; vm_compute; reflexivity. Qed.
Lemma tree10_good b : good_call (tree10_in b 2) o0.
Proof. apply good_off; [done|]. destruct b; vm_compute; reflexivity. Qed.
Lemma line7_good odd : good_call (line7 odd None) o_line5.
Proof. apply good_given; [done|]. destruct odd; vm_compute; reflexivity. Qed.
Lemma line7_on odd mx : aniso_on (line7 odd mx) o_line5.
Proof. split; [done|]. intros _. split; [simpl; lia|done]. Qed.
Lemma line7_good4 : good_call (line7 true (Some 4%Z)) o_line5.
Proof. apply good_given; [done|]. vm_compute; reflexivity. Qed.
Lemma line7_good2 : good_call (line7 true (Some 2%Z)) o_line5.
Proof. apply good_given; [done|]. vm_compute; reflexivity. Qed.

Lemma C01_ex : good_call grid9_in o0 ∧
  agglomerate_one_level grid9_in o0 = (Outs [0;0;1;0;0;1;2;2;2] [] [], Ok ()).
Proof. split; [apply grid9_good|]. vm_compute. reflexivity. Qed.
Lemma C01_cells_ex : good_call grid9_in o0 ∧ (in_corr grid9_in = false ∨ thresh_one grid9_in).
Proof. split; [apply grid9_good|]. right. by left. Qed.

Lemma C02_ex : good_call (chain7 true) o0 ∧ thresh_one (chain7 true) ∧
  agglomerate_one_level (chain7 false) o0 = (Outs [0;0;1;1;2;2;3] [] [], Ok ()) ∧
  agglomerate_one_level (chain7 true) o0 = (Outs [0;0;1;1;2;2;2] [] [], Ok ()).
Proof. split; [apply chain7_good|]. split; [by left|]. split; vm_compute; reflexivity. Qed.
Lemma tree10_run : agglomerate_one_level (tree10_in true 2) o0 = (Outs [0;0;0;0;1;1;1;1;1;3] [] [], Ok ()).
Proof. vm_compute. reflexivity. Qed.
Lemma C02_ref : ∃ i o r, good_call i o ∧ in_corr i = true ∧
  agglomerate_one_level i o = (r, Ok ()) ∧ ¬ contiguous (o_fc2cc r).
Proof.
  exists (tree10_in true 2), o0. eexists. split; [apply tree10_good|]. split; [done|].
  split; [apply tree10_run|]. simpl. intros [k Hk].
  assert (3 < k) by (apply Hk; by exists 9).
  destruct (proj1 (Hk 2)) as [x Hx]; [lia|]. do 10 (destruct x as [|x]; [done|]). done.
Qed.
Lemma C03_ref : ∃ i o r c, good_call i o ∧ given_paths i o ∧
  agglomerate_one_level i o = (r, Ok ()) ∧ ¬ connected (in_edge i) (cells_of (o_fc2cc r) c).
Proof.
  exists (tree10_in true 2), o0. eexists. exists 1. split; [apply tree10_good|].
  split; [by intros [? _]|]. split; [apply tree10_run|].
  apply (not_connected _ _ (λ x, x = 4) 4 5); try done.
  intros a b -> Hab Hb. apply elem_of_nbl in Hab. vm_compute in Hab.
  apply elem_of_list_singleton in Hab as ->. done.
Qed.
Lemma C03_ex : good_call (line7 true None) o_line5 ∧ given_paths (line7 true None) o_line5 ∧
  thresh_one (line7 true None) ∧
  agglomerate_one_level (line7 true None) o_line5 = (Outs [0;0;1;1;1;2;2] [0;2] [0;1], Ok ()).
Proof.
  split; [apply line7_good|]. split; [apply paths_given; vm_compute; reflexivity|]. split; [by left|].
  vm_compute. reflexivity.
Qed.

Lemma C04_ex : good_call (chain7 false) o0 ∧ in_corr (chain7 false) = false ∧
  agglomerate_one_level (chain7 false) o0 = (Outs [0;0;1;1;2;2;3] [] [], Ok ()) ∧
  in_max (chain7 false) = 2%Z.
Proof. split; [apply chain7_good|]. split; [done|]. split; [|done]. vm_compute. reflexivity. Qed.
Lemma C05_ex : good_call (chain7 false) o0 ∧ in_corr (chain7 false) = false ∧
  agglomerate_one_level (chain7 false) o0 = (Outs [0;0;1;1;2;2;3] [] [], Ok ()) ∧
  in_min (chain7 false) = 2%Z ∧ in_edge (chain7 false) 6 5.
Proof.
  split; [apply chain7_good|]. split; [done|]. split; [vm_compute; reflexivity|]. split; [done|].
  apply elem_of_nbl. vm_compute. left.
Qed.

Lemma C06_ex : good_call (line7 true (Some 4%Z)) o_line5 ∧
  agglomerate_one_level (line7 true (Some 4%Z)) o_line5 = (Outs [0;0;1;1;1;2;2] [0;2] [0;1], Ok ()).
Proof. split; [apply line7_good4|]. vm_compute. reflexivity. Qed.

(** With a correct mesh and accepted arguments: an odd limit. *)
Lemma C06_limit_ref : ∃ i o, wf_mesh i ∧ accepted i ∧ prio_pos i ∧ wf_lines (in_n i) (o_idx o) (o_lines o) ∧
  given_paths i o ∧ agglomerate_one_level i o = (o, Err EUB).
Proof.
  exists (line7 true (Some 3%Z)), o_line2. split_and!.
  - apply wf_check_ok; [apply q_weak_order|]. vm_compute. reflexivity.
  - apply acc_check_ok. vm_compute. reflexivity.
  - apply pos_check_ok. vm_compute. reflexivity.
  - apply lines_check_ok. vm_compute. reflexivity.
  - apply paths_given. vm_compute. reflexivity.
  - vm_compute. reflexivity.
Qed.

Definition with_prio (p : list Qc) (order : Z) (i : @input qarith) : @input qarith :=
  @Input qarith (in_row i) (in_col i) (in_val i) (in_vol i) (in_cen i) p (in_compl i)
    (in_bnd i) (in_build i) (in_aniso i) (in_odd i) (in_thr i) order (in_corr i) (in_dim i)
    (in_goal i) (in_min i) (in_max i) (in_ar i) (in_sing i) (in_maxline i) (in_coupling i)
    (in_force i) (in_iter i) (in_nbh i).
Lemma C06_one_point_ref : ∃ i, wf_mesh i ∧ accepted i ∧ in_aniso i = false ∧
  ∀ o, agglomerate_one_level i o = (o, Err EUB).
Proof.
  exists (with_prio (replicate 7 (qc 0 1)) 10 (chain7 true)). split_and!.
  - apply wf_check_ok; [apply q_weak_order|]. vm_compute. reflexivity.
  - apply acc_check_ok. vm_compute. reflexivity.
  - done.
  - intros o. vm_compute. reflexivity.
Qed.
Lemma C06_threshold_ref : ∃ i, wf_mesh i ∧ accepted i ∧ prio_pos i ∧ in_build i = true ∧ in_maxline i = None ∧
  ∀ o, agglomerate_one_level i o = (o, Err EUB).
Proof.
  exists (mk_aniso (mk_input [[]] [2]%Z 0 true 2 2 4 1) true true None 0 false [] (qc (-1) 1)). split_and!.
  - apply wf_check_ok; [apply q_weak_order|]. vm_compute. reflexivity.
  - apply acc_check_ok. vm_compute. reflexivity.
  - apply pos_check_ok. vm_compute. reflexivity.
  - done.
  - done.
  - intros o. vm_compute. reflexivity.
Qed.

Lemma C09_ex : good_call (line7 false None) (Outs [] [0;3;6] [0;1;2;4;5;6]) ∧ in_corr (line7 false None) = true ∧
  thresh_one (line7 false None) ∧
  agglomerate_one_level (line7 true None) (Outs [] [0;3;6] [0;1;2;4;5;6]) =
    (Outs [0;0;0;2;1;1;1] [0;1;2] [0;1], Ok ()).
Proof.
  split; [apply good_given; [done|vm_compute; reflexivity]|]. split; [done|]. split; [by left|].
  vm_compute. reflexivity.
Qed.
Lemma C10_ex : good_call (line7 true None) o_line5 ∧
  agglomerate_one_level (with_corr false (line7 true None)) o_line5 = (Outs [0;0;1;1;1;2;2] [0;2] [0;1], Ok ()).
Proof. split; [apply line7_good|]. vm_compute. reflexivity. Qed.

Lemma C11_ex : good_call (line7 true None) o_line5 ∧ aniso_on (line7 true None) o_line5 ∧
  agglomerate_one_level (line7 true None) o_line5 = (Outs [0;0;1;1;1;2;2] [0;2] [0;1], Ok ()) ∧
  good_call (line7 false None) o_line5 ∧ aniso_on (line7 false None) o_line5 ∧
  agglomerate_one_level (line7 false None) o_line5 = (Outs [0;0;1;1;2;2;2] [0;2] [0;1], Ok ()).
Proof.
  split; [apply line7_good|]. split; [apply line7_on|]. split; [vm_compute; reflexivity|].
  split; [apply line7_good|]. split; [apply line7_on|]. vm_compute; reflexivity.
Qed.
Lemma C12_ex : good_call (line7 true (Some 2%Z)) o_line5 ∧ aniso_on (line7 true (Some 2%Z)) o_line5 ∧
  agglomerate_one_level (line7 true (Some 2%Z)) o_line5 = (Outs [0;0;1;1;2;2;2] [0;1] [0], Ok ()) ∧
  good_call (line7 true (Some 0%Z)) o_line5 ∧ in_build (line7 true (Some 0%Z)) = false ∧
  agglomerate_one_level (line7 true (Some 0%Z)) o_line5 = (Outs [0;0;1;1;2;2;2] [0;0] [], Ok ()).
Proof.
  split; [apply line7_good2|]. split; [apply line7_on|]. split; [vm_compute; reflexivity|].
  split; [|split; [done|vm_compute; reflexivity]]. apply good_given; [done|]. vm_compute; reflexivity.
Qed.
(** The line is left (undefined behaviour). *)
Lemma C12_ub_ref : ∃ i o m, wf_mesh i ∧ accepted i ∧ wf_lines (in_n i) (o_idx o) (o_lines o) ∧
  given_paths i o ∧ in_maxline i = Some m ∧ (0 < m)%Z ∧ agglomerate_one_level i o = (o, Err EUB).
Proof.
  exists (line7 true (Some 3%Z)), o_line2, 3%Z. split_and!; try done.
  - apply wf_check_ok; [apply q_weak_order|]. vm_compute. reflexivity.
  - apply acc_check_ok. vm_compute. reflexivity.
  - apply lines_check_ok. vm_compute. reflexivity.
  - apply paths_given. vm_compute. reflexivity.
Qed.
(** More cells than the limit. *)
Lemma C12_limit_ref : ∃ i o m r c, good_call i o ∧ in_maxline i = Some m ∧ (0 < m)%Z ∧
  agglomerate_one_level i o = (r, Ok ()) ∧ o_lines r = [c] ∧
  ∃ X : gset nat, (∀ x, x ∈ X → o_fc2cc r !! x = Some c) ∧ (m < Z.of_nat (size X))%Z.
Proof.
  exists (line7 true (Some 2%Z)), o_line3, 2%Z, (Outs [0;0;0;1;1;2;2] [0;1] [0]), 0.
  split_and!; try done.
  - apply good_given; [done|]. vm_compute. reflexivity.
  - exists {[0; 1; 2]}. split; [|vm_compute; reflexivity].
    intros x. rewrite !elem_of_union, !elem_of_singleton. intros [[-> | ->] | ->]; done.
Qed.
Lemma C13_ex : good_call (line7 true None) (Outs [] [0;3;3;6] [0;1;2;4;5;6]) ∧
  aniso_on (line7 true None) (Outs [] [0;3;3;6] [0;1;2;4;5;6]) ∧
  agglomerate_one_level (line7 true None) (Outs [] [0;3;3;6] [0;1;2;4;5;6]) =
    (Outs [0;0;0;2;1;1;1] [0;1;2] [0;1], Ok ()).
Proof.
  split; [apply good_given; [done|vm_compute; reflexivity]|]. split; [|vm_compute; reflexivity].
  split; [done|]. intros _. split; [simpl; lia|done].
Qed.
Lemma C14_ex : good_call (built6 0 false) o0 ∧ aniso_on (built6 0 false) o0 ∧ in_build (built6 0 false) = true ∧
  call_lines (built6 0 false) o0 = Ok [[0;1;2];[3;4;5]] ∧
  agglomerate_one_level (built6 0 false) o0 = (Outs [0;0;0;1;1;1] [0;1;2] [0;1], Ok ()).
Proof.
  split; [apply good_built; [done|done|right; split; vm_compute; reflexivity|vm_compute; reflexivity]|].
  split; [by split|]. split; [done|]. split; vm_compute; reflexivity.
Qed.
Lemma C16_run_ex : good_call (chain7 false) o0 ∧ in_corr (chain7 false) = false ∧ in_order (chain7 false) = 0%Z ∧
  agglomerate_one_level (chain7 false) o0 = (Outs [0;0;1;1;2;2;3] [] [], Ok ()).
Proof. split; [apply chain7_good|]. split; [done|]. split; [done|]. vm_compute. reflexivity. Qed.
Lemma C27_run_ex : good_call grid9_in o0 ∧ simple_csr (in_row grid9_in) (in_col grid9_in) ∧
  ∃ ctA p lo ct, phase1 grid9_in o0 = Ok (ctA, p, lo) ∧ phase2 grid9_in ctA p = Ok ct ∧
    cc_cpt <$> ct_ccs ct !! 0 = Some 2%Z.
Proof.
  split; [apply grid9_good|]. split.
  - intros x. destruct (decide (x < 9)) as [Hx|Hx].
    + do 9 (destruct x as [|x]; [split; [apply (bool_decide_unpack _); vm_compute; exact I|];
        intros Hl; apply elem_of_nbl, (bool_decide_eq_true_2 _) in Hl; vm_compute in Hl; done|]).
      lia.
    + assert (nb_list (in_row grid9_in) (in_col grid9_in) x = []) as Hn.
      { unfold nb_list. rewrite (lookup_ge_None_2 (in_row grid9_in) (S x)); [|simpl; lia].
        by destruct (_ !! x). }
      split; [rewrite Hn; constructor|]. intros Hl. apply elem_of_nbl in Hl. change (x ∈ nb_list (in_row grid9_in) (in_col grid9_in) x) in Hl.
      rewrite Hn in Hl. by apply elem_of_nil in Hl.
  - destruct (phase1 grid9_in o0) as [[[ctA p] lo]|] eqn:E1; [|vm_compute in E1; done].
    destruct (phase2 grid9_in ctA p) as [ct|] eqn:E2.
    + exists ctA, p, lo, ct. split_and!; [done..|].
      assert (match phase1 grid9_in o0 with Ok (a, b, _) => match phase2 grid9_in a b with Ok c => cc_cpt <$> ct_ccs c !! 0 | _ => None end | _ => None end = Some 2%Z) as He by (vm_compute; reflexivity).
      by rewrite E1, E2 in He.
    + assert (match phase1 grid9_in o0 with Ok (a, b, _) => match phase2 grid9_in a b with Ok c => true | _ => false end | _ => false end = true) as He by (vm_compute; reflexivity).
      by rewrite E1, E2 in He.
Qed.
Lemma C36_ex : good_call (chain7 false) o0 ∧ in_corr (chain7 false) = false.
Proof. split; [apply chain7_good|done]. Qed.
(** The counter is not decremented when the correction removes a cell. *)
Lemma C36_ref : ∃ i o r ctA p lo ct, good_call i o ∧ thresh_one i ∧
  agglomerate_one_level i o = (r, Ok ()) ∧ phase1 i o = Ok (ctA, p, lo) ∧ phase2 i ctA p = Ok ct ∧
  ¬ (∀ c, c < ct_n ct ↔ ∃ x, o_fc2cc r !! x = Some c).
Proof.
  exists (chain7 true), o0.
  destruct (C07_lem (chain7 true) o0 (chain7_good true)) as (r & ctA & p & lo & ct & He & E1 & E2 & _ & _).
  exists r, ctA, p, lo, ct. split_and!; [apply chain7_good|by left|done..|].
  assert (r = Outs [0;0;1;1;2;2;2] [] []) as ->.
  { assert (agglomerate_one_level (chain7 true) o0 = (Outs [0;0;1;1;2;2;2] [] [], Ok ())) as He' by (vm_compute; reflexivity).
    congruence. }
  assert (ct_n ct = 4) as ->.
  { assert (match phase1 (chain7 true) o0 with Ok (a, b, _) => match phase2 (chain7 true) a b with Ok c => ct_n c | _ => 0 end | _ => 0 end = 4) as He' by (vm_compute; reflexivity).
    by rewrite E1, E2 in He'. }
  intros Hc. destruct (proj1 (Hc 3)) as [x Hx]; [lia|]. simpl in Hx.
  do 7 (destruct x as [|x]; [done|]). done.
Qed.
