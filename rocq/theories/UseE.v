(** * UseE: examples for C52 and C53 *)

From Coq Require Import QArith Qcanon.
From Verif Require Import Lib Inst Main Spec SpecUse ApiE UseT UseU.
#[local] Open Scope Z_scope.
#[local] Open Scope nat_scope.
#[local] Existing Instance qarith | 100.
#[local] Existing Instance ord_id | 100.

(** ** Checking the order of two lists of weights *)
Definition so_check (l l' : list W) : bool :=
  bool_decide (length l' = length l) &&
  forallb (λ p, forallb (λ q, eqb (wlt p.2 q.2) (wlt p.1 q.1) && eqb (weq p.2 q.2) (weq p.1 q.1)) (zip l l')) (zip l l').
Lemma so_check_ok l l' : so_check l l' = true → same_order l l'.
Proof.
  unfold so_check. intros Hc. apply andb_true_iff in Hc as [Hl Hc]. apply bool_decide_eq_true in Hl. split; [done|].
  intros x y a b a' b' Ha Hb Ha' Hb'. rewrite forallb_forall in Hc.
  assert (∀ z c c', l !! z = Some c → l' !! z = Some c' → In (c, c') (zip l l')) as Hz.
  { intros z c c' Hc1 Hc2. apply elem_of_list_In, elem_of_list_lookup. exists z. apply lookup_zip_with_Some. eauto. }
  specialize (Hc _ (Hz _ _ _ Ha Ha')). rewrite forallb_forall in Hc. specialize (Hc _ (Hz _ _ _ Hb Hb')). simpl in Hc.
  apply andb_true_iff in Hc as [H1 H2]. by apply eqb_prop in H1, H2.
Qed.
Definition sf_check (l l' : list W) : bool :=
  forallb (λ p, eqb (wlt p.2 wminv) (wlt p.1 wminv) && eqb (wlt wminv p.2) (wlt wminv p.1)) (zip l l').
Lemma sf_check_ok l l' : sf_check l l' = true → same_floor l l'.
Proof.
  unfold sf_check. intros Hc x a a' Ha Ha'. rewrite forallb_forall in Hc.
  assert (In (a, a') (zip l l')) as Hz.
  { apply elem_of_list_In, elem_of_list_lookup. exists x. apply lookup_zip_with_Some. eauto. }
  specialize (Hc _ Hz). simpl in Hc. apply andb_true_iff in Hc as [H1 H2]. by apply eqb_prop in H1, H2.
Qed.

(** ** C52 *)
Definition up9 (k : Z) : list W := map (λ z, qc (k * (1 + z)) 1) [2; 5; 1; 4; 4; 0; 3; 6; 2]%Z.
Definition grid9_ord (order : Z) : input := mk_input grid9 grid9_bnd order true 2 4 4 1.
(** Priorities multiplied by 7. *)
Lemma C52_ex : let i := put_prio (grid9_ord 10) (up9 1) in
  same_order (in_prio i) (up9 7) ∧ (in_order i = 10%Z ∨ in_order i = 11%Z → same_floor (in_prio i) (up9 7)) ∧
  in_prio i ≠ up9 7 ∧
  agglomerate_one_level (put_prio i (up9 7)) o0 = (Outs [1;1;2;0;0;2;0;0;2] [] [], Ok ()).
Proof.
  split; [apply so_check_ok; vm_compute; reflexivity|]. split; [intros _; apply sf_check_ok; vm_compute; reflexivity|].
  split; [by vm_compute|]. vm_compute; reflexivity.
Qed.

(** Equal priorities 1 and equal priorities 0; the same priorities listed
    backwards. *)
Lemma C52_needed_lem :
  (∃ i o prio', same_order (in_prio i) prio' ∧ in_order i = 10%Z ∧ good_call i o ∧
     (agglomerate_one_level i o).2 = Ok () ∧ (agglomerate_one_level (put_prio i prio') o).2 = Err EUB) ∧
  ∃ i o prio', length prio' = length (in_prio i) ∧ good_call i o ∧ good_call (put_prio i prio') o ∧
     agglomerate_one_level (put_prio i prio') o ≠ agglomerate_one_level i o.
Proof.
  split.
  - exists (grid9_ord 10), o0, (replicate 9 (qc 0 1)). split; [apply so_check_ok; vm_compute; reflexivity|]. split; [done|].
    split; [apply good_off; [done|]; vm_compute; reflexivity|]. split; vm_compute; reflexivity.
  - exists (put_prio (grid9_ord 10) (up9 1)), o0, (reverse (up9 1)). split; [done|].
    split; [apply good_off; [done|]; vm_compute; reflexivity|]. split; [apply good_off; [done|]; vm_compute; reflexivity|].
    vm_compute. discriminate.
Qed.

(** ** C53 *)
Lemma C53_bnd_ex : let i := grid9_ord 0 in let bnd := [5;1;2;1;0;1;7;1;2]%Z in
  map (Z.min (in_dim i)) bnd = map (Z.min (in_dim i)) (in_bnd i) ∧ bnd ≠ in_bnd i ∧
  agglomerate_one_level (put_bnd i bnd) o0 = (Outs [0;0;1;0;0;1;2;2;2] [] [], Ok ()).
Proof. split; [reflexivity|]. split; [done|]. vm_compute. reflexivity. Qed.
Lemma C53_off_ex : let i := grid9_ord 0 in in_aniso i = false ∧
  agglomerate_one_level i o0 = (Outs [0;0;1;0;0;1;2;2;2] [] [], Ok ()) ∧
  agglomerate_one_level (put_aniso i [] true false (qc 0 1) (Some 1%Z) 1 true) (Outs [] [0;7;3] [99]) =
    (Outs [0;0;1;0;0;1;2;2;2] [0;7;3] [99], Ok ()).
Proof. split; [done|]. split; vm_compute; reflexivity. Qed.
Lemma C53_given_ex : let i := line7 true None in in_build i = false ∧
  agglomerate_one_level (put_aniso i [99] false (in_odd i) (qc 0 1) (in_maxline i) 1 true) o_line5 =
    (Outs [0;0;1;1;1;2;2] [0;2] [0;1], Ok ()).
Proof. split; [done|]. vm_compute. reflexivity. Qed.
(** Without correction 1 and 2 give the same; with it they do not. *)
Lemma C53_thr_ex : let i := tree10_in false 1 in in_corr i = false ∧ (0 < in_sing i)%Z ∧
  agglomerate_one_level (put_sing i 2) o0 = agglomerate_one_level i o0 ∧
  agglomerate_one_level (put_sing (tree10_in true 1) 2) o0 ≠ agglomerate_one_level (tree10_in true 1) o0.
Proof. split; [done|]. split; [done|]. split; [vm_compute; reflexivity|]. vm_compute. discriminate. Qed.
Lemma C53_clip_ex : let i := tree10_in true 3 in (in_min i <= in_sing i)%Z ∧ (1 < in_min i)%Z ∧
  agglomerate_one_level (put_sing i 100) o0 = (Outs [0;0;0;0;1;1;1;1;1;3] [] [], Ok ()).
Proof. split; [done|]. split; [done|]. vm_compute. reflexivity. Qed.
Lemma C53_nbh_ex : let i := put_nbh (grid9_ord 0) 1 in in_nbh i ≠ 0%Z ∧
  (agglomerate_one_level (put_nbh i 5) o0).2 = Ok ().
Proof. split; [done|]. vm_compute. reflexivity. Qed.
Lemma C53_coupling_ex : let i := built6 0 false in in_coupling i ≠ 1%Z ∧
  (agglomerate_one_level (put_aniso i (in_compl i) (in_build i) (in_odd i) (in_thr i) (in_maxline i) 5 (in_force i)) o0).2 = Ok ().
Proof. split; [done|]. vm_compute. reflexivity. Qed.
Lemma C53_out_ex : agglomerate_one_level grid9_in (put_fc2cc o0 [7;7]) = (Outs [0;0;1;0;0;1;2;2;2] [] [], Ok ()).
Proof. vm_compute. reflexivity. Qed.
