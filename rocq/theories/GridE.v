(** * GridE: examples for C67 *)

From Coq Require Import QArith Qcanon.
From Verif Require Import Inst Main Spec SpecSub SpecGrid FeatU FeatT GrowE ApiE.
#[local] Open Scope Z_scope.
#[local] Open Scope nat_scope.
#[local] Existing Instance qarith | 100.
#[local] Existing Instance ord_id | 100.

(** ** Checking a grid of two or three dimensions by computation *)

Definition edge_b (i : input) (x y : nat) : bool := bool_decide (y ∈ nb_list (in_row i) (in_col i) x).
Definition beside_b (dim : nat) (co : nat → nat → nat) (x y : nat) : bool :=
  existsb (λ k, ((co y k =? S (co x k)) || (co x k =? S (co y k))) &&
    forallb (λ j, (j =? k) || (co x j =? co y j)) (seq 0 dim)) (seq 0 dim).
Definition grid_check (i : input) (half : nat → nat) (co : nat → nat → nat) : bool :=
  let n := in_n i in let dim := axes i in
  forallb (λ x, forallb (λ k, co x k <? 2 * half k) (seq 0 dim)) (seq 0 n) &&
  forallb (λ x, forallb (λ y, (x =? y) || existsb (λ k, negb (co x k =? co y k)) (seq 0 dim)) (seq 0 n)) (seq 0 n) &&
  forallb (λ x, forallb (λ y, Bool.eqb (edge_b i x y) (beside_b dim co x y)) (seq 0 n)) (seq 0 n) &&
  bool_decide (in_bnd i = (λ x, Z.of_nat (length (filter (λ k, co x k = 0 ∨ co x k = 2 * half k - 1) (seq 0 dim)))) <$> seq 0 n) &&
  (dim <=? 3) &&
  forallb (λ a, forallb (λ b, forallb (λ c, existsb (λ x,
      forallb (λ k, co x k =? match k with 0 => a | 1 => b | _ => c end) (seq 0 dim)) (seq 0 n))
    (seq 0 (if dim <=? 2 then 1 else 2 * half 2))) (seq 0 (if dim <=? 1 then 1 else 2 * half 1)))
    (seq 0 (if dim <=? 0 then 1 else 2 * half 0)).

Lemma forallb_seq (P : nat → bool) n x : forallb P (seq 0 n) = true → x < n → P x = true.
Proof. intros Hf Hx. rewrite forallb_forall in Hf. apply Hf, elem_of_list_In, elem_of_seq. lia. Qed.
Lemma existsb_seq (P : nat → bool) n : existsb P (seq 0 n) = true → ∃ x, x < n ∧ P x = true.
Proof. intros (x & Hx & HP)%existsb_exists. exists x. split; [|done]. apply elem_of_list_In, elem_of_seq in Hx. lia. Qed.

Lemma beside_ok dim co x y : beside_b dim co x y = true ↔
  ∃ k, k < dim ∧ (co y k = S (co x k) ∨ co x k = S (co y k)) ∧ ∀ j, j < dim → j ≠ k → co x j = co y j.
Proof.
  unfold beside_b. split.
  - intros (k & Hk & [Ho Hf]%andb_true_iff)%existsb_seq. exists k. split; [done|].
    rewrite orb_true_iff, !Nat.eqb_eq in Ho. split; [done|]. intros j Hj Hjk.
    pose proof (forallb_seq _ _ j Hf Hj) as Hb. simpl in Hb. rewrite orb_true_iff, !Nat.eqb_eq in Hb. by destruct Hb.
  - intros (k & Hk & Ho & Hj). apply existsb_exists. exists k. split; [apply elem_of_list_In, elem_of_seq; lia|].
    rewrite andb_true_iff, orb_true_iff, !Nat.eqb_eq. split; [done|]. apply forallb_forall. intros j Hjs.
    apply elem_of_list_In, elem_of_seq in Hjs. rewrite orb_true_iff, !Nat.eqb_eq.
    destruct (decide (j = k)); [by left|right]. apply Hj; [lia|done].
Qed.

Lemma grid_check_ok i half co : grid_check i half co = true → even_grid i half co.
Proof.
  unfold grid_check. cbv zeta. rewrite !andb_true_iff. intros (((((H1 & H2) & H3) & H4) & H5) & H6). split.
  - intros x k Hx Hk. pose proof (forallb_seq _ _ x H1 Hx) as Hf. pose proof (forallb_seq _ _ k Hf Hk) as Hb. by apply Nat.ltb_lt.
  - intros f Hf. apply Nat.leb_le in H5.
    set (v k := if axes i <=? k then 0 else f k).
    assert (∀ k, v k < (if axes i <=? k then 1 else 2 * half k)) as Hv.
    { intros k. unfold v. destruct (axes i <=? k) eqn:Hk; [lia|]. apply Nat.leb_gt in Hk. by apply Hf. }
    pose proof (forallb_seq _ _ (v 0) H6 (Hv 0)) as G1. cbn beta in G1.
    pose proof (forallb_seq _ _ (v 1) G1 (Hv 1)) as G2. cbn beta in G2.
    pose proof (forallb_seq _ _ (v 2) G2 (Hv 2)) as G3. cbn beta in G3.
    apply existsb_seq in G3 as (x & Hx & G3). exists x. split; [done|]. intros k Hk.
    pose proof (forallb_seq _ _ k G3 Hk) as G4. cbn beta in G4. apply Nat.eqb_eq in G4. rewrite G4.
    assert (v k = f k) as <-. { unfold v. apply Nat.leb_gt in Hk. by rewrite Hk. }
    assert (k = 0 ∨ k = 1 ∨ k = 2) as [->|[->| ->]] by lia; done.
  - intros x y Hx Hy He. pose proof (forallb_seq _ _ x H2 Hx) as Hf. pose proof (forallb_seq _ _ y Hf Hy) as Hb. cbn beta in Hb.
    apply orb_true_iff in Hb as [Hb|Hb]; [by apply Nat.eqb_eq|]. exfalso. apply existsb_seq in Hb as (k & Hk & Hb).
    apply negb_true_iff, Nat.eqb_neq in Hb. by apply Hb, He.
  - intros x y Hx Hy. rewrite <- beside_ok. pose proof (forallb_seq _ _ x H3 Hx) as Hf. pose proof (forallb_seq _ _ y Hf Hy) as Hb.
    cbn beta in Hb. apply eqb_prop in Hb. rewrite <- Hb. unfold edge_b, in_edge. rewrite bool_decide_eq_true, elem_of_nb_list. done.
  - intros x b Hx. apply bool_decide_eq_true in H4. rewrite H4, list_lookup_fmap in Hx.
    destruct (seq 0 (in_n i) !! x) as [y|] eqn:Hy; [|done]. apply lookup_seq in Hy as [-> _]. by injection Hx as <-.
Qed.

(** A mesh of [n] unit cells with the given coordinates. *)
Definition grid_in (dim n : nat) (co : nat → nat → nat) (corr : bool) (mn goal mx ar iter nbh : Z) : @input qarith :=
  let l := (λ x, filter (λ y, beside_b dim co x y = true) (seq 0 n)) <$> seq 0 n in
  @Input qarith (row_of 0 l) (concat l) (map (λ _, qc 1 1) (concat l))
    (replicate n (qc 1 1)) (map (λ x, (λ k, qc (Z.of_nat (co x k)) 1) <$> seq 0 dim) (seq 0 n))
    (replicate n (qc 1 1)) (seq 0 n)
    ((λ a : list nat, Z.of_nat (2 * dim - length a)) <$> l) false false false (qc 4 1)
    0 corr (Z.of_nat dim) goal mn mx ar 1 None 0 false iter nbh.

(** ** A square of 4 by 4 cells

    Numbered line by line; the pure front, a look-ahead of four cells and the
    correction. *)
Definition sq_co (x k : nat) : nat := match k with 0 => x mod 4 | _ => x / 4 end.
Definition sq16 : @input qarith := grid_in 2 16 sq_co true 2 3 4 0 4 1.

(** ** A brick of 4 by 2 by 2 cells *)
Definition br_co (x k : nat) : nat := match k with 0 => x mod 4 | 1 => (x / 4) mod 2 | _ => x / 8 end.
Definition br_half (k : nat) : nat := match k with 0 => 2 | _ => 1 end.
Definition br16 (ar iter nbh : Z) : @input qarith := grid_in 3 16 br_co true 8 8 8 ar iter nbh.

Lemma C67_ex : (weak_order (@wlt qarith) (λ _, True)) ∧
  (good_call sq16 o0 ∧ ¬ aniso_on sq16 o0 ∧ simple_csr (in_row sq16) (in_col sq16) ∧
   even_grid sq16 (λ _, 2) sq_co ∧ in_max sq16 = (2 ^ in_dim sq16)%Z ∧ (in_dim sq16 = 2)%Z ∧
   agglomerate_one_level sq16 o0 = (Outs [0;0;1;1;0;0;1;1;2;2;3;3;2;2;3;3] [] [], Ok ())) ∧
  (good_call (br16 2 1 0) o0 ∧ ¬ aniso_on (br16 2 1 0) o0 ∧ simple_csr (in_row (br16 2 1 0)) (in_col (br16 2 1 0)) ∧
   even_grid (br16 2 1 0) br_half br_co ∧ in_max (br16 2 1 0) = (2 ^ in_dim (br16 2 1 0))%Z ∧ in_nbh (br16 2 1 0) = 0%Z ∧ in_iter (br16 2 1 0) = 1%Z ∧
   agglomerate_one_level (br16 2 1 0) o0 = (Outs [0;0;1;1;0;0;1;1;0;0;1;1;0;0;1;1] [] [], Ok ())).
Proof.
  assert (good_call sq16 o0) as HG by (apply good_off; [done|vm_compute; reflexivity]).
  assert (good_call (br16 2 1 0) o0) as HG2 by (apply good_off; [done|vm_compute; reflexivity]).
  split; [apply q_weak_order|]. split.
  - split_and!; [done|by intros [? _]| | |done|done|vm_compute; reflexivity].
    + apply (simple_check_ok (in_n sq16)); [apply HG|vm_compute; reflexivity].
    + apply grid_check_ok. vm_compute. reflexivity.
  - split_and!; [done|by intros [? _]| | |done|done|done|vm_compute; reflexivity].
    + apply (simple_check_ok (in_n (br16 2 1 0))); [apply HG2|vm_compute; reflexivity].
    + apply grid_check_ok. vm_compute. reflexivity.
Qed.

(** The brick with a look-ahead of four cells, or with the pure front. *)
Lemma br16_hyps ar iter nbh : (ar, iter, nbh) = (2, 4, 0)%Z ∨ (ar, iter, nbh) = (3, 1, 1)%Z →
  let i := br16 ar iter nbh in
  good_call i o0 ∧ ¬ aniso_on i o0 ∧ simple_csr (in_row i) (in_col i) ∧ even_grid i br_half br_co ∧ in_max i = (2 ^ in_dim i)%Z.
Proof.
  intros Hor i.
  assert (good_call i o0) as HG by (destruct Hor as [[= -> -> ->]|[= -> -> ->]]; (apply good_off; [done|vm_compute; reflexivity])).
  split_and!; [done|by intros [? _]| | |done].
  - apply (simple_check_ok (in_n i)); [apply HG|]. destruct Hor as [[= -> -> ->]|[= -> -> ->]]; vm_compute; reflexivity.
  - apply grid_check_ok. destruct Hor as [[= -> -> ->]|[= -> -> ->]]; vm_compute; reflexivity.
Qed.

Lemma C67_ahead_ref : ∃ (A : Arith) (H : HashOrder) (i : @input A) (o : outs) half co r,
  good_call i o ∧ ¬ aniso_on i o ∧ simple_csr (in_row i) (in_col i) ∧ weak_order wlt (λ _, True) ∧
  even_grid i half co ∧ in_max i = (2 ^ in_dim i)%Z ∧ in_nbh i = 0%Z ∧
  agglomerate_one_level i o = (r, Ok ()) ∧
  ∃ x y, x < in_n i ∧ y < in_n i ∧ same_block i co x y ∧ o_fc2cc r !! x ≠ o_fc2cc r !! y.
Proof.
  exists qarith, ord_id, (br16 2 4 0), o0, br_half, br_co, (Outs [0;0;0;1;0;0;0;1;0;0;1;1;1;1;1;1] [] []).
  destruct (br16_hyps 2 4 0 (or_introl eq_refl)) as (H1 & H2 & H3 & H4 & H5).
  split_and!; [done..|apply q_weak_order|done|done|done|vm_compute; reflexivity|].
  exists 2, 3. split_and!; [vm_compute; lia..| |done]. intros k Hk. change (axes (br16 2 4 0)) with 3 in Hk.
  assert (k = 0 ∨ k = 1 ∨ k = 2) as [->|[->| ->]] by lia; done.
Qed.

Lemma C67_front_ref : ∃ (A : Arith) (H : HashOrder) (i : @input A) (o : outs) half co r,
  good_call i o ∧ ¬ aniso_on i o ∧ simple_csr (in_row i) (in_col i) ∧ weak_order wlt (λ _, True) ∧
  even_grid i half co ∧ in_max i = (2 ^ in_dim i)%Z ∧ in_iter i = 1%Z ∧
  agglomerate_one_level i o = (r, Ok ()) ∧
  ∃ x y, x < in_n i ∧ y < in_n i ∧ same_block i co x y ∧ o_fc2cc r !! x ≠ o_fc2cc r !! y.
Proof.
  exists qarith, ord_id, (br16 3 1 1), o0, br_half, br_co, (Outs [0;0;0;0;0;0;0;1;0;1;1;1;1;1;1;1] [] []).
  destruct (br16_hyps 3 1 1 (or_intror eq_refl)) as (H1 & H2 & H3 & H4 & H5).
  split_and!; [done..|apply q_weak_order|done|done|done|vm_compute; reflexivity|].
  exists 8, 9. split_and!; [vm_compute; lia..| |done]. intros k Hk. change (axes (br16 3 1 1)) with 3 in Hk.
  assert (k = 0 ∨ k = 1 ∨ k = 2) as [->|[->| ->]] by lia; done.
Qed.
