(** * CoarseV: the volumes and the maxima of the coarse cells of consistent data (C21, C24) *)

From Verif Require Import Lib Spec SpecCoarse UtilM CoarseT CoarseU CoarseE Inst.

Section coarse_v.
Context {A : Arith}.

Lemma C21_fine_lem f f2c : fine_ok f f2c →
  ∃ g m, build_coarse_graph f f2c = Ok g ∧ m ∈ f2c ∧ (∀ c, c ∈ f2c → c ≤ m) ∧ length (cg_vol g) = S m ∧
    (∀ c, c ≤ m → cg_vol g !! c = Some (wsum_l (omap (λ x, fg_vol f !! x) (fine_of f2c c)))) ∧
    ((∀ a b c, wadd a (wadd b c) = wadd (wadd a b) c) → (∀ a b, wadd a b = wadd b a) →
     (∀ a, wadd w0 a = a) → wsum_l (cg_vol g) = wsum_l (fg_vol f)).
Proof.
  intros FO. destruct (C20_lem _ _ FO) as (g & m & Hg & _).
  destruct (C21_lem _ _ _ Hg) as (m' & H1 & H2 & H3 & H4 & H5).
  exists g, m'. split_and!; [done..|]. apply H5. apply FO.
Qed.

(** C24 for all numbers of boundary faces which are 32-bit integers. *)
Lemma C24_int_lem f f2c : fine_ok f f2c → weak_order wlt (λ w, w ∈ wminv :: fg_prio f) →
  (∀ b, b ∈ fg_bnd f → (-2147483648 <= b)%Z) →
  ∃ g m, build_coarse_graph f f2c = Ok g ∧ (∀ c, c ∈ f2c → c ≤ m) ∧
    length (cg_prio g) = S m ∧ length (cg_bnd g) = S m ∧
    ∀ c, c ∈ f2c → ∃ p b, cg_prio g !! c = Some p ∧ cg_bnd g !! c = Some b ∧
      (∃ x, f2c !! x = Some c ∧ fg_bnd f !! x = Some b) ∧
      (∀ x b', f2c !! x = Some c → fg_bnd f !! x = Some b' → (b' <= b)%Z) ∧
      (∀ x w, f2c !! x = Some c → fg_prio f !! x = Some w → wlt p w = false) ∧
      ((∃ x w, f2c !! x = Some c ∧ fg_prio f !! x = Some w ∧ wlt wminv w = true) ∧
         (∃ x, f2c !! x = Some c ∧ fg_prio f !! x = Some p) ∨
       (∀ x w, f2c !! x = Some c → fg_prio f !! x = Some w → wlt wminv w = false) ∧ p = wminv).
Proof. exact (C24_lem f f2c). Qed.

End coarse_v.

#[local] Existing Instance qarith | 100.

Lemma C24_int_ex : fine_ok chain4u f2c4 ∧ weak_order wlt (λ w, w ∈ wminv :: fg_prio chain4u) ∧
  (∀ b, b ∈ fg_bnd chain4u → (-2147483648 <= b)%Z) ∧
  cg_prio chain4u_g = [qc 2 1; qc 4 1] ∧ cg_bnd chain4u_g = [1; 2]%Z.
Proof. exact C24_ex. Qed.
