(** * FeatT: the features maintained while cells are added (C28) *)

From Coq Require Import Ring.
From Verif Require Import Lib Spec SpecSub SpecFeat GraphP FeaturesP SubT Features SpecAR.

Section sums.
Context {A : Arith} (EA : exact_arith).
Add Ring Wring : (ea_ring EA).

Lemma sum_l_cons x l : sum_l (x :: l) = wadd x (sum_l l).
Proof. done. Qed.
Lemma sum_l_app l k : sum_l (l ++ k) = wadd (sum_l l) (sum_l k).
Proof. induction l as [|x l IH]; cbn [app]; [unfold sum_l at 2; simpl; ring|]. rewrite !sum_l_cons, IH. ring. Qed.
Lemma sum_l_perm l k : l ≡ₚ k → sum_l l = sum_l k.
Proof.
  induction 1; [done| | |congruence].
  - rewrite !sum_l_cons. by f_equal.
  - rewrite !sum_l_cons. ring.
Qed.

Lemma sum_over_singleton F x : sum_over F {[x]} = F x.
Proof. unfold sum_over. rewrite elements_singleton. simpl. unfold sum_l. simpl. ring. Qed.
Lemma sum_over_add F x (X : gset nat) : x ∉ X → sum_over F ({[x]} ∪ X) = wadd (F x) (sum_over F X).
Proof.
  intros Hx. unfold sum_over. rewrite <- sum_l_cons, <- fmap_cons. apply sum_l_perm.
  by rewrite elements_union_singleton.
Qed.
Lemma sum_over_ext F G (X : gset nat) : (∀ x, x ∈ X → F x = G x) → sum_over F X = sum_over G X.
Proof.
  intros Hx. unfold sum_over. f_equal. apply list_fmap_ext. intros i x Hi. apply Hx, elem_of_elements.
  by eapply elem_of_list_lookup_2.
Qed.
Lemma sum_over_plus F G (X : gset nat) : sum_over (λ x, wadd (F x) (G x)) X = wadd (sum_over F X) (sum_over G X).
Proof.
  unfold sum_over. generalize (elements X). intros l. induction l as [|x l IH]; cbn [fmap list_fmap].
  - unfold sum_l. simpl. ring.
  - change (list_fmap _ _ ?f l) with (f <$> l). rewrite !sum_l_cons, IH. ring.
Qed.
Lemma sum_over_0 (X : gset nat) : sum_over (λ _, w0) X = w0.
Proof.
  unfold sum_over. generalize (elements X). intros l. induction l as [|x l IH]; [done|].
  cbn [fmap list_fmap]. change (list_fmap _ _ ?f l) with (f <$> l). rewrite sum_l_cons, IH. ring.
Qed.
Lemma sum_over_ind y w (X : gset nat) :
  sum_over (λ x, if decide (y = x) then w else w0) X = if decide (y ∈ X) then w else w0.
Proof.
  revert X. apply set_ind_L.
  - unfold sum_over. rewrite elements_empty. by rewrite decide_False by set_solver.
  - intros x X Hx IH. rewrite sum_over_add, IH by done.
    destruct (decide (y = x)) as [->|Hne].
    + rewrite decide_False by done. rewrite decide_True by set_solver. ring.
    + destruct (decide (y ∈ X)); [rewrite decide_True by set_solver|rewrite decide_False by set_solver]; ring.
Qed.
(** Exchanging the order of summation. *)
Lemma sum_over_sum_l {B} (F : nat → B → W) (X : gset nat) (l : list B) :
  sum_over (λ x, sum_l (F x <$> l)) X = sum_l ((λ b, sum_over (λ x, F x b) X) <$> l).
Proof.
  induction l as [|b l IH]; [apply sum_over_0|].
  rewrite fmap_cons, sum_l_cons, <- IH, <- sum_over_plus. done.
Qed.

Context (row col : list nat) (val : list W).
Notation faces_to := (faces_to row col val).
Notation ents := (entries row col val).

Lemma sum_faces (P : nat → Prop) `{∀ y, Decision (P y)} x :
  sum_l (faces_to P x) = sum_l ((λ e : nat * W, if decide (P e.1) then e.2 else w0) <$> ents x).
Proof.
  unfold SpecFeat.faces_to. induction (ents x) as [|e l IH]; [done|].
  rewrite fmap_cons, sum_l_cons, filter_cons. destruct (decide (P e.1)).
  - by rewrite fmap_cons, sum_l_cons, IH.
  - rewrite IH. ring.
Qed.
Lemma sum_faces_split (P Q R : nat → Prop) `{∀ y, Decision (P y)} `{∀ y, Decision (Q y)} `{∀ y, Decision (R y)} x :
  (∀ y, P y ↔ Q y ∨ R y) → (∀ y, Q y → R y → False) →
  sum_l (faces_to P x) = wadd (sum_l (faces_to Q x)) (sum_l (faces_to R x)).
Proof.
  intros HP HQR. rewrite !sum_faces. induction (ents x) as [|e l IH]; [unfold sum_l; simpl; ring|].
  rewrite !fmap_cons, !sum_l_cons, IH. specialize (HP e.1). specialize (HQR e.1).
  destruct (decide (P e.1)), (decide (Q e.1)), (decide (R e.1)); try tauto; ring.
Qed.
Lemma faces_to_ext (P Q : nat → Prop) `{∀ y, Decision (P y)} `{∀ y, Decision (Q y)} x :
  (∀ y, P y ↔ Q y) → faces_to P x = faces_to Q x.
Proof. intros HP. unfold SpecFeat.faces_to. f_equal. apply list_filter_iff. intros e. apply HP. Qed.
Lemma faces_to_none (P : nat → Prop) `{∀ y, Decision (P y)} x : (∀ y, ¬ P y) → sum_l (faces_to P x) = w0.
Proof.
  intros HP. rewrite sum_faces. induction (ents x) as [|e l IH]; [done|].
  rewrite fmap_cons, sum_l_cons, IH. destruct (decide (P e.1)); [by exfalso; eapply HP|ring].
Qed.
(** Summing over the targets. *)
Lemma sum_targets (X : gset nat) (P : nat → Prop) `{∀ y, Decision (P y)} i :
  sum_over (λ x, if decide (P x) then sum_l (faces_to (λ y, y = x) i) else w0) X =
  sum_l (faces_to (λ y, y ∈ X ∧ P y) i).
Proof.
  rewrite sum_faces.
  transitivity (sum_over (λ x, sum_l ((λ e : nat * W, if decide (e.1 = x) then (if decide (P e.1) then e.2 else w0) else w0) <$> ents i)) X).
  - apply sum_over_ext. intros x _. rewrite sum_faces. destruct (decide (P x)) as [Hp|Hp].
    + f_equal. apply list_fmap_ext. intros k e _. destruct (decide (e.1 = x)) as [->|]; [by rewrite decide_True|done].
    + induction (ents i) as [|e l IH]; [done|]. rewrite fmap_cons, sum_l_cons, <- IH.
      destruct (decide (e.1 = x)) as [->|]; [rewrite decide_False by done|]; ring.
  - rewrite sum_over_sum_l. f_equal. apply list_fmap_ext. intros k e _. rewrite sum_over_ind.
    destruct (decide (e.1 ∈ X)), (decide (P e.1)), (decide (e.1 ∈ X ∧ P e.1)); tauto.
Qed.

(** ** Adding a cell *)

Context (Hsym : sym_weights row col val).

Lemma internal_add X i : i ∉ X → internal_weight row col val ({[i]} ∪ X) =
  wadd (internal_weight row col val X) (sum_l (faces_to (λ y, y ≠ i ∧ y ∈ X) i)).
Proof using EA Hsym.
  intros Hi. unfold internal_weight. rewrite sum_over_add by done.
  transitivity (wadd (sum_l (faces_to (λ y, y ∈ X ∧ y < i) i))
    (wadd (sum_over (λ x, sum_l (faces_to (λ y, y ∈ X ∧ y < x) x)) X)
      (sum_over (λ x, if decide (i < x) then sum_l (faces_to (λ y, y = x) i) else w0) X))).
  - f_equal.
    + f_equal. apply faces_to_ext. intros y. rewrite elem_of_union, elem_of_singleton. split; [intros [[->|?] ?]; [lia|done]|tauto].
    + rewrite <- sum_over_plus. apply sum_over_ext. intros x Hx. destruct (decide (i < x)) as [Hix|Hix].
      * rewrite (sum_l_perm _ _ (Hsym i x)). apply sum_faces_split.
        -- intros y. rewrite elem_of_union, elem_of_singleton. split; [tauto|]. intros [[? ?]| ->]; tauto.
        -- intros y [Hy _] ->. done.
      * rewrite (faces_to_ext _ (λ y, y ∈ X ∧ y < x)); [ring|]. intros y. rewrite elem_of_union, elem_of_singleton.
        split; [intros [[->|?] ?]; tauto|tauto].
  - rewrite sum_targets. rewrite (sum_faces_split (λ y, y ≠ i ∧ y ∈ X) (λ y, y ∈ X ∧ y < i) (λ y, y ∈ X ∧ i < y)); [ring| |].
    + intros y. split; [|intros [[? ?]|[? ?]]; (split; [lia|done])].
      intros [H1 H2]. destruct (decide (y < i)); [by left|right]. split; [done|lia].
    + intros y [_ ?] [_ ?]. lia.
Qed.

Lemma external_add bnd X i : i ∉ X → external_weight row col val bnd ({[i]} ∪ X) =
  wsub (wadd (external_weight row col val bnd X)
         (wadd (sum_l (faces_to (λ _, True) i)) (bnd_weight row col val bnd i)))
    (wmul (wofZ 2) (sum_l (faces_to (λ y, y ≠ i ∧ y ∈ X) i))).
Proof using EA Hsym.
  intros Hi. unfold external_weight. rewrite sum_over_add by done. rewrite (ea_two EA).
  assert (sum_over (λ x, wadd (bnd_weight row col val bnd x) (sum_l (faces_to (λ y, y ∉ X ∨ y = x) x))) X =
    wadd (sum_over (λ x, wadd (bnd_weight row col val bnd x) (sum_l (faces_to (λ y, y ∉ {[i]} ∪ X ∨ y = x) x))) X)
      (sum_l (faces_to (λ y, y ≠ i ∧ y ∈ X) i))) as ->.
  { transitivity (wadd (sum_over (λ x, wadd (bnd_weight row col val bnd x) (sum_l (faces_to (λ y, y ∉ {[i]} ∪ X ∨ y = x) x))) X)
      (sum_over (λ x, if decide True then sum_l (faces_to (λ y, y = x) i) else w0) X)).
    - rewrite <- sum_over_plus. apply sum_over_ext. intros x Hx. rewrite decide_True by done.
      rewrite (sum_l_perm _ _ (Hsym i x)).
      rewrite (sum_faces_split (λ y, y ∉ X ∨ y = x) (λ y, y ∉ {[i]} ∪ X ∨ y = x) (λ y, y = i)); [ring| |].
      + intros y. rewrite elem_of_union, elem_of_singleton. destruct (decide (y = i)) as [->|]; tauto.
      + intros y Hy ->. destruct Hy as [Hy| ->]; [set_solver|done].
    - f_equal. rewrite sum_targets. f_equal. apply faces_to_ext. intros y.
      split; [intros [? _]|tauto]. split; [intros ->; done|done]. }
  rewrite (sum_faces_split (λ _, True) (λ y, y ∉ {[i]} ∪ X ∨ y = i) (λ y, y ≠ i ∧ y ∈ X)); [ring| |].
  - intros y. rewrite elem_of_union, elem_of_singleton. destruct (decide (y = i)), (decide (y ∈ X)); tauto.
  - intros y. rewrite elem_of_union, elem_of_singleton. tauto.
Qed.
End sums.

(** ** Counting faces *)

Section counts.
Context (row col : list nat) (Hsym : csr_sym row col).
Notation nb_in := (nb_in row col).

Lemma elem_of_nb_list x y : y ∈ nb_list row col x ↔ edge row col x y.
Proof.
  unfold nb_list, edge. split.
  - destruct (row !! x) as [a|]; [|by intros ?%elem_of_nil]. destruct (row !! S x) as [b|]; [|by intros ?%elem_of_nil].
    intros (i & Hi & Hlt)%elem_of_take. rewrite lookup_drop in Hi. exists a, b, (a + i). split_and!; [done|done|lia|lia|done].
  - intros (a & b & k & -> & -> & Hk & Hj). apply elem_of_take. exists (k - a). split; [|lia].
    rewrite lookup_drop. by replace (a + (k - a)) with k by lia.
Qed.

Lemma sum_list_with_ext_in {B} (f h : B → nat) l : (∀ x, x ∈ l → f x = h x) → sum_list_with f l = sum_list_with h l.
Proof.
  induction l as [|x l IH]; intros Hx; simpl; [done|]. rewrite Hx by left. f_equal. apply IH. intros y Hy. apply Hx. by right.
Qed.
Lemma sum_list_with_plus {B} (f h : B → nat) l :
  sum_list_with (λ x, f x + h x) l = sum_list_with f l + sum_list_with h l.
Proof. induction l as [|x l IH]; simpl; [done|]. lia. Qed.
Lemma sum_list_with_perm {B} (f : B → nat) l k : l ≡ₚ k → sum_list_with f l = sum_list_with f k.
Proof. induction 1; simpl; lia. Qed.
Lemma filter_add_in (P : nat → Prop) `{∀ x, Decision (P x)} (X : gset nat) i : P i →
  filter P ({[i]} ∪ X) = {[i]} ∪ filter P X.
Proof. intros. apply set_eq. intros y. rewrite elem_of_filter, !elem_of_union, elem_of_filter, elem_of_singleton. naive_solver. Qed.
Lemma filter_add_out (P : nat → Prop) `{∀ x, Decision (P x)} (X : gset nat) i : ¬ P i →
  filter P ({[i]} ∪ X) = filter P X.
Proof. intros. apply set_eq. intros y. rewrite !elem_of_filter, !elem_of_union, elem_of_singleton. naive_solver. Qed.
Lemma filter_size_add (P : nat → Prop) `{∀ x, Decision (P x)} (X : gset nat) i : i ∉ X →
  size (filter P ({[i]} ∪ X)) = (if decide (P i) then 1 else 0) + size (filter P X).
Proof.
  intros Hi. case_decide.
  - rewrite filter_add_in by done. rewrite size_union, size_singleton; [done|].
    intros y ->%elem_of_singleton. rewrite elem_of_filter. tauto.
  - by rewrite filter_add_out.
Qed.
Lemma sum_list_with_ind (P : nat → Prop) `{∀ x, Decision (P x)} (X : gset nat) :
  sum_list_with (λ x, if decide (P x) then 1 else 0) (elements X) = size (filter P X).
Proof.
  revert X. apply set_ind_L.
  - rewrite elements_empty. simpl. symmetry. apply size_empty_iff. intros y. rewrite elem_of_filter. set_solver.
  - intros x X Hx IH. rewrite (sum_list_with_perm _ _ (x :: elements X)) by (by rewrite elements_union_singleton).
    simpl. rewrite IH. by rewrite filter_size_add.
Qed.

Lemma nb_in_ext X (P Q : nat → Prop) `{∀ y, Decision (P y)} `{∀ y, Decision (Q y)} x :
  (∀ y, y ∈ X → P y ↔ Q y) → nb_in X P x = nb_in X Q x.
Proof. intros HP. unfold SpecFeat.nb_in. f_equal. apply set_eq. intros y. rewrite !elem_of_filter. naive_solver. Qed.
Lemma nb_in_add X (P : nat → Prop) `{∀ y, Decision (P y)} i x : i ∉ X →
  nb_in ({[i]} ∪ X) P x = nb_in X P x + (if decide (P i ∧ i ∈ nb_list row col x) then 1 else 0).
Proof. intros Hi. unfold SpecFeat.nb_in. rewrite filter_size_add by done. lia. Qed.

Lemma internal_faces_add X i : i ∉ X →
  internal_faces row col ({[i]} ∪ X) = (internal_faces row col X + Z.of_nat (nb_in X (λ y, y ≠ i) i))%Z.
Proof using Hsym.
  intros Hi. unfold internal_faces. rewrite <- Nat2Z.inj_add. f_equal.
  rewrite (sum_list_with_perm _ _ (i :: elements X)) by (by rewrite elements_union_singleton). simpl.
  rewrite (sum_list_with_ext_in _ (λ x, nb_in X (λ y, y < x) x + (if decide (i < x ∧ x ∈ nb_list row col i) then 1 else 0))).
  - rewrite sum_list_with_plus, sum_list_with_ind. rewrite nb_in_add by done. rewrite decide_False by lia.
    assert (nb_in X (λ y, y ≠ i) i = nb_in X (λ y, y < i) i + size (filter (λ x, i < x ∧ x ∈ nb_list row col i) X)); [|lia].
    unfold SpecFeat.nb_in. rewrite <- size_union.
    + f_equal. apply set_eq. intros y. rewrite elem_of_union, !elem_of_filter. split.
      * intros [[H1 H2] H3]. destruct (decide (y < i)); [left|right]; split_and!; try done; lia.
      * intros [[[? ?] ?]|[[? ?] ?]]; split_and!; try done; lia.
    + intros y. rewrite !elem_of_filter. lia.
  - intros x Hx%elem_of_elements. rewrite nb_in_add by done. f_equal.
    assert (i ∈ nb_list row col x ↔ x ∈ nb_list row col i) as Hs.
    { rewrite !elem_of_nb_list. split; apply Hsym. }
    destruct (decide (i < x ∧ i ∈ nb_list row col x)), (decide (i < x ∧ x ∈ nb_list row col i)); tauto.
Qed.

Lemma outer_faces_add bnd X i x : i ∉ X → x ∈ X → outer_faces row col bnd ({[i]} ∪ X) x =
  (outer_faces row col bnd X x - (if decide (x ∈ nb_list row col i) then 1 else 0))%Z.
Proof using Hsym.
  intros Hi Hx. unfold outer_faces. rewrite nb_in_add by done.
  assert (i ∈ nb_list row col x ↔ x ∈ nb_list row col i) as Hs.
  { rewrite !elem_of_nb_list. split; apply Hsym. }
  destruct (decide (i ≠ x ∧ i ∈ nb_list row col x)), (decide (x ∈ nb_list row col i)); try lia.
  - tauto.
  - exfalso. apply n. split; [intros ->; done|tauto].
Qed.
Lemma outer_faces_new bnd X i : outer_faces row col bnd ({[i]} ∪ X) i =
  (default 0 (bnd !! i) + Z.of_nat (length (nb_list row col i)) - Z.of_nat (nb_in X (λ y, y ≠ i) i))%Z.
Proof. unfold outer_faces. do 2 f_equal. unfold SpecFeat.nb_in. rewrite filter_add_out by tauto. done. Qed.
End counts.

(** ** Distances *)

Section dists.
Context {A : Arith} (EA : exact_arith).
Add Ring Wring2 : (ea_ring EA).

Lemma sqd_acc_eq acc a b : length a = length b → sqd_acc acc a b = Ok (wadd acc (dist2 a b)).
Proof.
  revert acc b. induction a as [|x a IH]; intros acc [|y b]; intros Hl; try done.
  - unfold dist2. simpl. f_equal. unfold sum_l. simpl. ring.
  - cbn [sqd_acc]. rewrite IH by (simpl in Hl; lia). f_equal. unfold dist2. cbn [zip_with]. rewrite sum_l_cons. ring.
Qed.
Lemma sqdist_eq a b : length a = length b → sqdist a b = Ok (dist2 a b).
Proof. intros Hl. unfold sqdist. rewrite sqd_acc_eq by done. f_equal. ring. Qed.
Lemma dist2_sym a b : dist2 a b = dist2 b a.
Proof.
  unfold dist2. revert b. induction a as [|x a IH]; intros [|y b]; try done.
  cbn [zip_with]. rewrite !sum_l_cons, IH. ring.
Qed.

Lemma pair_dist_add cen X i w : i ∉ X → pair_dist cen ({[i]} ∪ X) w ↔
  pair_dist cen X w ∨ ∃ y c c', y ∈ X ∧ cen !! i = Some c ∧ cen !! y = Some c' ∧ w = dist2 c c'.
Proof using EA.
  intros Hi. unfold pair_dist. split.
  - intros (x & y & c & c' & Hx & Hy & Hxy & Hc & Hc' & ->).
    apply elem_of_union in Hx as [Hx%elem_of_singleton|Hx]; apply elem_of_union in Hy as [Hy%elem_of_singleton|Hy]; subst.
    + done.
    + right. by exists y, c, c'.
    + right. exists x, c', c. split_and!; try done. apply dist2_sym.
    + left. by exists x, y, c, c'.
  - intros [(x & y & c & c' & Hx & Hy & Hxy & Hc & Hc' & ->)|(y & c & c' & Hy & Hc & Hc' & ->)].
    + exists x, y, c, c'. split_and!; try done; set_solver.
    + exists i, y, c, c'. split_and!; try done; [set_solver|set_solver|]. by intros ->.
Qed.
Context (WO : weak_order (@wlt A) (λ _, True)).
Lemma greatest_step (P : W → Prop) m d : greatest P m → greatest (λ w, P w ∨ w = d) (if wlt m d then d else m).
Proof using WO.
  intros [H1 H2]. destruct (wlt m d) eqn:Hd; (split; [tauto|]).
  - intros w [Hw| ->]; [|by apply (wo_irr _ _ WO)]. destruct (wlt d w) eqn:Hdw; [|done].
    rewrite <- (H2 w Hw). symmetry. by eapply (wo_tr _ _ WO).
  - intros w [Hw| ->]; [by apply H2|done].
Qed.
Lemma least_step (P : W → Prop) m d : least P m → least (λ w, P w ∨ w = d) (if wlt d m then d else m).
Proof using WO.
  intros [H1 H2]. destruct (wlt d m) eqn:Hd; (split; [tauto|]).
  - intros w [Hw| ->]; [|by apply (wo_irr _ _ WO)]. destruct (wlt w d) eqn:Hdw; [|done].
    rewrite <- (H2 w Hw). symmetry. by eapply (wo_tr _ _ WO).
  - intros w [Hw| ->]; [by apply H2|done].
Qed.
Lemma greatest_iff (P Q : W → Prop) m : (∀ w, P w ↔ Q w) → greatest P m ↔ greatest Q m.
Proof. intros HP. unfold greatest. setoid_rewrite HP. done. Qed.
Lemma least_iff (P Q : W → Prop) m : (∀ w, P w ↔ Q w) → least P m ↔ least Q m.
Proof. intros HP. unfold least. setoid_rewrite HP. done. Qed.

End dists.
