(** * BestP: the choice of the next cell of a growing coarse cell *)

From Verif Require Export FeaturesP NeighP.

Section best.
Context {A : Arith} {H : HashOrder}.
Context (g : graph) (prio : list W) (WF : wfg g) (WD : wfd g prio).
Context (dimc : nat) (Hdim : ∀ k c, g_cen g !! k = Some c → length c = dimc).
Context (D : gset nat) (HD : ∀ x, x ∈ D → x < g_n g).
Implicit Types (f : feats) (cc : gset nat) (h : nbh) (dn : gmap nat Z) (b : best).

(** Candidate [i], with [nf] faces in common and aspect ratio [ar], is
    preferred to the current best. *)
Definition preferred dn b (i : nat) (nf : Z) (ar : W) : bool :=
  bool_decide (b_ref b < nf)%Z
  || bool_decide (nf = b_ref b)
     && match dn !! i, dn !! b_argmax b with
        | Some oi, Some ob =>
            bool_decide (oi < ob)%Z
            || bool_decide (oi = ob) && wlt ar (b_ar b) && bool_decide (0 < nf)%Z
        | _, _ => false
        end.

Lemma best_step_ok dn b i nf ar ft own :
  is_Some (dn !! i) → (nf = b_ref b → is_Some (dn !! b_argmax b)) →
  best_step dn b i nf ar ft own =
    Ok (if preferred dn b i nf ar then Best i own ft ar i nf else b).
Proof.
  intros [oi Hi] Hm. unfold best_step, preferred. rewrite (mapat_ok _ _ _ Hi), bind_ok. cbn zeta.
  destruct (decide (b_ref b < nf)%Z) as [Hlt|Hge].
  - rewrite (bool_decide_true (b_ref b <= nf)%Z) by lia.
    rewrite (bool_decide_false (nf = b_ref b)) by lia.
    by rewrite (bool_decide_true (b_ref b < nf)%Z) by lia.
  - rewrite (bool_decide_false (b_ref b < nf)%Z) by lia. simpl.
    destruct (decide (nf = b_ref b)) as [He|Hne].
    + destruct (Hm He) as [ob Hob]. rewrite (bool_decide_true (b_ref b <= nf)%Z) by lia.
      rewrite (bool_decide_true (nf = b_ref b)) by done. rewrite (mapat_ok _ _ _ Hob), bind_ok, Hi, Hob.
      simpl. destruct (Z.lt_trichotomy oi ob) as [Ho|[Ho|Ho]].
      * rewrite (bool_decide_true (oi <= ob)%Z), (bool_decide_false (oi = ob)),
          (bool_decide_true (oi < ob)%Z) by lia. done.
      * rewrite (bool_decide_true (oi <= ob)%Z), (bool_decide_true (oi = ob)),
          (bool_decide_false (oi < ob)%Z) by lia. simpl. by destruct (_ && _).
      * rewrite (bool_decide_false (oi <= ob)%Z), (bool_decide_false (oi = ob)),
          (bool_decide_false (oi < ob)%Z) by lia. done.
    + rewrite (bool_decide_false (b_ref b <= nf)%Z) by lia.
      by rewrite (bool_decide_false (nf = b_ref b)) by done.
Qed.

(** What is known about the current best after some candidates. *)
Record best_inv (k : ar_kind) dn cc (cs : list nat) b : Prop := {
  bi_in : b_arg b ∈ cs;
  bi_argmax : b_argmax b = b_arg b;
  bi_faces : b_faces b = Z.of_nat (size (shared g (b_arg b) cc));
  bi_fpos : (0 < b_faces b <= b_ref b)%Z;
  bi_feats : feat_inv dimc k (b_feats b) ({[b_arg b]} ∪ cc);
}.

Lemma best_take k dn cc pre b i nf ar ft own :
  (pre = [] ∧ b_ref b = 0%Z ∨ best_inv k dn cc pre b) →
  own = Z.of_nat (size (shared g i cc)) → (0 < own <= nf)%Z →
  feat_inv dimc k ft ({[i]} ∪ cc) → (∀ x, x ∈ pre ++ [i] → is_Some (dn !! x)) →
  wp (best_step dn b i nf ar ft own) (best_inv k dn cc (pre ++ [i])).
Proof.
  intros Hb Hown Hnf Hft Hdn.
  rewrite best_step_ok.
  - simpl. destruct (preferred dn b i nf ar) eqn:Hp.
    + split; simpl; try done; set_solver.
    + destruct Hb as [[-> Href]|[H1 H2 H3 H4]].
      * exfalso. unfold preferred in Hp. rewrite (bool_decide_true (b_ref b < nf)%Z) in Hp by lia. done.
      * split; try done. set_solver.
  - apply Hdn. set_solver.
  - intros He. destruct Hb as [[-> Href]|[H1 H2 H3 H4]]; [lia|].
    rewrite H2. apply Hdn. set_solver.
Qed.

Notation cand_ok h cc := (∀ x, x ∈ nb_cand h → border g D cc x).

Lemma features_of_border k i f cc :
  border g D cc i → (∀ x, x ∈ cc → x < g_n g) → feat_inv dimc k f cc →
  wp (compute_features k g i f cc) (λ r,
    r.1.1 = Z.of_nat (size (shared g i cc)) ∧ (0 < r.1.1)%Z ∧
    feat_inv dimc k r.2 ({[i]} ∪ cc)).
Proof.
  intros (HiD & Hicc & y & Hy & Hadj) Hcc Hf. pose proof (HD _ HiD) as Hi.
  eapply wp_mono.
  { apply (compute_features_ok g WF dimc); try done; apply WD. }
  intros r [H1 H2]. split_and!; [done| |done]. rewrite H1.
  assert (0 < size (shared g i cc)); [|lia]. apply (proj2 (shared_pos g i cc)). exists y. split_and!; [|by intros ->|done].
  by apply adj_sym.
Qed.

Lemma best_biconnected_ok k h dn f cc arg out :
  nb_cand h ≠ [] → cand_ok h cc → (∀ x, x ∈ cc → x < g_n g) → feat_inv dimc k f cc →
  (∀ x, x ∈ D → x ∉ cc → is_Some (dn !! x)) →
  wp (best_biconnected k g h dn f cc arg 0%Z out) (best_inv k dn cc (nb_cand h)).
Proof.
  intros Hne Hc Hcc Hf Hdn. unfold best_biconnected.
  destruct (nb_cand h) as [|c0 cs] eqn:Hcs; [done|]. clear Hne.
  wstep. apply wp_vget; [simpl; lia|]. intros c0' _.
  eapply wp_mono.
  { apply (wp_foldM _ (λ (pre : list nat) b, pre = [] ∧ b_ref b = 0%Z ∨ best_inv k dn cc pre b)).
    { by left. }
    intros pre i post b Heq Hb. assert (i ∈ c0 :: cs) as Hi by (rewrite Heq; set_solver).
    wstep. eapply wp_mono; [apply features_of_border; auto|]. intros [[nf ar] ft] (H1 & H2 & H3). simpl in *.
    eapply wp_mono; [apply (best_take k dn cc pre)|by right]; [done|done|lia|done|].
    intros x Hx. assert (x ∈ c0 :: cs) as Hx' by (rewrite Heq; set_solver).
    destruct (Hc _ Hx') as (? & ? & _). auto. }
  intros b [[? _]|?]; done.
Qed.

Lemma best_iterative_ok n k h dn f cc arg out dim :
  cand_ok h cc → nb_inv g prio dim h → nb_allowed h = D → nb_fc h = cc →
  (∀ x, x ∈ cc → x < g_n g) → feat_inv dimc k f cc →
  (∀ x, x ∈ D → x ∉ cc → is_Some (dn !! x)) →
  wp (best_iterative n k g prio h dn f cc arg 0%Z out) (λ b,
    nb_cand h = [] ∧ b_faces b = 0%Z ∨ best_inv k dn cc (nb_cand h) b).
Proof.
  revert h f cc arg out. induction n as [|n IH]; intros h f cc arg out Hc HI Hal Hfc Hcc Hf Hdn;
    simpl; (eapply wp_mono; [apply (wp_foldM _ (λ (pre : list nat) b,
      pre = [] ∧ b_ref b = 0%Z ∧ b_faces b = 0%Z ∨ best_inv k dn cc pre b)); [by left|];
    intros pre i post b Heq Hb; assert (i ∈ nb_cand h) as Hi by (rewrite Heq; set_solver);
    wstep; (eapply wp_mono; [apply features_of_border; auto|]); intros [[nf ar] ft] (H1 & H2 & H3); simpl in *;
    destruct (Hc _ Hi) as (HiD & Hicc & _); pose proof (HD _ HiD) as Hin;
    rewrite (nbrs_ok g WF) by done; rewrite bind_ok;
    wstep; (eapply wp_mono; [apply (nbh_update_ok g prio WF); [apply WD|apply WD|done|done]|]);
    intros h' (HI' & Hal' & Hfc' & Hfr' & _)|
    intros b [(? & ? & ?)|?]; [left; split; done|by right]]).
  - simpl. eapply wp_mono; [apply (best_take k dn cc pre)|by right]; [naive_solver|done|lia|done|].
    intros x Hx. assert (x ∈ nb_cand h) as Hx' by (rewrite Heq; set_solver).
    destruct (Hc _ Hx') as (? & ? & _). auto.
  - rewrite bind_assoc. wstep. eapply wp_mono.
    { apply (IH h' ft ({[i]} ∪ cc)).
      - intros x Hx. rewrite <- Hfc, <- Hfc', <- Hal, <- Hal'. by apply (ni_cand _ _ _ _ HI').
      - done.
      - congruence.
      - congruence.
      - set_solver.
      - done.
      - set_solver. }
    intros r Hr. cbn zeta. rewrite bind_ok.
    assert (0 <= b_faces r)%Z as Hr0.
    { destruct Hr as [[_ Hr]|Hr]; [lia|]. pose proof (bi_fpos _ _ _ _ _ Hr). lia. }
    assert (∀ nf' ar', (nf <= nf')%Z → wp (best_step dn b i nf' ar' ft nf) (best_inv k dn cc (pre ++ [i]))) as Hst.
    { intros nf' ar' Hnf. apply (best_take k dn cc pre); [naive_solver|done|lia|done|].
      intros x Hx. assert (x ∈ nb_cand h) as Hx' by (rewrite Heq; set_solver).
      destruct (Hc _ Hx') as (? & ? & _). auto. }
    case_bool_decide; [eapply wp_mono; [apply Hst; lia|by right]|].
    destruct (_ && _); (eapply wp_mono; [apply Hst; lia|by right]).
Qed.

Lemma compute_best_ok ip h dn f cc n dim :
  nb_cand h ≠ [] → nb_inv g prio dim h → nb_allowed h = D → nb_fc h = cc →
  (∀ x, x ∈ cc → x < g_n g) → feat_inv dimc (ip_ar ip) f cc →
  (∀ x, x ∈ D → x ∉ cc → is_Some (dn !! x)) →
  wp (compute_best ip g prio h dn f cc n) (best_inv (ip_ar ip) dn cc (nb_cand h)).
Proof.
  intros Hne HI Hal Hfc Hcc Hf Hdn. unfold compute_best.
  assert (cand_ok h cc) as Hc.
  { intros x Hx. rewrite <- Hfc, <- Hal. by apply (ni_cand _ _ _ _ HI). }
  destruct (ip_it ip).
  - eapply wp_mono; [by eapply best_iterative_ok|]. intros b [[? _]|?]; done.
  - by apply best_biconnected_ok.
Qed.

End best.
