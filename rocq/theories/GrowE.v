(** * GrowE: example and counter-example for C40 *)

From Coq Require Import QArith Qcanon.
From Verif Require Import Inst SpecSub SpecFeat SpecBest SpecGrow SpecPool FeatU GraphP FeatE BestT BestE SearchT ApiE GrowR.
#[local] Open Scope Z_scope.
#[local] Open Scope nat_scope.
#[local] Existing Instance qarith | 100.
#[local] Existing Instance ord_id | 100.

Definition simple_check (n : nat) (row col : list nat) : bool :=
  forallb (λ x, bool_decide (NoDup (nb_list row col x)) && bool_decide (x ∉ nb_list row col x)) (seq 0 n).
Lemma simple_check_ok n row col : csr n row col → simple_check n row col = true → simple_csr row col.
Proof.
  intros HC Hs x. destruct (decide (x < n)) as [Hx|Hx].
  - unfold simple_check in Hs. rewrite forallb_forall in Hs. specialize (Hs x). rewrite andb_true_iff, !bool_decide_eq_true in Hs.
    destruct Hs as [H1 H2]; [apply elem_of_list_In, elem_of_seq; lia|]. split; [done|]. intros He. by apply elem_of_nbl in He.
  - assert (nb_list row col x = []) as Hn.
    { unfold nb_list. rewrite (lookup_ge_None_2 row (S x)); [by destruct (_ !! x)|]. rewrite (csr_len _ _ _ HC). lia. }
    split; [rewrite Hn; constructor|]. intros He. apply elem_of_nbl in He.
    change (x ∈ nb_list row col x) in He. rewrite Hn in He. by apply elem_of_nil in He.
Qed.
Lemma good_simple i o : good_call i o → simple_check (in_n i) (in_row i) (in_col i) = true →
  simple_csr (in_row i) (in_col i).
Proof. intros HG. apply simple_check_ok, HG. Qed.

(** The 3 x 3 grid without correction. *)
Definition grid9_nc : input := mk_input grid9 grid9_bnd 0 false 2 4 4 1.
Lemma C40_ex : good_call grid9_nc o0 ∧ in_corr grid9_nc = false ∧
  simple_csr (in_row grid9_nc) (in_col grid9_nc) ∧ weak_order (@wlt qarith) (λ _, True) ∧
  agglomerate_one_level grid9_nc o0 = (Outs [0;0;1;0;0;1;2;2;2] [] [], Ok ()) ∧
  ¬ aniso_id grid9_nc o0 (Outs [0;0;1;0;0;1;2;2;2] [] []) 0.
Proof.
  assert (good_call grid9_nc o0) as HG by (apply good_off; [done|vm_compute; reflexivity]).
  split; [done|]. split; [done|]. split; [apply (good_simple _ _ HG); vm_compute; reflexivity|].
  split; [apply q_weak_order|]. split; [vm_compute; reflexivity|]. intros [_ Hc]. by apply elem_of_nil in Hc.
Qed.

(** A strip of four cells with three faces each: the coarse cell 0-1-2 is kept
    (the goal is 3), though 0-1 is as compact and has fewer external faces. *)
Definition strip4 : input := mk_input [[1];[0;2];[1;3];[2]] [2;1;1;2]%Z 0 false 2 3 4 1.
Definition strip4_r : outs := Outs [0;0;0;1] [] [].
Definition strip4_ip : iso_params := run_res (IsoP 0 0 0 0 OverMeasure false 0 false) (iso_params_of strip4).
Definition strip4_X : gset nat := list_to_set [0; 1; 2].

Lemma two_cells (Y : gset nat) (c : Z) :
  Y ∈ ([list_to_set [0; 1]; list_to_set [1; 0]; list_to_set [1; 2]; list_to_set [2; 1]; list_to_set [2; 3]] : list (gset nat)) →
  compactness (in_row strip4) (in_col strip4) Y c → c = 1%Z.
Proof.
  intros HY HC.
  assert (∀ Z0 : gset nat, Forall (λ x, Z.of_nat (length (filter (λ y, y ∈ Z0) (nb_list (in_row strip4) (in_col strip4) x))) = 1%Z) (elements Z0) →
    1 < size Z0 → compactness (in_row strip4) (in_col strip4) Z0 c → c = 1%Z) as Hgen.
  { clear. intros Y HF Hs HC. unfold compactness in HC. cbn zeta in HC. rewrite decide_True in HC by done.
    destruct HC as [(x & Hx & <-) _]. rewrite Forall_forall in HF. apply HF. by apply elem_of_elements. }
  rewrite !elem_of_cons, elem_of_nil in HY.
  destruct HY as [-> |[-> |[-> |[-> |[-> |[]]]]]]; (eapply Hgen; [| |exact HC]; [|vm_compute; lia]);
    apply (bool_decide_unpack _); vm_compute; exact I.
Qed.

Lemma C40_ref : ∃ i o r ip (X : gset nat), good_call i o ∧ in_corr i = false ∧
  simple_csr (in_row i) (in_col i) ∧ weak_order (@wlt qarith) (λ _, True) ∧
  agglomerate_one_level i o = (r, Ok ()) ∧
  ip_dim ip = in_dim i ∧ ip_min ip = in_min i ∧ ip_goal ip = in_goal i ∧ ip_max ip = in_max i ∧
  ar_kinds (bool_decide (in_dim i = 2%Z)) !! Z.to_nat (in_ar i) = Some (ip_ar ip) ∧ ip_front ip = negb (bool_decide (in_nbh i = 0%Z)) ∧
  ip_iter ip = in_iter i ∧ ip_it ip = bool_decide (1 < in_iter i)%Z ∧
  ¬ aniso_id i o r 0 ∧ (∀ x, x ∈ X ↔ o_fc2cc r !! x = Some 0) ∧
  ∀ seed, ¬ grown_from ip (graph_of i) (in_prio i) (compactness (in_row i) (in_col i))
    (external_faces (in_row i) (in_col i) (fixed_bnd i))
    (λ x, ∃ c', o_fc2cc r !! x = Some c' ∧ 0 ≤ c') seed X.
Proof.
  assert (good_call strip4 o0) as HG by (apply good_off; [done|vm_compute; reflexivity]).
  exists strip4, o0, strip4_r, strip4_ip, strip4_X. split; [done|]. split; [done|].
  split; [apply (good_simple _ _ HG); vm_compute; reflexivity|]. split; [apply q_weak_order|].
  do 9 (split; [vm_compute; reflexivity|]).
  split; [intros [_ Hc]; by apply elem_of_nil in Hc|]. split.
  { intros x. unfold strip4_X. rewrite elem_of_list_to_set, !elem_of_cons, elem_of_nil. split.
    - intros [-> |[-> |[-> |[]]]]; reflexivity.
    - do 4 (destruct x as [|x]; [cbn; auto; congruence|]). done. }
  intros seed [_ (K & dn & _ & Hc)]. cbn zeta in Hc.
  assert (size strip4_X = 3) as HszX by (vm_compute; reflexivity).
  case_bool_decide as Hav.
  { change (ip_goal strip4_ip) with 3%Z in Hav. rewrite Hc in HszX.
    pose proof (size_union_alt ({[seed]} : gset nat) (dom dn)) as Hs. rewrite size_singleton in Hs.
    assert (size ((dom dn : gset nat) ∖ {[seed]}) ≤ size (dom dn : gset nat)) by (apply subseteq_size; set_solver).
    rewrite size_dom in *. lia. }
  destruct Hc as (l & C & k & Hnd & Hlen & Hstep & HC & [[Hadm Hopt] _] & HX).
  change (ip_goal strip4_ip) with 3%Z in *. change (ip_max strip4_ip) with 4%Z in *. change (ip_min strip4_ip) with 2%Z in *.
  destruct l as [|c [|d l]]; cbn [length] in Hlen; [lia..|].
  assert (k = 3) as ->.
  { unfold admissible in Hadm. rewrite HX, size_list_to_set in HszX by (rewrite <- (take_drop k (seed :: c :: d :: l)), NoDup_app in Hnd; apply Hnd). rewrite take_length in HszX.
    cbn [length] in *. lia. }
  assert (admissible 2 (Z.of_nat (1 + length (c :: d :: l))) 2) as Hadm2 by (unfold admissible; cbn [length]; lia).
  assert (seed ∈ strip4_X) as Hseed by (rewrite HX; cbn; set_solver).
  assert (edge (in_row strip4) (in_col strip4) seed c) as He.
  { pose proof (Hstep 0 c eq_refl) as (f & h & ar & look & _ & Hh & _ & Hb). cbn [take] in Hh.
    assert (seed < 4) as Hs4. { unfold strip4_X in Hseed. rewrite elem_of_list_to_set, !elem_of_cons, elem_of_nil in Hseed. lia. }
    destruct (C29_lem (graph_of strip4) (in_prio strip4) (dom dn) (if ip_front strip4_ip then Some (ip_dim strip4_ip) else None) [seed])
      as (h' & Hh' & _ & Hbd & _).
    - apply (wf_csr _ (gc_mesh _ _ HG)).
    - apply (wf_sym _ (gc_mesh _ _ HG)).
    - apply (wf_val _ (gc_mesh _ _ HG)).
    - apply (wf_prio _ (gc_mesh _ _ HG)).
    - apply (wf_prio_ord _ (gc_mesh _ _ HG)).
    - intros d' Hd'. vm_compute in Hd'. discriminate Hd'.
    - intros x Hx. apply elem_of_list_singleton in Hx as ->. exact Hs4.
    - rewrite Hh' in Hh. injection Hh as <-.
      assert (c ∈ nb_cand h') as Hc. { destruct Hb as (pre & post & Hp & _). rewrite Hp. set_solver. }
      apply Hbd in Hc as (_ & _ & y & Hy & He). apply elem_of_list_singleton in Hy as ->. exact He. }
  assert ((seed, c) ∈ [(0, 1); (1, 0); (1, 2); (2, 1); (2, 3)]) as Hsc.
  { apply elem_of_nbl in He. change (c ∈ nb_list (in_row strip4) (in_col strip4) seed) in He.
    unfold strip4_X in Hseed. rewrite elem_of_list_to_set, !elem_of_cons, elem_of_nil in Hseed.
    assert (∀ s c, c ∈ nb_list (in_row strip4) (in_col strip4) s →
      Forall (λ c, (s, c) ∈ [(0, 1); (1, 0); (1, 2); (2, 1); (2, 3)]) (nb_list (in_row strip4) (in_col strip4) s) →
      (s, c) ∈ [(0, 1); (1, 0); (1, 2); (2, 1); (2, 3)]) as Hgen.
    { clear. intros s c Hc HF. rewrite Forall_forall in HF. by apply HF. }
    destruct Hseed as [-> |[-> |[-> |[]]]]; (apply (Hgen _ _ He); apply (bool_decide_unpack _); vm_compute; exact I). }
  assert (list_to_set (take 2 (seed :: c :: d :: l)) ∈ ([list_to_set [0; 1]; list_to_set [1; 0]; list_to_set [1; 2];
    list_to_set [2; 1]; list_to_set [2; 3]] : list (gset nat))) as HY.
  { rewrite !elem_of_cons, elem_of_nil in Hsc. cbn [take].
    destruct Hsc as [[= -> ->]|[[= -> ->]|[[= -> ->]|[[= -> ->]|[[= -> ->]|[]]]]]]; rewrite !elem_of_cons; tauto. }
  pose proof (two_cells _ _ HY (HC 2 Hadm2)) as HC2. pose proof (HC 3 Hadm) as HC3. rewrite <- HX in HC3.
  assert (C 3%nat <= 1)%Z as HC3'.
  { unfold compactness in HC3. cbn zeta in HC3. rewrite decide_True in HC3 by (vm_compute; lia).
    destruct HC3 as [_ HC3]. specialize (HC3 0). assert (0 ∈ strip4_X) as H0 by (apply (bool_decide_unpack _); vm_compute; exact I).
    specialize (HC3 H0). etransitivity; [exact HC3|]. vm_compute. discriminate. }
  assert (external_faces (in_row strip4) (in_col strip4) (fixed_bnd strip4) (list_to_set (take 2 (seed :: c :: d :: l))) = 4%Z) as HE2.
  { rewrite !elem_of_cons, elem_of_nil in HY. destruct HY as [-> |[-> |[-> |[-> |[-> |[]]]]]]; vm_compute; reflexivity. }
  destruct (Hopt 2 Hadm2) as [Hlt|[_ Hle]]; [lia|]. rewrite HE2, <- HX in Hle. vm_compute in Hle. by apply Hle.
Qed.
