(** * GeoT: two runs on meshes which differ by their geometry (C55, C56) *)

From Verif Require Import Lib Spec Main SpecFeat SpecAR SpecGeo UseT.

Definition regeom {A : Arith} (g : graph) (val vol : list W) (cen : list (list W)) : graph :=
  Graph _ (g_n g) (g_row g) (g_col g) val vol cen (g_bnd g) (g_compl g) (g_2d g).

(** ** What does not use the geometry *)
Section indep.
Context {A : Arith} {H : HashOrder}.
Context (g : graph) (val' vol' : list W) (cen' : list (list W)).
Notation g' := (regeom g val' vol' cen').
Lemma nbh_loop_geom fuel aggl no mx : ∀ dn dm io, nbh_loop fuel g' aggl no mx dn dm io = nbh_loop fuel g aggl no mx dn dm io.
Proof.
  induction fuel as [|fuel IH]; intros dn dm io; simpl; [done|]. destruct (_ || _); [|done].
  change (next_layer (regeom g val' vol' cen')) with (next_layer g).
  destruct (next_layer g aggl _ dm io) as [d|]; simpl; [|done]. case_bool_decide; [done|]. apply IH.
Qed.
Lemma neighbourhood_geom s no mx aggl : compute_neighbourhood_of_cc g' s no mx aggl = compute_neighbourhood_of_cc g s no mx aggl.
Proof. unfold compute_neighbourhood_of_cc. cbn [g_n regeom]. by rewrite nbh_loop_geom. Qed.
Lemma loop_line_geom ap fuel : ∀ rest nc ct nb out, loop_line fuel ap g' rest nc ct nb out = loop_line fuel ap g rest nc ct nb out.
Proof.
  induction fuel as [|fuel IH]; intros rest nc ct nb out; [by destruct rest|]. destruct rest as [|x rest]; [done|]. simpl.
  change (nbrs (regeom g val' vol' cen')) with (nbrs g).
  destruct (over_limit ap _); [done|]. destruct rest as [|y rest]; [done|].
  destruct (nbrs g x) as [nx|]; simpl; [|done]. destruct (nbrs g y) as [ny|]; simpl; [|done].
  match goal with |- (if ?c then _ else _) = _ => destruct c end.
  - match goal with |- (r ← ?e; _) = _ => destruct e as [[[s nc'] nb']|] end; simpl; [|done].
    destruct (create_cc ct s _ _ _) as [ct'|]; simpl; [|done]. destruct rest; [done|]. apply IH.
  - destruct (create_cc ct _ _ _ _) as [ct'|]; simpl; [|done]. apply IH.
Qed.
Lemma aniso_agglomerate_geom ap prio lines ct p : aniso_agglomerate ap g' prio lines ct p = aniso_agglomerate ap g prio lines ct p.
Proof.
  unfold aniso_agglomerate. destruct lines as [|l lines]; [done|].
  rewrite (foldM_ext_eq (agglo_line ap g' prio) (agglo_line ap g prio)); [done|].
  intros [[ct' nb] out] x. unfold agglo_line. case_bool_decide; [done|].
  change (forward_line (regeom g val' vol' cen')) with (forward_line g).
  destruct (forward_line g prio x) as [f|]; simpl; [|done]. by rewrite loop_line_geom.
Qed.
Lemma correct_geom ct : correct g' ct = correct g ct.
Proof. reflexivity. Qed.
End indep.

Section two.
Context {A : Arith} {H : HashOrder}.
Context (g : graph) (val' vol' : list W) (cen' : list (list W)) (prio : list W) (ip : iso_params).
Notation g' := (regeom g val' vol' cen').
Notation k := (ip_ar ip).
(** How the features of a set of cells and the aspect ratios of its candidates
    are related. *)
Context (R : gset nat → feats → feats → Prop) (Q : gset nat → W → W → Prop).
(** What is known of the run. *)
Context (N : nbh → gset nat → Prop) (G : Z → nat → grow → Prop).
Definition dflt : Prop := ∀ X, R X feats_default feats_default.
Context (HQ : ∀ X a a' b b', Q X a a' → Q X b b' → wlt a' b' = wlt a b) (HQ0 : ∀ X, Q X w0 w0).
Context (HR : ∀ h X i f f', N h X → i ∈ nb_cand h → R X f f' →
  both (λ p q : Z * W * feats, p.1.1 = q.1.1 ∧ Q X p.1.2 q.1.2 ∧ R ({[i]} ∪ X) p.2 q.2 ∧ (dflt ∨ (0 < p.1.1)%Z))
    (compute_features k g i f X) (compute_features k g' i f' X)).
Context (HN : ∀ h X i l h', N h X → i ∈ nb_cand h → nbrs g i = Ok l → nbh_update prio h i l = Ok h' → N h' ({[i]} ∪ X)).
Context (HG : ∀ mi n s l h, G mi (S n) s → nbrs g (gw_next s) = Ok l → nbh_update prio (gw_h s) (gw_next s) l = Ok h →
  N h (gw_cc s) ∧ (nb_cand h = [] → dflt)).
Context (HGS : ∀ mi n s s', G mi (S n) s → grow_step ip g prio mi s = Ok s' → G mi n s').
Context (HS : ∀ s, both (R {[s]}) (feats_of_cell g s) (feats_of_cell g' s)).

Record rbest (X : gset nat) (b b' : best) : Prop := {
  rb_arg : b_arg b' = b_arg b;
  rb_faces : b_faces b' = b_faces b;
  rb_argmax : b_argmax b' = b_argmax b;
  rb_ref : b_ref b' = b_ref b;
  rb_pos : (0 <= b_ref b)%Z;
  rb_ar : b_ref b = 0%Z ∨ Q X (b_ar b) (b_ar b');
  rb_ft : R ({[b_arg b]} ∪ X) (b_feats b) (b_feats b') ∨
    b_ref b = 0%Z ∧ b_feats b = feats_default ∧ b_feats b' = feats_default;
}.
Lemma best_step_two X dn b b' i nf ar ar' ft ft' own : rbest X b b' → Q X ar ar' → R ({[i]} ∪ X) ft ft' →
  both (λ c c', rbest X c c' ∧ (nf <= b_ref c)%Z ∧ (b_ref b <= b_ref c)%Z)
    (best_step dn b i nf ar ft own) (best_step dn b' i nf ar' ft' own).
Proof using HQ.
  intros Hb Ha Hf. pose proof Hb as [E1 E2 E3 E4 Hp Har Hft]. unfold best_step. rewrite E3, E4.
  destruct (mapat dn i) as [o|]; simpl; [|constructor].
  assert ((b_ref b <= nf)%Z → let c := Best i own ft ar i nf in let c' := Best i own ft' ar' i nf in
    rbest X c c' ∧ (nf <= b_ref c)%Z ∧ (b_ref b <= b_ref c)%Z) as Ht.
  { intros Hle. simpl. split; [|lia]. split; simpl; try done; [lia|by right|by left]. }
  destruct (bool_decide (b_ref b <= nf)%Z) eqn:Hle.
  2:{ apply bool_decide_eq_false in Hle. constructor. split; [done|lia]. }
  apply bool_decide_eq_true in Hle. specialize (Ht Hle).
  destruct (bool_decide (nf = b_ref b)) eqn:He; [|by constructor]. apply bool_decide_eq_true in He.
  assert (rbest X b b' ∧ (nf <= b_ref b)%Z ∧ (b_ref b <= b_ref b)%Z) as Hk by (split; [done|lia]).
  destruct (mapat dn (b_argmax b)) as [o'|]; simpl; [|constructor].
  destruct (bool_decide (o <= o')%Z); [|by constructor]. destruct (bool_decide (o = o')); [|by constructor].
  assert (wlt ar' (b_ar b') && bool_decide (0 < nf)%Z = wlt ar (b_ar b) && bool_decide (0 < nf)%Z) as ->.
  { destruct Har as [H0|Har]; [|by rewrite (HQ X ar ar' (b_ar b) (b_ar b')) by done].
    rewrite (bool_decide_false (0 < nf)%Z) by lia. by rewrite !andb_false_r. }
  destruct (wlt ar (b_ar b) && _); by constructor.
Qed.
Definition rbest' (X : gset nat) (b b' : best) : Prop := rbest X b b' ∧ (dflt ∨ (0 < b_ref b)%Z).
Lemma best_fold X (F F' : best → nat → res best) l c0 :
  (∀ b b' i, i ∈ l → rbest X b b' → both (rbest' X) (F b i) (F' b' i)) →
  both (λ b b', rbest X b b' ∧ (l = [] ∨ dflt ∨ (0 < b_ref b)%Z))
    (foldM F l (Best 0 0 feats_default wmaxv c0 0)) (foldM F' l (Best 0 0 feats_default wmaxv c0 0)).
Proof.
  intros HF. assert (rbest X (Best 0 0 feats_default wmaxv c0 0) (Best 0 0 feats_default wmaxv c0 0)) as H0.
  { split; simpl; try done; [by left|by right]. }
  destruct l as [|i l]; simpl; [constructor; split; [done|by left]|].
  eapply both_bind; [by apply HF; [left|]|]. intros b b' Hb.
  assert (both (rbest' X) (foldM F l b) (foldM F' l b')) as HB.
  { apply both_foldM; [done|]. intros c c' j Hj [Hc _]. apply HF; [by right|done]. }
  destruct HB as [c c' [Hc Hd]|]; constructor. auto.
Qed.
Lemma best_biconnected_two h X dn f f' : N h X → R X f f' →
  both (λ b b', rbest X b b' ∧ (nb_cand h = [] ∨ dflt ∨ (0 < b_ref b)%Z))
    (best_biconnected k g h dn f X 0 0 feats_default) (best_biconnected k g' h dn f' X 0 0 feats_default).
Proof using HQ HR.
  intros HNh Hf. unfold best_biconnected. destruct (vget (nb_cand h) 0) as [c0|] eqn:Hc; simpl; [|constructor].
  apply best_fold. intros b b' i Hi Hb. eapply both_bind; [by eapply HR|].
  intros [[nf ar] ft] [[nf' ar'] ft'] (E & Ha & Hft & Hp). simpl in *. subst nf'.
  destruct (best_step_two X dn b b' i nf ar ar' ft ft' nf Hb Ha Hft) as [c c' (Hcc & Hn & _)|]; constructor.
  split; [done|]. destruct Hp; [by left|right; lia].
Qed.
Lemma best_iterative_two n : ∀ h X dn f f', N h X → R X f f' →
  both (λ b b', rbest X b b' ∧ (nb_cand h = [] ∨ dflt ∨ (0 < b_ref b)%Z))
    (best_iterative n k g prio h dn f X 0 0 feats_default) (best_iterative n k g' prio h dn f' X 0 0 feats_default).
Proof using HQ HQ0 HR HN.
  induction n as [|n IH]; intros h X dn f f' HNh Hf; simpl; apply best_fold; intros b b' i Hi Hb;
    (eapply both_bind; [by eapply HR|]); intros [[nf ar] ft] [[nf' ar'] ft'] (E & Ha & Hft & Hp); simpl in *; subst nf';
    change (nbrs (regeom g val' vol' cen') i) with (nbrs g i);
    (destruct (nbrs g i) as [l|] eqn:Hl; simpl; [|constructor]);
    (destruct (nbh_update prio h i l) as [h1|] eqn:Hh; simpl; [|constructor]).
  - destruct (best_step_two X dn b b' i nf ar ar' ft ft' nf Hb Ha Hft) as [c c' (Hcc & Hn & _)|]; constructor.
    split; [done|]. destruct Hp; [by left|right; lia].
  - assert (N h1 ({[i]} ∪ X)) as HN1 by by eapply HN.
    destruct (IH h1 ({[i]} ∪ X) dn ft ft' HN1 Hft) as [r r' [Hr _]|]; simpl; [|constructor].
    rewrite (rb_faces _ _ _ Hr). rewrite (HQ X w0 w0 ar ar') by (try apply HQ0; done).
    set (m := b_faces r).
    assert (∃ nf1 a1 a1', (if bool_decide (nf < m)%Z then (m, ar) else if bool_decide (m = nf) && wlt w0 ar then (nf, w0) else (nf, ar)) = (nf1, a1) ∧
      (if bool_decide (nf < m)%Z then (m, ar') else if bool_decide (m = nf) && wlt w0 ar then (nf, w0) else (nf, ar')) = (nf1, a1') ∧
      Q X a1 a1' ∧ (nf <= nf1)%Z) as (nf1 & a1 & a1' & -> & -> & Hq & Hge).
    { case_bool_decide; [do 3 eexists; split_and!; [done..|lia]|].
      destruct (bool_decide (m = nf) && wlt w0 ar); do 3 eexists; split_and!; (done || apply HQ0). }
    destruct (best_step_two X dn b b' i nf1 a1 a1' ft ft' nf Hb Hq Hft) as [c c' (Hcc & Hn & _)|]; constructor.
    split; [done|]. destruct Hp; [by left|right; lia].
Qed.
Lemma compute_best_two h X dn f f' fi : N h X → (nb_cand h = [] → dflt) → R X f f' →
  both (λ b b', b_arg b' = b_arg b ∧ b_faces b' = b_faces b ∧ R ({[b_arg b]} ∪ X) (b_feats b) (b_feats b'))
    (compute_best ip g prio h dn f X fi) (compute_best ip g' prio h dn f' X fi).
Proof using HQ HQ0 HR HN.
  intros HNh He Hf. unfold compute_best.
  assert (both (λ b b', rbest X b b' ∧ (nb_cand h = [] ∨ dflt ∨ (0 < b_ref b)%Z))
    (if ip_it ip then best_iterative (Z.to_nat (fi - 1)) k g prio h dn f X 0 0 feats_default
     else best_biconnected k g h dn f X 0 0 feats_default)
    (if ip_it ip then best_iterative (Z.to_nat (fi - 1)) k g' prio h dn f' X 0 0 feats_default
     else best_biconnected k g' h dn f' X 0 0 feats_default)) as HB.
  { destruct (ip_it ip); [by apply best_iterative_two|by apply best_biconnected_two]. }
  destruct HB as [b b' [[? ? ? ? ? ? Hft] Hd]|]; constructor. split_and!; [done..|].
  destruct Hft as [?|(H0 & -> & ->)]; [done|]. assert (dflt) as Hdf by (destruct Hd as [?|[?|?]]; [auto|done|lia]). apply Hdf.
Qed.

Definition rgrow2 (s s' : grow) : Prop :=
  gw_h s = gw_h s' ∧ gw_next s = gw_next s' ∧ gw_size s = gw_size s' ∧ gw_cc s = gw_cc s' ∧ R (gw_cc s) (gw_ft s) (gw_ft s') ∧
  gw_dn s = gw_dn s' ∧ gw_ext s = gw_ext s' ∧ gw_cpt s = gw_cpt s' ∧ gw_maxc s = gw_maxc s' ∧ gw_minext s = gw_minext s' ∧
  gw_arg s = gw_arg s' ∧ gw_dict s = gw_dict s'.
Lemma grow_step_two mi n s s' : G mi (S n) s → rgrow2 s s' → both rgrow2 (grow_step ip g prio mi s) (grow_step ip g' prio mi s').
Proof using HQ HQ0 HR HN HG.
  intros Hs. pose proof (HG mi n s) as HGs. clear HG. specialize (λ l h, HGs l h Hs). revert HGs. clear Hs.
  destruct s as [h nx sz cc ft dn ext cpt mxc mne arg dict], s' as [h' nx' sz' cc' ft' dn' ext' cpt' mxc' mne' arg' dict'].
  unfold rgrow2. simpl. intros HGs (<- & <- & <- & <- & Hft & <- & <- & <- & <- & <- & <- & <-). unfold grow_step. simpl.
  change (nbrs (regeom g val' vol' cen')) with (nbrs g). change (nb_nbrs (regeom g val' vol' cen')) with (nb_nbrs g).
  change (n_bnd (regeom g val' vol' cen')) with (n_bnd g).
  destruct (nbrs g nx) as [l|] eqn:Hl; simpl; [|constructor].
  destruct (nbh_update prio h nx l) as [h1|] eqn:Hh; simpl; [|constructor].
  destruct (HGs l h1 eq_refl Hh) as [HNh He].
  destruct (compute_best_two h1 cc dn ft ft' (Z.min (mi - Z.of_nat sz) (ip_iter ip)) HNh He Hft) as [b b' (E1 & E2 & HRb)|]; simpl; [|constructor].
  rewrite E1, E2.
  destruct (nb_nbrs g _) as [nn|]; simpl; [|constructor]. destruct (n_bnd g _) as [nb|]; simpl; [|constructor].
  destruct (nbrs g (b_arg b)) as [lc|]; simpl; [|constructor]. destruct (map_min _) as [cur|]; simpl; [|constructor].
  destruct (if bool_decide (ip_min ip <= _)%Z || _ then _ else _) as [[? ?] ?].
  constructor. unfold rgrow2. simpl. tauto.
Qed.
Lemma grow_loop_two mi n : ∀ s s', G mi n s → rgrow2 s s' → both rgrow2 (grow_loop n ip g prio mi s) (grow_loop n ip g' prio mi s').
Proof using HQ HQ0 HR HN HG HGS.
  induction n as [|n IH]; intros s s' HGs Hs; simpl; [by constructor|].
  pose proof (grow_step_two mi n s s' HGs Hs) as HB.
  destruct (grow_step ip g prio mi s) as [s1|] eqn:E; inversion HB as [? s2 H12|]; subst; simpl; [|constructor].
  apply IH; [by eapply HGS|done].
Qed.
Lemma choose_optimal_two ct p seed :
  (∀ dn z ft e, compute_neighbourhood_of_cc g {[seed]} (Z.max (min_neighbourhood ip) (ip_max ip `quot` ip_dim ip)) (ip_max ip) (ct_aggl ct) = Ok (dn, z) →
    dn ≠ ∅ → ¬ (Z.of_nat (size dn) + 1 < ip_goal ip)%Z → feats_of_cell g seed = Ok ft →
    let mi := Z.min (ip_max ip) (Z.of_nat (size dn) + 1) in
    G mi (Z.to_nat (mi - 1)) (Grow (nbh_create (dom dn) (if ip_front ip then Some (ip_dim ip) else None)) seed 1 {[seed]} ft dn e
        {[ seed := 0%Z ]} 0%Z int_max (ip_min ip) ∅)) →
  choose_optimal ip g' prio ct p seed = choose_optimal ip g prio ct p seed.
Proof using HQ HQ0 HR HN HG HGS HS.
  intros HI. unfold choose_optimal. destruct (massert _); simpl; [|done].
  rewrite neighbourhood_geom.
  destruct (compute_neighbourhood_of_cc _ _ _ _ _) as [[dn z]|]; simpl; [|done]. specialize (λ ft e, HI dn z ft e eq_refl).
  destruct (bool_decide (dn = ∅)) eqn:E1; [done|]. destruct (bool_decide (_ < ip_goal ip)%Z) eqn:E2; [done|].
  apply bool_decide_eq_false in E1, E2. specialize (λ ft e, HI ft e E1 E2).
  pose proof (HS seed) as HB. destruct (feats_of_cell g seed) as [ft|]; inversion HB as [? ft' Hft|]; subst; simpl; [|done].
  change (nb_nbrs (regeom g val' vol' cen')) with (nb_nbrs g). change (n_bnd (regeom g val' vol' cen')) with (n_bnd g).
  destruct (nb_nbrs g seed) as [nn|]; simpl; [|done]. destruct (n_bnd g seed) as [nb|]; simpl; [|done].
  specialize (HI ft (nn + nb - 1)%Z eq_refl). cbn zeta in HI.
  match goal with |- (x ← grow_loop ?n _ _ _ ?mi ?s; _) = (y ← grow_loop _ _ _ _ _ ?s'; _) =>
    destruct (grow_loop_two mi n s' s HI) as [s1 s2 Hs|] end.
  - unfold rgrow2. cbn [gw_h gw_next gw_size gw_cc gw_ft gw_dn gw_ext gw_cpt gw_maxc gw_minext gw_arg gw_dict].
    do 4 (split; [done|]). split; [done|]. do 6 (split; [done|]). done.
  - simpl. destruct Hs as (_ & _ & _ & _ & _ & <- & _ & _ & <- & _ & <- & <-). done.
  - done.
Qed.
End two.
