(** * IntP: the checks of [Machine] never fail on meshes of moderate size *)

From Verif Require Import Lib GraphP NbhP ContainerP IsoP CorrectP MainP ApiT Spec SpecInt Main Machine.

Lemma cint_ok z : fits z → cint z = Ok z.
Proof. intros Hz. unfold cint. by rewrite bool_decide_true. Qed.
Lemma bind_same {X Y} (a b : res X) (f h : X → res Y) :
  a = b → (∀ x, b = Ok x → f x = h x) → (x ← a; f x) = (x ← b; h x).
Proof. intros -> Hf. destruct b; simpl; [by apply Hf|done]. Qed.
Lemma bind_okp {X Y} (a b : res X) (f h : X → res Y) (Q : X → Prop) :
  a = b → okp b Q → (∀ x, Q x → f x = h x) → (x ← a; f x) = (x ← b; h x).
Proof. intros -> HQ Hf. destruct b; simpl in *; [by apply Hf|done]. Qed.
Lemma foldM_same {X Y} (I : list X → Y → Prop) (f h : Y → X → res Y) l b :
  I [] b → (∀ pre x post b, l = pre ++ x :: post → I pre b → f b x = h b x ∧ okp (h b x) (I (pre ++ [x]))) →
  foldM f l b = foldM h l b ∧ okp (foldM h l b) (I l).
Proof.
  intros H0 HI.
  assert (∀ pre post b, l = pre ++ post → I pre b → foldM f post b = foldM h post b ∧ okp (foldM h post b) (I l)) as HH.
  { intros pre post. revert pre. induction post as [|a post IH]; intros pre b' Hl Hb; simpl.
    - rewrite app_nil_r in Hl. by subst.
    - destruct (HI _ _ _ _ Hl Hb) as [-> Ho]. destruct (h b' a) as [b''|]; simpl; [|done].
      apply (IH (pre ++ [a])); [|done]. by rewrite <- app_assoc. }
  by apply (HH [] l b).
Qed.
Lemma foldM_same_inv {X Y} (I : Y → Prop) (f h : Y → X → res Y) l b :
  I b → (∀ x b, x ∈ l → I b → f b x = h b x ∧ okp (h b x) I) →
  foldM f l b = foldM h l b ∧ okp (foldM h l b) I.
Proof.
  intros H0 HI. apply (foldM_same (λ _, I)); [done|]. intros pre x post b' -> Hb. apply HI; [|done]. set_solver.
Qed.
Lemma foldM_same_run {X Y} (f h : Y → X → res Y) l b0 :
  (∀ pre x post b, l = pre ++ x :: post → foldM h pre b0 = Ok b → f b x = h b x) →
  foldM f l b0 = foldM h l b0.
Proof.
  intros HI. apply (foldM_same (λ pre b, foldM h pre b0 = Ok b)); [done|]. intros pre x post b Heq Hb.
  split; [by eapply HI|]. destruct (h b x) as [b'|] eqn:Hx; simpl; [|done]. rewrite foldM_app, Hb. simpl. by rewrite Hx.
Qed.

Section int.
Context {A : Arith} {H : HashOrder}.
Context (g : graph) (prio : list W) (WF : wfg g) (WD : wfd g prio).
Context (D : nat) (K : Z).
Context (HD : ∀ x, length (adj g x) ≤ D).
Context (Hn : (Z.of_nat (g_n g) + 3 <= big)%Z).
Context (HDD : (Z.of_nat D * Z.of_nat D <= big)%Z) (HK : (1 <= K)%Z) (HKD : (K * (2 * Z.of_nat D + 4) <= big)%Z).
Notation n := (g_n g).
Notation d := (Z.of_nat D).
Implicit Types (f : feats) (ip : iso_params) (ct : container).

Lemma HKD' : (2 * d + 4 <= big)%Z.
Proof. nia. Qed.
Ltac fit := unfold fits, int_min, int_max; unfold big in *; lia.

Lemma nbrs_len x l : nbrs g x = Ok l → l = adj g x ∧ x < n.
Proof.
  intros Hl. destruct (decide (x < n)) as [Hx|Hx]; [rewrite (nbrs_ok g WF) in Hl by done; by injection Hl|].
  exfalso. unfold nbrs in Hl. apply bind_Ok_inv in Hl as (a & Ha & Hl). apply bind_Ok_inv in Hl as (b & Hb & _).
  apply vget_inv in Hb. apply lookup_lt_Some in Hb. rewrite (csr_len _ _ _ (wg_csr _ WF)) in Hb. lia.
Qed.
Lemma nb_nbrs_val x k : nb_nbrs g x = Ok k → (0 <= k <= d)%Z.
Proof.
  intros Hk. destruct (decide (x < n)) as [Hx|Hx].
  - rewrite (nb_nbrs_ok g WF) in Hk by done. injection Hk as <-. specialize (HD x). lia.
  - exfalso. unfold nb_nbrs in Hk. apply bind_Ok_inv in Hk as (b & Hb & _).
    apply vget_inv in Hb. apply lookup_lt_Some in Hb. rewrite (csr_len _ _ _ (wg_csr _ WF)) in Hb. lia.
Qed.
Lemma n_bnd_val x b : n_bnd g x = Ok b → (0 <= b <= 3)%Z.
Proof. intros Hb. unfold n_bnd in Hb. apply vget_inv in Hb. by apply (wd_bnd_pos _ _ WD) in Hb. Qed.

Lemma nb_nbrs_same x : nb_nbrs_c g x = nb_nbrs g x.
Proof.
  unfold nb_nbrs_c. destruct (nb_nbrs g x) as [k|] eqn:Hk; simpl; [|done]. apply nb_nbrs_val in Hk.
  pose proof HKD'. apply cint_ok. fit.
Qed.
Lemma total_same x : total_n_faces_c g x = total_n_faces g x.
Proof.
  unfold total_n_faces_c, total_n_faces. rewrite nb_nbrs_same. destruct (n_bnd g x) as [b|] eqn:Hb; simpl; [|done].
  destruct (nb_nbrs g x) as [k|] eqn:Hk; simpl; [|done]. apply nb_nbrs_val in Hk. apply n_bnd_val in Hb.
  pose proof HKD'. apply cint_ok. fit.
Qed.
Lemma total_val x k : total_n_faces g x = Ok k → (0 <= k <= d + 3)%Z.
Proof.
  unfold total_n_faces. intros Hk. apply bind_Ok_inv in Hk as (b & Hb & Hk). apply bind_Ok_inv in Hk as (j & Hj & Hk).
  injection Hk as <-. apply nb_nbrs_val in Hj. apply n_bnd_val in Hb. lia.
Qed.
Lemma etw_same x : estimated_total_weight_c g x = estimated_total_weight g x.
Proof.
  unfold estimated_total_weight_c, estimated_total_weight, estimated_boundary_weight_c, estimated_boundary_weight.
  by rewrite nb_nbrs_same.
Qed.

(** ** Compactness *)
Lemma count_in_le s l : (0 <= count_in s l <= Z.of_nat (length l))%Z.
Proof. unfold count_in. pose proof (filter_length (λ x, x ∈ s) l). lia. Qed.
Lemma min_compactness_same s : min_compactness_c g s = min_compactness g s.
Proof.
  unfold min_compactness_c, min_compactness. case_bool_decide; [|done]. f_equal.
  unfold fc_compactness_c, fc_compactness. case_bool_decide; [done|]. case_bool_decide; [done|].
  apply foldM_ext. intros x m _. destruct (nbrs g x) as [l|] eqn:Hl; simpl; [|done].
  apply nbrs_len in Hl as [-> _]. rewrite cint_ok; [done|]. pose proof (count_in_le s (adj g x)). specialize (HD x).
  pose proof HKD'. fit.
Qed.

(** ** The features of a coarse cell of [s] cells *)
Definition fin (s : Z) f : Prop :=
  (0 <= f_nint f <= s * d)%Z ∧ ∀ k v, f_facets f !! k = Some v → (- d - s <= v <= d + 3)%Z.

Lemma shared_size x cc r : compute_shared_faces g x cc = Ok r → size r.2 ≤ D.
Proof.
  unfold compute_shared_faces. intros Hr. apply bind_Ok_inv in Hr as (l & Hl & Hr). injection Hr as <-.
  assert (length l ≤ D) as HL.
  { unfold nbrs_wgts in Hl. apply bind_Ok_inv in Hl as (a & Ha & Hl). apply bind_Ok_inv in Hl as (b & Hb & Hl).
    injection Hl as <-. rewrite zip_with_length. apply nbrs_len in Ha as [-> _]. specialize (HD x). lia. }
  clear Hl.
  assert (∀ l (w : W) (s : gset nat), size (foldl (λ '(sw, sf) '(n, w), if bool_decide (n ≠ x) && bool_decide (n ∈ cc)
    then (wadd sw w, {[n]} ∪ sf) else (sw, sf)) (w, s) l).2 ≤ size s + length l) as HH.
  { clear. induction l as [|[n v] l IH]; intros w s; simpl; [lia|].
    destruct (bool_decide (n ≠ x) && bool_decide (n ∈ cc)).
    - etransitivity; [apply IH|]. pose proof (size_union_le {[n]} s). rewrite size_singleton in *. lia.
    - etransitivity; [apply IH|]. lia. }
  etransitivity; [apply HH|]. rewrite size_empty. lia.
Qed.

Lemma update_basic_same s cw uf x f cc : fin s f → (0 <= s < K)%Z →
  update_basic_c cw uf g x f cc = update_basic cw uf g x f cc ∧
  okp (update_basic cw uf g x f cc) (λ r, (0 <= r.1 <= d)%Z ∧ fin (s + 1) r.2).
Proof.
  intros [Hi Hf] Hs. pose proof HKD' as HB. unfold update_basic_c, update_basic.
  destruct (vget (g_vol g) x); simpl; [|done].
  destruct (compute_shared_faces g x cc) as [[sw sf]|] eqn:Hsh; simpl; [|done]. apply shared_size in Hsh. simpl in Hsh.
  rewrite cint_ok by fit. simpl. rewrite cint_ok by (unfold fits, int_min, int_max; unfold big in *; nia). simpl.
  rewrite etw_same. destruct (if cw then _ else _); simpl; [|done].
  rewrite total_same.
  destruct uf; simpl.
  2:{ split; [done|]. split; [lia|]. split; simpl; [lia|]. intros k v Hv. by rewrite lookup_empty in Hv. }
  destruct (foldM_same (λ (pre : list nat) (m : gmap nat Z),
      ∀ k v, m !! k = Some v → (- d - s - (if decide (k ∈ pre) then 1 else 0) <= v <= d + 3)%Z)
      (λ m k, v ← mapat m k; v ← cint (v - 1)%Z; Ok (<[k := v]> m)) (λ m k, v ← mapat m k; Ok (<[k := (v - 1)%Z]> m))
      (hset s_facets sf) (f_facets f)) as [-> Ho].
  { intros k v Hv. rewrite decide_False by apply not_elem_of_nil. apply Hf in Hv. lia. }
  { intros pre k post m Heq Hm. destruct (mapat m k) as [v|] eqn:Hv; simpl; [|done]. unfold mapat in Hv.
    destruct (m !! k) as [v'|] eqn:Hv'; [|done]. injection Hv as ->. apply Hm in Hv'.
    assert (k ∉ pre) as Hk.
    { pose proof (NoDup_hset s_facets sf) as Hnd. rewrite Heq in Hnd. apply NoDup_app in Hnd as (_ & Hnd & _).
      intros Hk. by apply (Hnd k Hk), elem_of_list_here. }
    rewrite decide_False in Hv' by done.
    rewrite cint_ok by (unfold fits, int_min, int_max; unfold big in *; nia). simpl. split; [done|].
    intros k' w Hw. apply lookup_insert_Some in Hw as [[<- <-]|[Hne Hw]].
    - rewrite decide_True by set_solver. lia.
    - apply Hm in Hw. destruct (decide (k' ∈ pre)); [rewrite decide_True by set_solver|rewrite decide_False by set_solver]; lia. }
  destruct (foldM _ _ _) as [m|]; simpl; [|done]. simpl in Ho.
  destruct (total_n_faces g x) as [nf|] eqn:Hnf; simpl; [|done]. apply total_val in Hnf.
  rewrite cint_ok by fit. simpl. split; [done|]. split; [lia|]. split; simpl; [lia|].
  intros k v Hv. apply lookup_insert_Some in Hv as [[<- <-]|[Hne Hv]]; [lia|].
  apply Ho in Hv. destruct (decide _); lia.
Qed.

Lemma minmax_facets x cc bary m lo hi : (lo <= 0 <= hi)%Z → (∀ k v, m !! k = Some v → (lo <= v <= hi)%Z) →
  okp (minmax_bary g x cc bary m) (λ r, ∀ k v, r.2 !! k = Some v → (lo <= v <= hi)%Z).
Proof.
  intros H0 Hm. unfold minmax_bary.
  assert (∀ m k, (∀ k v, m !! k = Some v → (lo <= v <= hi)%Z) → ∀ j v, (map_idx m k).2 !! j = Some v → (lo <= v <= hi)%Z) as HI.
  { clear m Hm. intros m k Hm j v. unfold map_idx. destruct (m !! k) eqn:?; simpl; [apply Hm|].
    intros Hj. apply lookup_insert_Some in Hj as [[<- <-]|[_ Hj]]; [done|by eapply Hm]. }
  pose proof (HI m x Hm) as Hm'. destruct (map_idx m x) as [v m']. simpl in Hm'. clear m Hm.
  match goal with |- okp (r ← ?e; _) _ => destruct e end; simpl; [|done].
  apply (okp_foldM_inv _ (λ r, ∀ k v, r.2 !! k = Some v → (lo <= v <= hi)%Z)); [done|].
  intros j [mm m] _ Hmm. simpl in Hmm. pose proof (HI m j Hmm) as Hm. destruct (map_idx m j) as [w m'']. simpl in Hm.
  destruct (bool_decide _); [|done]. destruct (vget _ _); simpl; [|done]. destruct (sqdist _ _); simpl; done.
Qed.

Lemma compute_features_same s k x f cc : fin s f → (0 <= s < K)%Z →
  compute_features_c k g x f cc = compute_features k g x f cc ∧
  okp (compute_features k g x f cc) (λ r, (0 <= r.1.1 <= d)%Z ∧ fin (s + 1) r.2).
Proof.
  intros Hf Hs.
  assert (∀ cw uf, update_basic_c cw uf g x f cc = update_basic cw uf g x f cc) as Hu.
  { intros cw uf. by destruct (update_basic_same s cw uf x f cc Hf Hs). }
  assert (∀ cw uf, okp (update_basic cw uf g x f cc) (λ r, (0 <= r.1 <= d)%Z ∧ fin (s + 1) r.2)) as Ho.
  { intros cw uf. by destruct (update_basic_same s cw uf x f cc Hf Hs). }
  unfold compute_features_c, compute_features. rewrite !Hu. split; [done|]. clear Hu.
  destruct k.
  all: match goal with |- okp (b ← update_basic ?cw ?uf _ _ _ _; _) _ =>
    specialize (Ho cw uf); destruct (update_basic cw uf g x f cc) as [[nsf nf]|]; simpl in *; [|done] end.
  all: repeat match goal with |- okp (r ← ?e; _) _ => destruct e eqn:?; simpl; [|done] end.
  all: destruct Ho as [Ho1 [Ho2 Ho3]]; split; [done|]; split; simpl; [done|]; try done.
  match goal with Hm : minmax_bary _ _ _ ?b ?m = Ok _ |- _ =>
    pose proof (minmax_facets x cc b m (- d - (s + 1)) (d + 3) ltac:(lia) Ho3) as HH; rewrite Hm in HH; exact HH end.
Qed.

(** ** The best cell to add *)
Definition fb (s : Z) (b : best) : Prop := (0 <= b_faces b <= d)%Z ∧ fin (s + 1) (b_feats b).
Lemma fin_default s : (0 <= s)%Z → fin s feats_default.
Proof. intros Hs. split; simpl; [lia|]. intros k v Hv. by rewrite lookup_empty in Hv. Qed.
Lemma best_step_fb s dn b i nf ar ft own : fb s b → (0 <= own <= d)%Z → fin (s + 1) ft →
  okp (best_step dn b i nf ar ft own) (fb s).
Proof.
  intros Hb Ho Hf. unfold best_step. destruct (mapat dn i); simpl; [|done].
  case_bool_decide; [|done]. case_bool_decide; [|done]. destruct (mapat dn _); simpl; [|done].
  case_bool_decide; [|done]. case_bool_decide; [|done]. by destruct (wlt _ _ && _).
Qed.
Lemma best_biconnected_same s k h dn ft cc arg : fin s ft → (0 <= s < K)%Z →
  best_biconnected_c k g h dn ft cc arg 0 feats_default = best_biconnected k g h dn ft cc arg 0 feats_default ∧
  okp (best_biconnected k g h dn ft cc arg 0 feats_default) (fb s).
Proof.
  intros Hf Hs. unfold best_biconnected_c, best_biconnected. destruct (vget (nb_cand h) 0) as [c0|]; simpl; [|done].
  apply foldM_same_inv.
  { split; simpl; [lia|]. apply fin_default. lia. }
  intros x b _ Hb. destruct (compute_features_same s k x ft cc Hf Hs) as [-> Ho].
  destruct (compute_features k g x ft cc) as [[[nf ar] ft']|]; simpl in *; [|done]. destruct Ho as [Ho1 Ho2].
  split; [done|]. by apply best_step_fb.
Qed.
Lemma best_iterative_same m : ∀ s k h dn ft cc arg, fin s ft → (0 <= s)%Z → (s + Z.of_nat m < K)%Z →
  best_iterative_c m k g prio h dn ft cc arg 0 feats_default = best_iterative m k g prio h dn ft cc arg 0 feats_default ∧
  okp (best_iterative m k g prio h dn ft cc arg 0 feats_default) (fb s).
Proof.
  induction m as [|m IH]; intros s k h dn ft cc arg Hf Hs0 Hs; simpl.
  all: apply foldM_same_inv; [split; simpl; [lia|]; apply fin_default; lia|].
  all: intros x b _ Hb; destruct (compute_features_same s k x ft cc Hf ltac:(lia)) as [-> Ho];
    destruct (compute_features k g x ft cc) as [[[nf ar] ft']|]; simpl in *; [|done]; destruct Ho as [Ho1 Ho2];
    destruct (nbrs g x) as [l|]; simpl; [|done]; destruct (nbh_update prio h x l) as [h'|]; simpl; [|done].
  - split; [done|]. by apply best_step_fb.
  - destruct (IH (s + 1)%Z k h' dn ft' ({[x]} ∪ cc) 0) as [-> _]; [done|lia|lia|].
    destruct (best_iterative m k g prio h' dn ft' ({[x]} ∪ cc) 0 0 feats_default) as [r|]; simpl; [|done].
    split; [done|]. destruct (if bool_decide _ then _ else _) as [nf' ar']. by apply best_step_fb.
Qed.
Lemma compute_best_same s ip h dn ft cc fi : fin s ft → (1 <= s)%Z → (fi <= 4)%Z → (1 <= fi)%Z → (s + fi <= K)%Z →
  compute_best_c ip g prio h dn ft cc fi = compute_best ip g prio h dn ft cc fi ∧
  okp (compute_best ip g prio h dn ft cc fi) (fb s).
Proof.
  intros Hf Hs H4 H1 HsK. unfold compute_best_c, compute_best. destruct (ip_it ip).
  - rewrite cint_ok by fit. rewrite bind_ok. apply best_iterative_same; [done|lia..].
  - apply best_biconnected_same; [done|lia].
Qed.

(** ** Compactness during the growth *)
Lemma compact_update_same tmp m c l hi : (0 <= hi)%Z → (hi + Z.of_nat (length l) <= big)%Z →
  (∀ k v, m !! k = Some v → (0 <= v <= hi)%Z) →
  compact_update_c tmp m c l = Ok (compact_update tmp m c l) ∧
  ∀ k v, compact_update tmp m c l !! k = Some v → (0 <= v <= hi + Z.of_nat (length l))%Z.
Proof.
  intros H0 Hb Hm. unfold compact_update_c, compact_update.
  assert (∀ (l : list nat) (k : Z) (m : gmap nat Z) (hi : Z), (0 <= k <= hi)%Z → (hi + Z.of_nat (length l) <= big)%Z → (∀ k v, m !! k = Some v → (0 <= v <= hi)%Z) →
    ∃ k' m', foldM (λ '(k, m) n, if bool_decide (n ∈ tmp) then k ← cint (k + 1)%Z; v ← cint (default 0 (m !! n) + 1)%Z;
        Ok (k, <[n := v]> m) else Ok (k, m)) l (k, m) = Ok (k', m') ∧
      foldl (λ '(k, m) n, if bool_decide (n ∈ tmp) then ((k + 1)%Z, <[n := (default 0 (m !! n) + 1)%Z]> m) else (k, m)) (k, m) l = (k', m') ∧
      (0 <= k' <= hi + Z.of_nat (length l))%Z ∧ ∀ j v, m' !! j = Some v → (0 <= v <= hi + Z.of_nat (length l))%Z) as HH.
  { clear m Hm l hi H0 Hb. induction l as [|x l IH]; intros k m hi Hk Hb Hm.
    - exists k, m. split_and!; simpl; try done; try lia. intros j v Hj. apply Hm in Hj. lia.
    - cbn [length] in *. cbn [foldM foldl]. case_bool_decide.
      + assert (0 <= default 0%Z (m !! x) <= hi)%Z as Hx.
        { destruct (m !! x) eqn:Hx; simpl; [by eapply Hm|lia]. }
        rewrite (cint_ok (k + 1)) by fit. cbn [mbind res_bind]. rewrite cint_ok by fit. cbn [mbind res_bind].
        destruct (IH (k + 1)%Z (<[x:=(default 0 (m !! x) + 1)%Z]> m) (hi + 1)%Z) as (k' & m' & E1 & E2 & E3 & E4); [lia|lia| |].
        { intros j v Hj. apply lookup_insert_Some in Hj as [[<- <-]|[_ Hj]]; [lia|]. apply Hm in Hj. lia. }
        exists k', m'. rewrite E1, E2. split_and!; try done; try lia. intros j v Hj. apply E4 in Hj. lia.
      + cbn [mbind res_bind]. destruct (IH k m hi) as (k' & m' & E1 & E2 & E3 & E4); [lia|lia|done|].
        exists k', m'. rewrite E1, E2. split_and!; try done; try lia. intros j v Hj. apply E4 in Hj. lia. }
  destruct (HH l 0%Z m hi) as (k' & m' & E1 & E2 & E3 & E4); [lia|done|done|]. rewrite E1, E2. simpl. split; [done|].
  intros k v Hv. apply lookup_insert_Some in Hv as [[<- <-]|[_ Hv]]; [done|by eapply E4].
Qed.

(** ** One coarse cell *)
Record gwi (mi : Z) (s : grow) : Prop := {
  gi_size : (1 <= Z.of_nat (gw_size s) <= mi)%Z;
  gi_fin : fin (Z.of_nat (gw_size s)) (gw_ft s);
  gi_ext : (- (Z.of_nat (gw_size s) * (2 * d + 4)) <= gw_ext s <= Z.of_nat (gw_size s) * (2 * d + 4))%Z;
  gi_cpt : ∀ k v, gw_cpt s !! k = Some v → (0 <= v <= Z.of_nat (gw_size s) * d)%Z;
  gi_arg : (gw_arg s <= big - 1)%Z ∧ (0 <= gw_arg s)%Z;
  gi_cc : size (gw_cc s) ≤ gw_size s;
  gi_dict : ∀ k e, gw_dict s !! k = Some e → (Z.of_nat (size e.1) <= mi)%Z;
}.
Lemma grow_step_same ip mi s : gwi mi s → (Z.of_nat (gw_size s) < mi <= K)%Z → (1 <= ip_iter ip <= 4)%Z →
  grow_step_c ip g prio mi s = grow_step ip g prio mi s ∧
  okp (grow_step ip g prio mi s) (λ s', gwi mi s' ∧ gw_size s' = S (gw_size s)).
Proof.
  intros [Hs Hf He Hc Ha Hcc Hdi] Hm Hit. pose proof HKD' as HB. unfold grow_step_c, grow_step. cbn zeta.
  destruct (nbrs g (gw_next s)) as [l|]; cbn [mbind res_bind]; [|done].
  destruct (nbh_update prio (gw_h s) (gw_next s) l) as [h|]; cbn [mbind res_bind]; [|done].
  rewrite (cint_ok (mi - Z.of_nat (gw_size s))) by fit. cbn [mbind res_bind].
  destruct (compute_best_same (Z.of_nat (gw_size s)) ip h (gw_dn s) (gw_ft s) (gw_cc s)
    (Z.min (mi - Z.of_nat (gw_size s)) (ip_iter ip))) as [-> Hb]; [done|lia..|].
  destruct (compute_best _ _ _ _ _ _ _ _) as [b|]; cbn [mbind res_bind]; [|done]. destruct Hb as [Hb1 Hb2].
  rewrite nb_nbrs_same. destruct (nb_nbrs g (b_arg b)) as [nn|] eqn:Hnn; cbn [mbind res_bind]; [|done]. apply nb_nbrs_val in Hnn.
  destruct (n_bnd g (b_arg b)) as [nb|] eqn:Hnb; cbn [mbind res_bind]; [|done]. apply n_bnd_val in Hnb.
  rewrite (cint_ok (nn + nb)) by fit. cbn [mbind res_bind]. rewrite (cint_ok (nn + nb - 1)) by fit. cbn [mbind res_bind].
  rewrite (cint_ok (2 * b_faces b)) by fit. cbn [mbind res_bind]. rewrite (cint_ok (nn + nb - 1 - 2 * b_faces b)) by fit. cbn [mbind res_bind].
  assert (- ((Z.of_nat (gw_size s) + 1) * (2 * d + 4)) <= gw_ext s + (nn + nb - 1 - 2 * b_faces b)
    <= (Z.of_nat (gw_size s) + 1) * (2 * d + 4))%Z as He' by lia.
  assert ((Z.of_nat (gw_size s) + 1) * (2 * d + 4) <= big)%Z as Hbig by nia.
  rewrite (cint_ok (gw_ext s + (nn + nb - 1 - 2 * b_faces b))) by fit. cbn [mbind res_bind].
  rewrite (cint_ok (Z.of_nat (gw_size s) + 1)) by fit. cbn [mbind res_bind].
  destruct (nbrs g (b_arg b)) as [lc|] eqn:Hlc; cbn [mbind res_bind]; [|done]. apply nbrs_len in Hlc as [-> _].
  destruct (compact_update_same ({[b_arg b]} ∪ gw_cc s) (gw_cpt s) (b_arg b) (adj g (b_arg b)) (Z.of_nat (gw_size s) * d)%Z) as [-> Hcu].
  { lia. } { specialize (HD (b_arg b)). nia. } { done. }
  cbn [mbind res_bind]. destruct (map_min _) as [cur|]; cbn [mbind res_bind]; [|done].
  replace (Z.of_nat (gw_size s) + 1)%Z with (Z.of_nat (S (gw_size s))) by lia.
  split; [done|].
  destruct (if bool_decide _ || _ then _ else _) as [[maxc minext] arg] eqn:Harg.
  split; [|done]. split; simpl.
  - lia.
  - replace (Z.of_nat (S (gw_size s))) with (Z.of_nat (gw_size s) + 1)%Z by lia. done.
  - replace (Z.of_nat (S (gw_size s))) with (Z.of_nat (gw_size s) + 1)%Z by lia. done.
  - intros k v Hv. apply Hcu in Hv. specialize (HD (b_arg b)). lia.
  - repeat match type of Harg with (if ?b then _ else _) = _ => destruct b end; injection Harg as <- <- <-; lia.
  - pose proof (size_union_le {[b_arg b]} (gw_cc s)). rewrite size_singleton in *. lia.
  - assert (∀ k e, <[S (gw_size s):=({[b_arg b]} ∪ gw_cc s, (b_arg b, default 0%Z (gw_dn s !! b_arg b)))]> (gw_dict s) !! k = Some e →
      (Z.of_nat (size e.1) <= mi)%Z) as Hins.
    { intros k e Hk. apply lookup_insert_Some in Hk as [[<- <-]|[_ Hk]]; [|by eapply Hdi]. simpl.
      pose proof (size_union_le {[b_arg b]} (gw_cc s)). rewrite size_singleton in *. lia. }
    intros k e. destruct (bool_decide _ || _); [apply Hins|apply Hdi].
Qed.
Lemma grow_loop_same ip mi k : ∀ s, gwi mi s → Z.of_nat (gw_size s + k) = mi → (mi <= K)%Z → (1 <= ip_iter ip <= 4)%Z →
  grow_loop_c k ip g prio mi s = grow_loop k ip g prio mi s ∧ okp (grow_loop k ip g prio mi s) (gwi mi).
Proof.
  induction k as [|k IH]; intros s Hs Hk Hm Hit; simpl; [done|].
  destruct (grow_step_same ip mi s Hs ltac:(lia) Hit) as [-> Ho].
  destruct (grow_step ip g prio mi s) as [s'|]; simpl in *; [|done]. destruct Ho as [Hs' Hz].
  apply IH; [done|rewrite Hz; lia|done..].
Qed.

(** ** The neighbourhood of a seed *)
Lemma nbh_loop_same aggl nbo mx fuel : ∀ dn dm k, length aggl = n → (nbo + 1 <= big)%Z → (0 <= nbo)%Z → (1 <= k)%Z →
  (k + Z.of_nat fuel <= Z.of_nat n + 3)%Z →
  dm ##ₘ dn → (∀ x, is_Some (dm !! x) → x < n) → (∀ x, is_Some (dn !! x) → x < n) →
  nbh_loop_c fuel g aggl nbo mx dn dm k = nbh_loop fuel g aggl nbo mx dn dm k.
Proof.
  induction fuel as [|fuel IH]; intros dn dm k Hag Hnbo Hnbo' Hk Hkf Hdis Hdm Hdn; [done|]. cbn [nbh_loop_c nbh_loop].
  rewrite (cint_ok (nbo + 1)) by fit. cbn [mbind res_bind].
  assert (size (dm ∪ dn) ≤ n) as Hsz.
  { apply (size_le_n g aggl Hag). intros x Hx. apply lookup_union_is_Some in Hx as [Hx|Hx]; auto. }
  rewrite map_size_disj_union in Hsz by done.
  rewrite (cint_ok (Z.of_nat (size dn + size dm))) by fit. cbn [mbind res_bind]. destruct (bool_decide _ || _); [|done]. cbn zeta.
  pose proof (next_layer_ok g aggl WF Hag (dm ∪ dn) dm k Hdm ltac:(by apply map_union_subseteq_l)) as Hnl.
  destruct (next_layer g aggl (dm ∪ dn) dm k) as [l|]; simpl in Hnl; [|done]. cbn [mbind res_bind].
  case_bool_decide; [done|]. rewrite cint_ok by fit. cbn [mbind res_bind]. apply IH; try done; try lia.
  - apply map_disjoint_spec. intros x v w Hv Hw. apply Hnl in Hv as (_ & _ & Hv & _). congruence.
  - intros x [v Hv]. apply Hnl in Hv as (_ & Hv & _). apply lookup_lt_Some in Hv. lia.
  - intros x Hx. apply lookup_union_is_Some in Hx as [Hx|Hx]; auto.
Qed.
Lemma compute_neighbourhood_same seed nbo mx aggl : length aggl = n → (nbo + 1 <= big)%Z → (0 <= nbo)%Z → seed < n →
  compute_neighbourhood_c g {[seed]} nbo mx aggl = compute_neighbourhood_of_cc g {[seed]} nbo mx aggl.
Proof.
  intros Hag H1 H2 Hs. unfold compute_neighbourhood_c, compute_neighbourhood_of_cc. apply bind_same; [done|]. intros _ _. cbn zeta.
  apply bind_same; [|done]. apply nbh_loop_same; try done; try lia.
  - apply map_disjoint_empty_r.
  - intros x [v Hx]. apply lookup_gset_to_gmap_Some in Hx as [Hx _]. apply elem_of_singleton in Hx as ->. done.
  - intros x [v Hx]. by rewrite lookup_empty in Hx.
Qed.

(** ** A coarse cell *)
Lemma feats_of_cell_same x : feats_of_cell_c g x = feats_of_cell g x ∧ okp (feats_of_cell g x) (fin 1).
Proof.
  unfold feats_of_cell_c, feats_of_cell. rewrite etw_same, total_same. split; [done|].
  destruct (vget (g_vol g) x); simpl; [|done]. destruct (estimated_total_weight g x); simpl; [|done].
  destruct (total_n_faces g x) as [k|] eqn:Hk; simpl; [|done]. destruct (vget (g_cen g) x); simpl; [|done].
  apply total_val in Hk. split; simpl; [lia|]. intros j v Hv. apply lookup_singleton_Some in Hv as [_ <-]. lia.
Qed.
Lemma choose_optimal_same ip ct p seed :
  length (ct_aggl ct) = n → seed < n →
  (2 <= ip_dim ip)%Z → (0 <= ip_min ip <= ip_goal ip)%Z → (ip_goal ip <= ip_max ip)%Z → (ip_max ip <= big)%Z →
  (1 <= ip_iter ip <= 4)%Z → (Z.min (ip_max ip) (Z.of_nat n) <= K)%Z →
  choose_optimal_c ip g prio ct p seed = choose_optimal ip g prio ct p seed.
Proof.
  intros Hag Hs Hdim Hmin Hgoal Hmax Hit HmK. unfold choose_optimal_c, choose_optimal.
  apply bind_same; [done|]. intros [] Hg1.
  assert (1 < ip_goal ip)%Z as Hg2. { unfold massert in Hg1. by case_bool_decide. }
  assert (0 <= ip_max ip `quot` ip_dim ip <= ip_max ip / 2)%Z as Hq.
  { rewrite Z.quot_div_nonneg by lia. split; [apply Z.div_pos; lia|]. apply Z.div_le_compat_l; lia. }
  assert (ip_max ip / 2 <= 1073741823)%Z as Hq2.
  { transitivity (big / 2)%Z; [apply Z.div_le_mono; lia|done]. }
  remember (ip_max ip `quot` ip_dim ip)%Z as q eqn:Eq. clear Eq.
  assert (0 <= min_neighbourhood ip <= 3)%Z as Hmn by (unfold min_neighbourhood; case_match; lia).
  rewrite (cint_ok q) by fit. cbn [mbind res_bind]. cbn zeta.
  rewrite compute_neighbourhood_same; [|done|unfold big in *; lia|lia|done].
  pose proof (compute_neighbourhood_ok g (ct_aggl ct) WF Hag {[seed]} ltac:(set_solver)
    (Z.max (min_neighbourhood ip) q) (ip_max ip) ltac:(lia)) as HW.
  destruct (compute_neighbourhood_of_cc _ _ _ _ _) as [[dn z]|]; [|done]. cbn [mbind res_bind wp fst] in *.
  destruct HW as (J & _ & [Hlk _ _ _]). cbn [fst] in *.
  assert (size dn + 1 ≤ n) as Hsz.
  { assert (dn !! seed = None) as Hsd.
    { destruct (dn !! seed) as [v|] eqn:Hv; [|done]. apply Hlk in Hv as [Hv _]. set_solver. }
    transitivity (size (<[seed := 0%Z]> dn)); [rewrite map_size_insert_None by done; lia|].
    apply (size_le_n g (ct_aggl ct) Hag). intros x Hx. apply lookup_insert_is_Some in Hx as [<- |[_ [v Hx]]]; [done|].
    apply Hlk in Hx as [Hx (j & _ & _ & Hw & _)]. inversion Hw as [|? ? ? ? ? Hf]; subst; [set_solver|].
    apply lookup_lt_Some in Hf. lia. }
  destruct (bool_decide (dn = ∅)); [done|]. rewrite (cint_ok (Z.of_nat (size dn) + 1)) by fit. cbn [mbind res_bind].
  destruct (bool_decide (Z.of_nat (size dn) + 1 < ip_goal ip)%Z) eqn:Hnd; [by rewrite min_compactness_same|].
  apply bool_decide_eq_false in Hnd.
  destruct (feats_of_cell_same seed) as [-> Hft]. destruct (feats_of_cell g seed) as [ft|]; [|done].
  cbn [mbind res_bind okp] in *. rewrite nb_nbrs_same.
  destruct (nb_nbrs g seed) as [nn|] eqn:Hnn; [|done]. apply nb_nbrs_val in Hnn. cbn [mbind res_bind].
  destruct (n_bnd g seed) as [nb|] eqn:Hnb; [|done]. apply n_bnd_val in Hnb. cbn [mbind res_bind].
  pose proof HKD' as HB.
  rewrite (cint_ok (nn + nb)) by fit. cbn [mbind res_bind]. rewrite (cint_ok (nn + nb - 1)) by fit. cbn [mbind res_bind].
  set (mi := Z.min (ip_max ip) (Z.of_nat (size dn) + 1)).
  destruct (grow_loop_same ip mi (Z.to_nat (mi - 1)) (Grow (nbh_create (dom dn) (if ip_front ip then Some (ip_dim ip) else None))
    seed 1 {[seed]} ft dn (nn + nb - 1) {[seed := 0%Z]} 0 int_max (ip_min ip) ∅)) as [-> Ho].
  { split; cbn [gw_size gw_ft gw_ext gw_cpt gw_arg gw_cc gw_dict].
    - lia.
    - done.
    - lia.
    - intros k v Hv. apply lookup_singleton_Some in Hv as [_ <-]. lia.
    - lia.
    - by rewrite size_singleton.
    - intros k e He. by rewrite lookup_empty in He. }
  { cbn [gw_size]. lia. } { lia. } { done. }
  destruct (grow_loop _ _ _ _ _ _) as [s|]; [|done]. cbn [mbind res_bind okp] in *. destruct Ho as [? ? ? ? Harg _ Hdi].
  rewrite (cint_ok (gw_arg s + 1)) by fit. cbn [mbind res_bind]. rewrite (cint_ok (mi + 1)) by fit. cbn [mbind res_bind].
  replace (mi + 1 - 1)%Z with mi by lia. apply bind_same; [done|]. intros p' _.
  rewrite cint_ok; [done|]. destruct (gw_dict s !! _) as [e|] eqn:He; [apply Hdi in He; cbn [from_option]; fit|done].
Qed.
Lemma set_size (s : gset nat) : (∀ x, x ∈ s → x < n) → size s ≤ n.
Proof.
  intros Hs. transitivity (size (list_to_set (seq 0 n) : gset nat)).
  - apply subseteq_size. intros x Hx. apply elem_of_list_to_set, elem_of_seq. apply Hs in Hx. lia.
  - rewrite size_list_to_set by apply NoDup_seq. by rewrite seq_length.
Qed.
Lemma iso_loop_same ip fuel :
  (1 < ip_min ip)%Z → (ip_min ip <= ip_goal ip)%Z → (ip_goal ip <= ip_max ip)%Z → (2 <= ip_dim ip)%Z → (ip_max ip <= big)%Z →
  (1 <= ip_iter ip <= 4)%Z → (Z.min (ip_max ip) (Z.of_nat n) <= K)%Z →
  ∀ ct p, cont_inv n ct → pool_inv (g_bnd g) (ct_aggl ct) p → sp_top p ≠ None →
  iso_loop_c fuel ip g prio ct p = iso_loop fuel ip g prio ct p.
Proof.
  intros Hmin Hgoal Hmax Hdim Hbig Hit HmK. induction fuel as [|fuel IH]; intros ct p HI HP Ht; [done|]. cbn [iso_loop_c iso_loop].
  case_bool_decide; [|done].
  assert (length (ct_aggl ct) = length (g_bnd g)) as Hal.
  { by rewrite (wd_bnd _ _ WD), (ci_alen _ _ HI). }
  assert (length prio = length (g_bnd g)) as Hpl by by rewrite (wd_bnd _ _ WD), (wd_prio _ _ WD).
  pose proof (choose_new_seed_ok prio (g_bnd g) Hpl (wd_bnd_pos _ _ WD) (wd_ord _ _ WD) (ct_aggl ct) p HP Hal Ht) as HW.
  destruct (choose_new_seed prio (g_bnd g) (ct_aggl ct) p) as [[o p1]|]; [|done]. cbn [mbind res_bind wp fst snd] in *.
  destruct o as [seed|]; [|done]. destruct HW as (_ & _ & HP1 & [Hfree _] & Ht1).
  apply bind_same; [done|]. intros _ _. cbn [mbind res_bind opt_value].
  assert (seed < n) as Hsn. { apply lookup_lt_Some in Hfree. rewrite (ci_alen _ _ HI) in Hfree. done. }
  rewrite choose_optimal_same by (done || lia || apply HI).
  pose proof (choose_optimal_ok g prio WF WD ip Hmin Hgoal Hmax Hdim ct p1 seed HP1 Ht1 (ci_alen _ _ HI) Hfree) as HC.
  destruct (choose_optimal ip g prio ct p1 seed) as [[[cc cpt] p2]|]; [|done]. cbn [mbind res_bind wp fst snd] in *.
  destruct HC as (Hch & HP2 & Ht2 & _). unfold create_cc_c.
  rewrite cint_ok.
  2:{ assert (size cc ≤ n); [|fit]. apply set_size. intros x Hx. apply (ch_free _ _ _ _ _ _ Hch) in Hx.
      apply lookup_lt_Some in Hx. by rewrite (ci_alen _ _ HI) in Hx. }
  cbn [mbind res_bind].
  assert (cc ≠ ∅) as Hne. { intros ->. by apply ch_seed, elem_of_empty in Hch. }
  pose proof (create_cc_ok n ct cc cpt false HI Hne (ch_free _ _ _ _ _ _ Hch)) as HCr.
  destruct (create_cc ct cc cpt false false) as [ct'|]; [|done]. cbn [mbind res_bind wp] in *.
  destruct HCr as [HI' Hcr].
  apply IH; [done| |done].
  eapply pool_inv_mono; [|done]. intros c. unfold freec. rewrite (cr_ag _ _ _ _ _ Hcr). by case_decide.
Qed.

(** ** The correction *)
Lemma get_shared_faces_same fc cc : get_shared_faces_c g fc cc = get_shared_faces g fc cc.
Proof.
  unfold get_shared_faces_c, get_shared_faces.
  pose proof (NoDup_hset s_sharedf (cc_fcs cc)) as Hnd. revert Hnd. generalize (hset s_sharedf (cc_fcs cc)). intros l Hnd.
  apply (foldM_same (λ (pre : list nat) (k : Z), (0 <= k <= d * Z.of_nat (length (filter (λ j, j ∈ adj g fc) pre)))%Z)).
  { simpl. lia. }
  intros pre j post k Heq Hk. destruct (nbrs g j) as [lj|] eqn:Hj; cbn [mbind res_bind okp]; [|done].
  apply nbrs_len in Hj as [-> Hjn].
  assert (0 <= count_occ_nat fc (adj g j) <= d * (if decide (j ∈ adj g fc) then 1 else 0))%Z as Hc.
  { unfold count_occ_nat. pose proof (filter_length (λ y, y = fc) (adj g j)) as Hl. specialize (HD j).
    case_decide as Hd; [lia|]. assert (filter (λ y, y = fc) (adj g j) = []) as ->; [|simpl; lia].
    destruct (filter (λ y, y = fc) (adj g j)) as [|y l'] eqn:Hf; [done|].
    assert (y ∈ filter (λ y, y = fc) (adj g j)) as Hy by (rewrite Hf; left).
    apply elem_of_list_filter in Hy as [-> Hy]. destruct Hd. by apply (adj_sym g WF). }
  assert ((0 <= k + count_occ_nat fc (adj g j) <= d * Z.of_nat (length (filter (λ j, j ∈ adj g fc) (pre ++ [j])))))%Z as Hk'.
  { rewrite filter_app, app_length, filter_cons. case_decide; simpl; lia. }
  rewrite cint_ok; [done|].
  assert (length (filter (λ j, j ∈ adj g fc) (pre ++ [j])) ≤ D) as Hle.
  { etransitivity; [|apply (HD fc)]. apply submseteq_length, NoDup_submseteq.
    - apply NoDup_filter. rewrite Heq in Hnd. rewrite cons_middle, app_assoc in Hnd. by apply NoDup_app in Hnd as [? _].
    - intros y Hy. by apply elem_of_list_filter in Hy as [? _]. }
  assert (d * Z.of_nat (length (filter (λ j, j ∈ adj g fc) (pre ++ [j]))) <= d * d)%Z by nia. fit.
Qed.
Lemma cands_same ct fcs sf sf' neighs : (∀ cc, sf cc = sf' cc) → cands_c g ct fcs sf neighs = cands g ct fcs sf' neighs.
Proof.
  intros Hsf. unfold cands_c, cands. apply foldM_ext. intros k acc _. apply bind_same; [done|]. intros cc _.
  destruct (cc_iso cc); [|done]. rewrite Hsf. apply bind_same; [done|]. intros s _. by rewrite min_compactness_same.
Qed.
Lemma select_best_whole_same ct fcs neighs : select_best_whole_c g ct fcs neighs = select_best_whole g ct fcs neighs.
Proof. unfold select_best_whole_c, select_best_whole. by rewrite (cands_same ct fcs _ (λ _, Ok 0%Z) neighs). Qed.
Lemma select_best_same ct fc neighs : select_best_c g ct fc neighs = select_best g ct fc neighs.
Proof.
  unfold select_best_c, select_best. rewrite (cands_same ct {[fc]} _ (get_shared_faces g fc) neighs); [done|].
  apply get_shared_faces_same.
Qed.
Lemma insert_cells_same ccs id fcs cpt : (∀ cc, ccs !! id = Some cc → fits (cc_card cc + Z.of_nat (size fcs))) →
  insert_cells_c g ccs id fcs cpt = insert_cells g ccs id fcs cpt.
Proof.
  intros Hf. unfold insert_cells_c, insert_cells. destruct (ccs !! id) as [cc|]; [|done]. cbn zeta.
  rewrite cint_ok by by apply Hf. cbn [mbind res_bind]. destruct cpt; [done|]. by rewrite min_compactness_same.
Qed.

Section corr.
Context (ct0 : container) (HI0 : cont_inv n ct0).
Notation f0 := (ct_fc2cc ct0).
Notation sing := (ct_sing ct0).
Context (Hfull : ∀ x, x < n → ∃ k, f0 !! x = Some (Some k)).
Context (Hfront : ∀ k cc x y, k ∈ sing → ct_ccs ct0 !! k = Some cc → x ∈ cc_fcs cc →
  y ∈ adj g x → y ∉ cc_fcs cc → ∃ k', k' < k ∧ f0 !! y = Some (Some k')).
Context (Hsc : ∀ k cc, k ∈ sing → ct_ccs ct0 !! k = Some cc → connected (gedge g) (λ z, z ∈ cc_fcs cc)).

Lemma insert_fits R ct old i id cc (fcs : gset nat) :
  corr g ct0 R ct → old ∈ sing → f0 !! i = Some (Some old) → nb_ids g ct0 old i id → ct_ccs ct !! id = Some cc →
  (∀ z, z ∈ fcs → ct_fc2cc ct !! z = Some (Some old)) → fits (cc_card cc + Z.of_nat (size fcs)).
Proof.
  intros HC Ho Hi Hnb Hc Hf.
  destruct (nb_cell g WF ct0 HI0 Hfront R ct old i id HC Ho Hi Hnb) as (Hs & HR & cc0 & cc' & Hc0 & Hc' & Hg & Hlt & _).
  assert (cc' = cc) as -> by congruence. rewrite (gn_card _ _ _ Hg).
  assert (size (cc_fcs cc ∪ fcs) ≤ n) as Hle.
  { apply set_size. intros x Hx. apply elem_of_union in Hx as [Hx|Hx]; [auto|]. apply Hf in Hx. apply lookup_lt_Some in Hx.
    by rewrite (cv_len _ _ _ _ HC) in Hx. }
  rewrite size_union in Hle; [fit|]. intros x Hx Hx'. apply Hf in Hx'.
  apply (cv_mem _ _ _ _ HC id cc HR Hc) in Hx. assert (id = old) as -> by congruence. done.
Qed.

Lemma correct_cells_same R ct old nb l :
  corr g ct0 ({[old]} ∪ R) ct → old ∈ sing → NoDup l →
  (∀ i, i ∈ l → f0 !! i = Some (Some old) ∧ ct_fc2cc ct !! i = Some (Some old)) →
  (∀ i, i ∈ l → ∃ s, nb !! i = Some s ∧ ∀ k, k ∈ s ↔ nb_ids g ct0 old i k) →
  correct_cells_c g ct nb l = correct_cells g ct nb l.
Proof.
  intros HC Ho Hnd Hl Hnb. unfold correct_cells_c. apply foldM_same_run. intros pre i post [rm ct'] Heq Hrun.
  assert (wp (correct_cells g ct nb pre) (λ r,
    corr g ct0 ({[old]} ∪ R) r.2 ∧ (∀ i, i ∉ pre → ct_fc2cc r.2 !! i = ct_fc2cc ct !! i))) as Hw.
  { eapply wp_mono; [apply (correct_cells_ok g WF ct0 HI0 Hfull Hfront R ct old nb pre); try done|].
    - rewrite Heq in Hnd. by apply NoDup_app in Hnd as [? _].
    - intros j Hj. apply Hl. rewrite Heq. set_solver.
    - intros j Hj. apply Hnb. rewrite Heq. set_solver.
    - intros r (? & _ & _ & ? & _). done. }
  unfold correct_cells in Hw. rewrite Hrun in Hw. destruct Hw as [HC' Hout]. cbn [fst snd] in *.
  assert (i ∈ l) as Hil by (rewrite Heq; set_solver).
  assert (i ∉ pre) as Hpre.
  { rewrite Heq in Hnd. apply NoDup_app in Hnd as (_ & Hnd & _). intros Hp. apply (Hnd i Hp). by left. }
  destruct (Hl i Hil) as [Hi0 Hi]. destruct (Hnb i Hil) as (s & Hs & Hsk).
  rewrite (mapat_ok _ _ _ Hs). cbn [mbind res_bind]. destruct (bool_decide (s = ∅)); [done|].
  rewrite select_best_same.
  assert (wp (select_best g ct' i s) (λ o, ∀ id cpt, o = Some (id, cpt) → pick_ok g ct' {[i]} s id cpt)) as Hp.
  { eapply wp_mono; [apply (select_best_ok g WF)|by intros o [? _]].
    - intros k Hk. apply Hsk in Hk.
      destruct (nb_cell g WF ct0 HI0 Hfront _ ct' old i k HC' Ho Hi0 Hk) as (_ & _ & _ & cc & _ & Hc & _ & Hlt & _). eauto.
    - by destruct (f0_lt g ct0 HI0 _ _ Hi0). }
  destruct (select_best g ct' i s) as [[[id cpt]|]|]; cbn [mbind res_bind]; [|done..].
  apply bind_same; [done|]. intros f _. rewrite insert_cells_same; [done|]. intros cc Hc.
  destruct (Hp id cpt eq_refl) as [Hids _].
  eapply (insert_fits _ ct' old i id); [done..|by apply Hsk|done|].
  intros z Hz. apply elem_of_singleton in Hz as ->. by rewrite Hout.
Qed.

Lemma correct_whole_same R ct old cur nb :
  corr g ct0 R ct → old ∈ sing → old ∉ R → ct_ccs ct0 !! old = Some cur →
  (∀ i s, nb !! i = Some s → i ∈ cc_fcs cur ∧ ∀ k, k ∈ s ↔ nb_ids g ct0 old i k) →
  correct_whole_c g ct (cc_fcs cur) nb = correct_whole g ct (cc_fcs cur) nb.
Proof.
  intros HC Ho HoR Hcur Hnb. unfold correct_whole_c, correct_whole. cbn zeta.
  set (glob := map_fold _ ∅ nb).
  assert (∀ k, k ∈ glob ↔ ∃ i s, nb !! i = Some s ∧ k ∈ s) as Hglob by apply (elem_of_map_union g WF ct0 HI0 Hfull Hfront).
  clearbody glob. destruct (bool_decide (glob = ∅)); [done|].
  assert (∀ z, z ∈ cc_fcs cur → f0 !! z = Some (Some old)) as Hf0.
  { intros z Hz. apply (ci_cell _ _ HI0). eauto. }
  assert (∀ k, k ∈ glob → ∃ i, f0 !! i = Some (Some old) ∧ nb_ids g ct0 old i k) as Hcell.
  { intros k Hk. apply Hglob in Hk as (i & s & Hi & Hk). apply Hnb in Hi as [Hic Hi]. apply Hi in Hk. eauto. }
  rewrite select_best_whole_same.
  assert (wp (select_best_whole g ct (cc_fcs cur) glob) (λ o, ∀ id cpt, o = Some (id, cpt) → pick_ok g ct (cc_fcs cur) glob id cpt)) as Hp.
  { apply (select_best_whole_ok g WF).
    - intros k Hk. destruct (Hcell k Hk) as (i & Hi & Hk').
      destruct (nb_cell g WF ct0 HI0 Hfront _ ct old i k HC Ho Hi Hk') as (_ & _ & _ & cc & _ & Hc & _ & Hlt & _). eauto.
    - intros z Hz. apply Hf0 in Hz. by destruct (f0_lt g ct0 HI0 _ _ Hz). }
  destruct (select_best_whole g ct (cc_fcs cur) glob) as [[[id cpt]|]|]; cbn [mbind res_bind]; [|done..].
  apply bind_same; [done|]. intros f _. rewrite insert_cells_same; [done|]. intros cc Hc.
  destruct (Hp id cpt eq_refl) as [Hids _]. destruct (Hcell id Hids) as (i & Hi & Hk').
  eapply (insert_fits _ ct old i id); [done..|].
  intros z Hz. apply (cv_same _ _ _ _ HC); auto.
Qed.

Lemma correct_step_same pre R ct old post :
  sing = pre ++ old :: post → corr_loop g ct0 pre R ct →
  correct_step_c g ct R old = correct_step g ct R old.
Proof.
  intros Heq [HC HR _ _].
  assert (old ∈ sing) as Ho by (rewrite Heq; set_solver).
  assert (old ∉ pre) as Hop.
  { pose proof (ci_sing_nd _ _ HI0) as Hs. rewrite Heq in Hs. clear -Hs. intros Hp.
    induction pre as [|a pre IH]; [by apply elem_of_nil in Hp|].
    simpl in Hs. apply StronglySorted_inv in Hs as [Hs Hall].
    apply elem_of_cons in Hp as [<-|Hp]; [|auto].
    rewrite Forall_forall in Hall. specialize (Hall old). assert (old < old); [|lia].
    apply Hall. set_solver. }
  assert (old ∉ R) as HoR by (intros HoR; by apply HR in HoR as [? _]).
  pose proof (cv_sing _ _ _ _ HC old Ho HoR) as Hcc.
  apply (ci_sing _ _ HI0) in Ho as Hcur. destruct Hcur as (cur & Hcur & Hiso & Hth).
  assert (∀ z, z ∈ cc_fcs cur ↔ f0 !! z = Some (Some old)) as Hf0.
  { intros z. rewrite (ci_cell _ _ HI0). naive_solver. }
  assert (∀ z, z ∈ cc_fcs cur → ct_fc2cc ct !! z = Some (Some old)) as Hf1.
  { intros z Hz. apply (cv_same _ _ _ _ HC); [done|]. by apply Hf0. }
  unfold correct_step_c, correct_step. rewrite (mapat_ok _ _ cur) by congruence. cbn [mbind res_bind].
  destruct (bool_decide (cc_card cur <= ct_thresh ct)%Z); [|done]. cbn zeta.
  assert (wp (foldM (λ m i, s ← get_neighs_cc g ct i old; Ok (<[i := s]> m)) (hset s_corr_fcs (cc_fcs cur)) ∅)
    (λ m : gmap nat (gset nat), (∀ i, i ∈ hset s_corr_fcs (cc_fcs cur) → is_Some (m !! i)) ∧
      ∀ i s, m !! i = Some s → i ∈ hset s_corr_fcs (cc_fcs cur) ∧ ∀ k, k ∈ s ↔ nb_ids g ct0 old i k)) as Hw.
  { apply (wp_foldM _ (λ (pre : list nat) (m : gmap nat (gset nat)),
      (∀ i, i ∈ pre → is_Some (m !! i)) ∧
      ∀ i s, m !! i = Some s → i ∈ pre ∧ ∀ k, k ∈ s ↔ nb_ids g ct0 old i k)).
    { split; [intros i Hi; by apply elem_of_nil in Hi|]. intros i s Hi. by rewrite lookup_empty in Hi. }
    intros pre' i post' m Heq' [H1 H2].
    assert (i ∈ cc_fcs cur) as Hi by (rewrite <- (elem_of_hset s_corr_fcs), Heq'; set_solver).
    wstep. eapply wp_mono; [apply (get_neighs_cc_ok g WF ct0 HI0 Hfull Hfront R ct old i); [done..|by apply Hf0]|].
    intros s Hs. simpl. split.
    - intros j Hj. apply lookup_insert_is_Some'. apply elem_of_app in Hj as [Hj|Hj]; [auto|].
      apply elem_of_list_singleton in Hj as ->. by left.
    - intros j s' Hj. apply lookup_insert_Some in Hj as [[<- <-]|[Hne' Hj]].
      + split; [set_solver|done].
      + apply H2 in Hj as [? ?]. split; [set_solver|done]. }
  destruct (foldM _ (hset s_corr_fcs (cc_fcs cur)) ∅) as [nb|]; [|done]. cbn [mbind res_bind wp] in *.
  destruct Hw as [Hnb1 Hnb2].
  assert (∀ i s, nb !! i = Some s → i ∈ cc_fcs cur ∧ ∀ k, k ∈ s ↔ nb_ids g ct0 old i k) as Hnb'.
  { intros i s Hs. apply Hnb2 in Hs as [Hi ?]. by rewrite elem_of_hset in Hi. }
  assert (∀ i, i ∈ cc_fcs cur → ∃ s, nb !! i = Some s ∧ ∀ k, k ∈ s ↔ nb_ids g ct0 old i k) as Hnb.
  { intros i Hi. destruct (Hnb1 i) as [s Hs]; [by apply elem_of_hset|]. exists s. split; [done|].
    by apply Hnb'. }
  assert (∀ i, i ∈ hkeys s_corr_by_fc nb ↔ i ∈ cc_fcs cur) as Hkeys.
  { intros i. rewrite elem_of_hkeys. split.
    - intros [s Hs]. by apply Hnb' in Hs as [??].
    - intros Hi. destruct (Hnb i Hi) as (s & ? & _). eauto. }
  rewrite (correct_whole_same R ct old cur nb) by done.
  apply bind_okp with (Q := λ r : bool * container, r.1 = false → r.2 = ct); [done| |].
  { case_bool_decide; [|done]. apply wp_okp. eapply wp_mono; [apply (correct_whole_ok g WF ct0 HI0 Hfull Hfront R ct old cur nb); try done; by apply (Hsc old)|].
    by intros r [? _]. }
  intros [w ct1] Hw. cbn [fst snd] in *. apply bind_same; [|done]. destruct w; [done|]. rewrite (Hw eq_refl).
  apply (correct_cells_same R ct old).
  - by apply corr_start.
  - done.
  - apply NoDup_hkeys.
  - intros i Hi. apply Hkeys in Hi. split; [by apply Hf0|auto].
  - intros i Hi. by apply Hnb, Hkeys.
Qed.

Lemma correct_same : correct_c g ct0 = correct g ct0.
Proof.
  unfold correct_c, correct. apply bind_same; [|done].
  apply (foldM_same (λ (pre : list nat) (r : gset nat * container), corr_loop g ct0 pre r.1 r.2)).
  - split; simpl; [by apply corr_init|set_solver|set_solver|]. intros k cc i Hk. by apply elem_of_nil in Hk.
  - intros pre old post [R ct] Heq HL. split; [by eapply correct_step_same|]. apply wp_okp.
    by apply (correct_step_ok g WF ct0 HI0 Hfull Hfront pre R ct old post).
Qed.
End corr.
End int.

(** ** The whole call *)
Section whole.
Context {A : Arith} {H : HashOrder}.

Lemma phase2_same i o D ctA p lo : good_call i o → fits_int i D → phase1_ok i o ctA p lo → phase2_c i ctA p = phase2 i ctA p.
Proof.
  intros HG [Fn Fm Fd Fg Fs] H1. pose proof HG as [WM HA _ _ _].
  pose proof (mesh_wfg i WM) as WF. pose proof (mesh_wfd i WM (ac_dim _ HA)) as WD.
  unfold phase2_c, phase2. destruct (iso_params_ok i HA) as (ip & Hip & Hd & Hmn & Hgl & Hmx).
  assert (ip_iter ip = in_iter i) as Hit.
  { pose proof Hip as Hip'. unfold iso_params_of in Hip'. destruct (ar_of_Z _ _) as [k|]; [|done]. by injection Hip' as <-. }
  rewrite Hip. cbn [mbind res_bind].
  set (g := graph_of i) in *. set (n := in_n i) in *. change (in_n i) with (g_n g) in n.
  assert (∃ (D' : nat) (K : Z), (∀ x, length (adj g x) ≤ D') ∧ (Z.of_nat D' * Z.of_nat D' <= big)%Z ∧ (1 <= K)%Z ∧
    (K * (2 * Z.of_nat D' + 4) <= big)%Z ∧ (Z.min (in_max i) (Z.of_nat n) <= K)%Z) as (D' & K & HD & HDD & HK & HKD & HmK).
  { destruct (decide (n = 0)) as [H0|H0].
    - exists 0, 1%Z. split_and!; [|done|done|done|lia]. intros x. rewrite (adj_nil g WF); [done|]. change (g_n g) with n. lia.
    - exists D, (Z.min (in_max i) (Z.of_nat n)). split_and!; [exact Fd|done| |done|done]. destruct HA. lia. }
  assert (1 < ip_min ip)%Z as G1 by (rewrite Hmn; apply HA).
  assert (ip_min ip <= ip_goal ip)%Z as G2 by (rewrite Hmn, Hgl; apply HA).
  assert (ip_goal ip <= ip_max ip)%Z as G3 by (rewrite Hmx, Hgl; apply HA).
  assert (2 <= ip_dim ip)%Z as G4 by (rewrite Hd; destruct (ac_dim _ HA); lia).
  unfold iso_agglomerate_c, iso_agglomerate.
  rewrite (iso_loop_same g (in_prio i) WF WD D' K HD Fn HDD HK HKD ip (S (g_n g)) G1 G2 G3 G4 ltac:(lia) ltac:(rewrite Hit; apply HA)
    ltac:(by rewrite Hmx)) by apply H1.
  pose proof (iso_loop_ok g (in_prio i) WF WD ip G1 G2 G3 G4 (S (g_n g)) ctA p (p1_inv _ _ _ _ _ H1) (p1_pool _ _ _ _ _ H1)
    (p1_top _ _ _ _ _ H1) ltac:(lia)) as HW.
  destruct (iso_loop _ _ _ _ _ _) as [[ct p']|]; [|done]. cbn [mbind res_bind wp fst snd] in *.
  destruct HW as (HI & Hn & Hext & Hiso).
  rewrite (create_all_delayed_ok _ _ HI). cbn [mbind res_bind].
  assert (iso_done i ctA ct) as HDn.
  { split; [done| | |done|].
    - apply (cont_full _ _ HI). rewrite Hn. lia.
    - change (ct_n ct ≤ g_n g). rewrite <- Hn. apply HI.
    - exists ip. split_and!; [done..|]. by rewrite (p1_bp _ _ _ _ _ H1) in Hiso. }
  destruct (sing_front _ _ _ _ _ _ HG H1 HDn) as (Hle & Hge & Hfr & Hcn).
  destruct (in_corr i); [|done].
  apply (correct_same g (in_prio i) WF WD D' K HD Fn HDD HK HKD ct HI); [|done..].
  intros x Hx. destruct (id_full _ _ _ HDn x Hx) as (k & _ & Hk). eauto.
Qed.
Lemma checked_same i o D : good_call i o → fits_int i D → agglomerate_checked i o = agglomerate_one_level i o.
Proof.
  intros HG HF. unfold agglomerate_checked, agglomerate_one_level. pose proof (phase1_wp i o HG) as HW.
  destruct (phase1 i o) as [[[ct p] lines]|]; [|done]. simpl in HW. by rewrite (phase2_same i o D ct p lines HG HF HW).
Qed.
End whole.
