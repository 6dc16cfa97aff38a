(** * GeoW: units do not matter for the lines (C56) *)

From Coq Require Import Ring.
From Verif Require Import Lib Spec Main SpecFeat SpecAR SpecGeo UseT GeoT GeoU IsoP MainP GeoV.

Lemma vset_map {A B} (f : A → B) l i x : vset (map f l) i (f x) = (r ← vset l i x; Ok (map f r)).
Proof. unfold vset. rewrite map_length. case_decide; [|done]. simpl. by rewrite list_fmap_insert. Qed.
Lemma both_fun {X Y Z Z'} (R : Z → Z' → Prop) (f : X → Y) (a : res X) (k : X → res Z) (k' : Y → res Z') :
  (∀ x, a = Ok x → both R (k x) (k' (f x))) → both R (x ← a; k x) (y ← (x ← a; Ok (f x)); k' y).
Proof. intros HK. destruct a; simpl; [by apply HK|constructor]. Qed.

Section lines.
Context {A : Arith} {H : HashOrder} (EF : exact_field).
Context (g : graph) (dimc : nat) (Hdim : ∀ k c, g_cen g !! k = Some c → length c = dimc).
Context (u v l : W) (Hu : above0 u) (Hl : above0 l) (ap : aniso_params).
Notation ll := (wmul l l).
Context (HB1 : ∀ w, w ∈ g_val g → wlt w wmaxv = true) (HB2 : ∀ w, w ∈ g_val g → wlt (wmul u w) wmaxv = true).
Context (HQ : ap_force ap = true → ∀ a, wsqrt (wmul ll a) = wmul l (wsqrt a)).
Notation g' := (regeom g (map (wmul u) (g_val g)) (map (wmul v) (g_vol g)) (map (map (wmul l)) (g_cen g))).
Add Ring Wr3 : (ea_ring (ef_ring EF)).
Definition kl : W := if ap_mindist ap then wdiv w1 ll else u.
Lemma mono_kl : mono kl.
Proof using EF Hu Hl.
  unfold kl. destruct (ap_mindist ap); [|by apply (mono_pos EF)]. apply (mono_inv EF). unfold above0.
  rewrite <- (scale_0 EF l). rewrite (ef_mul EF) by done. done.
Qed.

Lemma sqd_units acc a b : sqd_acc (wmul ll acc) (map (wmul l) a) (map (wmul l) b) = (d ← sqd_acc acc a b; Ok (wmul ll d)).
Proof using EF.
  revert b acc. induction a as [|x a IH]; intros [|y b] acc; simpl; try done. rewrite <- IH. f_equal. ring.
Qed.
Lemma sqdist_units a b : sqdist (map (wmul l) a) (map (wmul l) b) = (d ← sqdist a b; Ok (wmul ll d)).
Proof using EF. unfold sqdist. rewrite <- sqd_units. f_equal. ring. Qed.
Lemma dir_diff_units a b : dir_diff (map (wmul l) a) (map (wmul l) b) = (d ← dir_diff a b; Ok (map (wmul l) d)).
Proof using EF.
  revert b. induction a as [|x a IH]; intros [|y b]; simpl; try done. rewrite IH. destruct (dir_diff a b); simpl; [|done].
  do 2 f_equal. ring.
Qed.

(** ** Tagging *)
Lemma minmax_units i : both (λ p q : W * W, q.1 = wmul u p.1 ∧ q.2 = wmul u p.2 ∨ p = (wmaxv, w0) ∧ q = (wmaxv, w0))
  (minmax_weight g i) (minmax_weight g' i).
Proof using EF Hu HB1 HB2.
  unfold minmax_weight, nbrs_wgts. rewrite wgts_units.
  change (nbrs (regeom g (map (wmul u) (g_val g)) (map (wmul v) (g_vol g)) (map (map (wmul l)) (g_cen g)))) with (nbrs g).
  destruct (nbrs g i) as [ns|]; simpl; [|constructor].
  destruct (wgts g i) as [ws|] eqn:Hw; simpl; [|constructor]. constructor.
  assert (∀ w, w ∈ ws → w ∈ g_val g) as Hin.
  { unfold wgts in Hw. destruct (vget (g_row g) i) as [a|]; simpl in Hw; [|done].
    destruct (vget (g_row g) (S i)) as [b|]; simpl in Hw; [|done]. unfold vrange in Hw. case_decide; [|done].
    injection Hw as <-. intros w Hx. unfold slice in Hx. apply elem_of_take in Hx as (j & Hx & _).
    rewrite lookup_drop in Hx. by eapply elem_of_list_lookup_2. }
  clear Hw. match goal with |- context [foldl ?f (wmaxv, w0) (zip ns ws)] => set (F := f) end.
  assert (∀ p q : W * W, q.1 = wmul u p.1 ∧ q.2 = wmul u p.2 ∨ p = (wmaxv, w0) ∧ q = (wmaxv, w0) →
    (foldl F q (zip ns (map (wmul u) ws))).1 = wmul u (foldl F p (zip ns ws)).1 ∧
    (foldl F q (zip ns (map (wmul u) ws))).2 = wmul u (foldl F p (zip ns ws)).2 ∨
    foldl F p (zip ns ws) = (wmaxv, w0) ∧ foldl F q (zip ns (map (wmul u) ws)) = (wmaxv, w0)) as HF.
  { revert ws Hin. induction ns as [|x ns IH]; intros [|w ws] Hin p q Hpq; simpl; try done.
    apply (IH ws); [intros y Hy; apply Hin; by right|]. clear IH. destruct p as [mn mx], q as [mn' mx']. unfold F. simpl in Hpq.
    match goal with |- context [if ?b then _ else _] => destruct b end; [|done]. left. simpl in *.
    assert (w ∈ g_val g) as Hwv by (apply Hin; by left). pose proof (mono_pos EF u Hu) as Mu.
    destruct Hpq as [[-> ->]|[[= -> ->] [= -> ->]]].
    - rewrite !Mu. split; by destruct (wlt _ _).
    - rewrite (HB1 w Hwv), (HB2 w Hwv). split; [done|].
      assert (wlt w0 (wmul u w) = wlt w0 w) as -> by (rewrite <- (Mu w0 w); f_equal; ring).
      destruct (wlt w0 w); [done|ring]. }
  apply (HF (wmaxv, w0) (wmaxv, w0)). by right.
Qed.
Lemma AR_units p q : q.1 = wmul u p.1 ∧ q.2 = wmul u p.2 ∨ p = (wmaxv, w0) ∧ q = (wmaxv, w0) →
  compute_AR g' q.1 q.2 = compute_AR g p.1 p.2.
Proof using EF Hu.
  intros [[-> ->]|[-> ->]]; [|done]. unfold compute_AR. cbn [g_2d regeom]. rewrite (scale_div EF), (ef_unit EF) by done.
  by replace (wmul w1 (wdiv p.2 p.1)) with (wdiv p.2 p.1) by ring.
Qed.
Definition rtag (s t : tag_state) : Prop :=
  t.1.1 = map (wmul (wdiv w1 ll)) s.1.1 ∧ t.1.2 = map (wmul kl) s.1.2 ∧ t.2 = s.2.
Lemma inv_dists_units i alt : both (λ p q : list W * W, q.1 = map (wmul (wdiv w1 ll)) p.1 ∧ q.2 = wmul (wdiv w1 ll) p.2)
  (inv_dists g i alt) (inv_dists g' i (map (wmul (wdiv w1 ll)) alt)).
Proof using EF Hl.
  unfold inv_dists. cbn [g_row g_cen regeom].
  change (nbrs (regeom g (map (wmul u) (g_val g)) (map (wmul v) (g_vol g)) (map (map (wmul l)) (g_cen g)))) with (nbrs g).
  destruct (vget (g_row g) i) as [off|]; simpl; [|constructor]. destruct (nbrs g i) as [ns|]; simpl; [|constructor].
  rewrite vget_map. destruct (vget (g_cen g) i) as [c|]; simpl; [|constructor].
  assert (mono (wdiv w1 ll)) as M.
  { apply (mono_inv EF). unfold above0. rewrite <- (scale_0 EF l). rewrite (ef_mul EF) by done. done. }
  eapply (both_bind (λ p q : list W * W * nat, q.1.1 = map (wmul (wdiv w1 ll)) p.1.1 ∧ q.1.2 = wmul (wdiv w1 ll) p.1.2 ∧ q.2 = p.2)).
  - apply both_foldM; [split_and!; [done|simpl; ring|done]|].
    intros [[al m] pos] [[al' m'] pos'] n _ (E1 & E2 & E3). simpl in *. subst al' m' pos'.
    rewrite vget_map. apply both_fun. intros b _. rewrite sqdist_units. apply both_fun. intros d _.
    rewrite (ef_inv EF ll d), (vset_map (wmul (wdiv w1 ll))). apply both_fun. intros al2 _. constructor. simpl. rewrite M. by destruct (wlt _ _).
  - intros [[al m] pos] [[al' m'] pos'] (E1 & E2 & E3). by constructor.
Qed.
Lemma tag_cell_units prio thr s t i : rtag s t → both rtag (tag_cell ap g prio thr s i) (tag_cell ap g' prio thr t i).
Proof using EF Hu Hl HB1 HB2.
  destruct s as [[alt mw] aw], t as [[alt' mw'] aw']. intros (E1 & E2 & E3). simpl in *. subst alt' mw' aw'. unfold tag_cell.
  eapply (both_bind eq).
  { destruct (wlt thr w0); [apply both_refl|]. eapply both_bind; [apply minmax_units|]. intros p q Hpq.
    rewrite (AR_units p q Hpq). apply both_refl. }
  intros aw1 ? <-. unfold kl. destruct (ap_mindist ap) eqn:Em.
  - eapply both_bind; [apply inv_dists_units|]. intros p q [E1 E2]. rewrite E2, vset_map. apply both_fun.
    intros mw1 _. constructor. split_and!; simpl; [done|unfold kl; by rewrite Em|done].
  - eapply (both_bind (λ m m', m' = wmul u m)).
    { destruct (wlt thr w0).
      - rewrite wgts_units. apply both_fun. intros [|w ws] _; simpl; constructor.
        pose proof (mono_pos EF u Hu) as Mu. revert w. induction ws as [|x ws IH]; intros w; simpl; [done|].
        rewrite Mu. destruct (wlt w x); apply IH.
      - eapply both_bind; [apply minmax_units|]. intros p q [[_ E]|[-> ->]]; constructor; [done|simpl; ring]. }
    intros m ? ->. rewrite vset_map. apply both_fun. intros mw1 _. constructor. split_and!; simpl; [done|unfold kl; by rewrite Em|done].
Qed.
Lemma map_repl (k : W) n : map (wmul k) (replicate n w0) = replicate n w0.
Proof using EF. induction n as [|n IH]; simpl; [done|]. rewrite IH. f_equal. ring. Qed.
Lemma tag_units prio thr : both (λ p q : list W * list W * list bool * list nat,
    q.1.1.1 = map (wmul (wdiv w1 ll)) p.1.1.1 ∧ q.1.1.2 = map (wmul kl) p.1.1.2 ∧ q.1.2 = p.1.2 ∧ q.2 = p.2)
  (tag_anisotropic_cells ap g prio thr) (tag_anisotropic_cells ap g' prio thr).
Proof using EF Hu Hl HB1 HB2.
  unfold tag_anisotropic_cells. cbn [g_compl g_n g_val regeom]. rewrite map_length.
  eapply (both_bind rtag).
  - apply both_foldM; [|intros s t i _; apply tag_cell_units]. split_and!; simpl; [|by rewrite map_repl|done].
    destruct (ap_mindist ap); [by rewrite map_repl|done].
  - intros [[alt mw] aw] [[alt' mw'] aw'] (E1 & E2 & E3). simpl in *. subst.
    destruct (foldM _ _ _) as [ia|]; simpl; [|constructor]. by constructor.
Qed.

(** ** Candidates *)
Definition kpair (p : nat * W) : nat * W := (p.1, wmul kl p.2).
Lemma insert_units p s : pset_insert (kpair p) (map kpair s) = map kpair (pset_insert p s).
Proof using EF Hu Hl.
  assert (∀ a b, pair_gt (kpair a) (kpair b) = pair_gt a b) as HG.
  { intros a b. unfold pair_gt, kpair. cbn [fst snd]. by rewrite !mono_kl. }
  induction s as [|q s IH]; simpl; [done|]. rewrite !HG. destruct (pair_gt p q); [done|]. destruct (pair_gt q p); [|done].
  simpl. by rewrite IH.
Qed.
Lemma nbrs_ref_units ws i : nbrs_ref g' (map (wmul kl) ws) i = (r ← nbrs_ref g ws i; Ok (map kpair r)).
Proof.
  unfold nbrs_ref. cbn [g_row regeom].
  change (nbrs (regeom g (map (wmul u) (g_val g)) (map (wmul v) (g_vol g)) (map (map (wmul l)) (g_cen g)))) with (nbrs g).
  destruct (vget (g_row g) i) as [off|]; simpl; [|done]. destruct (nbrs g i) as [ns|]; simpl; [|done].
  rewrite vrange_map. destruct (vrange ws off _) as [w|]; simpl; [|done]. f_equal.
  revert w. induction ns as [|x ns IH]; intros [|y w]; simpl; try done. by rewrite IH.
Qed.
Lemma high_units w m : is_high_coupling (wmul kl w) (wmul kl m) = is_high_coupling w m.
Proof using EF Hu Hl. unfold is_high_coupling. rewrite <- (mono_kl (wmul w090 m) w). f_equal. ring. Qed.
Lemma cand_max_units seed tr ws mw : both (λ s t, t = map kpair s)
  (cand_max_weight g seed tr ws mw) (cand_max_weight g' seed tr (map (wmul kl) ws) (map (wmul kl) mw)).
Proof using EF Hu Hl.
  unfold cand_max_weight. rewrite nbrs_ref_units. apply both_fun. intros ps _.
  apply (both_foldM2 (λ p q, q = kpair p)); [|done|].
  - induction ps; simpl; constructor; done.
  - intros s ? [n w] ? -> ->. simpl. destruct (vget tr n) as [t|]; simpl; [|constructor]. destruct t; [|by constructor].
    rewrite vget_map. apply both_fun. intros m _. rewrite high_units. constructor. destruct (is_high_coupling w m); [|done].
    by rewrite <- insert_units.
Qed.

(** ** Directions *)
Definition rdir (d d' : list W) : Prop := length d = dimc ∧ length d' = dimc ∧ (ap_force ap = true → d' = d).
Lemma norm_units d acc : foldl (λ acc di, wadd acc (wmul di di)) (wmul ll acc) (map (wmul l) d) = wmul ll (foldl (λ acc di, wadd acc (wmul di di)) acc d).
Proof using EF. revert acc. induction d as [|x d IH]; intros acc; simpl; [done|]. rewrite <- IH. f_equal. ring. Qed.
Lemma dir_diff_len a b d : dir_diff a b = Ok d → length d = length a.
Proof.
  revert b d. induction a as [|x a IH]; intros [|y b] d; simpl; [by intros [= <-]..|done|].
  destruct (dir_diff a b) as [r|] eqn:E; simpl; [|done]. intros [= <-]. simpl. f_equal. by eapply IH.
Qed.
Lemma direction_units a b d d' : length a = dimc → rdir d d' →
  both rdir (get_direction a b d) (get_direction (map (wmul l) a) (map (wmul l) b) d').
Proof using EF HQ Hl.
  intros Ha (Hd & Hd' & He). unfold get_direction. rewrite dir_diff_units. apply both_fun. intros r Hr. apply dir_diff_len in Hr.
  rewrite map_length. rewrite !decide_True by lia. constructor.
  rewrite !drop_ge by lia. rewrite !(right_id_L [] (++)). split_and!; [rewrite !map_length; lia..|].
  intros Hf. rewrite map_map. apply map_ext. intros x.
  replace w0 with (wmul ll w0) at 1 by ring. rewrite norm_units, (HQ Hf), (ef_inv EF).
  set (N := wdiv w1 (wsqrt _)). transitivity (wmul (wmul l (wdiv w1 l)) (wmul x N)); [ring|]. rewrite (ef_unit EF) by done. ring.
Qed.
Lemma cen_units' i : vget (map (map (wmul l)) (g_cen g)) i = (c ← vget (g_cen g) i; Ok (map (wmul l) c)).
Proof. apply vget_map. Qed.
Lemma cand_direction_units seed tr ws mw dir dir' chk : ap_force ap = true → rdir dir dir' →
  cand_direction g' seed tr (map (wmul kl) ws) (map (wmul kl) mw) dir' chk = cand_direction g seed tr ws mw dir chk.
Proof using EF Hu Hl HQ Hdim.
  intros Hf (_ & _ & Hd). rewrite (Hd Hf). symmetry. apply both_eq.
  unfold cand_direction. rewrite nbrs_ref_units. apply both_fun. intros ps _. cbn [g_cen regeom].
  rewrite (cen_units' 0). apply both_fun. intros c0 Hc0. apply vget_inv, Hdim in Hc0. rewrite map_length, Hc0.
  apply (both_foldM2 (λ p q, q = kpair p)); [|done|].
  - induction ps; simpl; constructor; done.
  - intros s ? [n w] ? -> <-. simpl. destruct (vget tr n) as [t|]; simpl; [|constructor]. destruct t; [|by constructor].
    eapply (both_bind eq).
    { destruct chk; [|by constructor]. rewrite vget_map. apply both_fun. intros m _. rewrite high_units. by constructor. }
    intros ok ? <-. destruct ok; [|by constructor].
    rewrite !cen_units'. apply both_fun. intros cn Hcn. apply both_fun. intros cs _. apply vget_inv, Hdim in Hcn.
    assert (rdir (replicate dimc w0) (replicate dimc w0)) as Hr by (split_and!; [apply replicate_length..|done]).
    eapply both_bind; [apply (direction_units _ _ _ _ Hcn Hr)|]. intros d d' (_ & _ & He). rewrite (He Hf). apply both_refl.
Qed.
Record rline (s t : line_st) : Prop := {
  rl_seed : ls_seed t = ls_seed s;
  rl_line : ls_line t = ls_line s;
  rl_tt : ls_tt t = ls_tt s;
  rl_opp : ls_opp t = ls_opp s;
  rl_dir : rdir (ls_dir s) (ls_dir t);
  rl_primal : match ls_primal s, ls_primal t with Some d, Some d' => rdir d d' | None, None => True | _, _ => False end;
  rl_empty : ls_empty t = ls_empty s;
}.
Lemma line_add_units s t c : rline s t → both rline (line_add g s c) (line_add g' t c).
Proof using EF Hl HQ Hdim.
  intros [E1 E2 E3 E4 E5 E6 E7]. unfold line_add. rewrite E1, E2, E3, E4. cbn [g_cen regeom].
  destruct (vset (ls_tt s) c false) as [tr|]; simpl; [|constructor]. rewrite !cen_units'.
  apply both_fun. intros cn Hcn. apply both_fun. intros co _. apply vget_inv, Hdim in Hcn.
  eapply both_bind; [apply (direction_units _ _ _ _ Hcn E5)|]. intros d d' Hd. constructor. split; simpl; try done.
  by destruct (ls_primal s), (ls_primal t).
Qed.
Definition ropt (a b : option line_st) : Prop := match a, b with Some s, Some t => rline s t | None, None => True | _, _ => False end.
Lemma line_turn_units primal s t : rline s t → both ropt (line_turn primal s) (line_turn primal t).
Proof using HQ.
  intros [E1 E2 E3 E4 E5 E6 E7]. unfold line_turn. rewrite E1, E2, E3, E4, E7.
  destruct (negb _ && _); [|by constructor].
  destruct (ls_primal s) as [d|] eqn:Hd, (ls_primal t) as [d'|] eqn:Hd'; simpl; try done; try constructor.
  destruct E5 as (L1 & L2 & He), E6 as (M1 & M2 & Me). rewrite !decide_True by lia. constructor. split; simpl; try done.
  split_and!; [rewrite map_length, take_length; lia..|]. intros Hf. by rewrite (Me Hf), L1, L2.
Qed.
Lemma line_step_units ws mw primal s t : rline s t →
  both ropt (line_step ap g ws mw primal s) (line_step ap g' (map (wmul kl) ws) (map (wmul kl) mw) primal t).
Proof using EF Hu Hl HQ Hdim.
  intros HR. pose proof HR as [E1 E2 E3 E4 E5 E6 E7]. unfold line_step. rewrite E1, E3, E7.
  assert (∀ c, both ropt (s ← line_add g s c; Ok (Some s)) (s ← line_add g' t c; Ok (Some s))) as HA.
  { intros c. eapply both_bind; [by apply line_add_units|]. intros s1 t1 H1. by constructor. }
  eapply (both_bind (λ a b : list (nat * W), map fst b = map fst a)).
  { destruct (negb (ap_force ap) || ls_empty s) eqn:Hf.
    - destruct (cand_max_units (ls_seed s) (ls_tt s) ws mw) as [a ? ->|]; constructor. rewrite map_map. done.
    - apply orb_false_iff in Hf as [Hf _]. apply negb_false_iff in Hf.
      rewrite (cand_direction_units _ _ _ _ _ _ _ Hf E5). destruct (cand_direction _ _ _ _ _ _ _); by constructor. }
  intros [|[c w] a] [|[c' w'] b] Hab; try done; simpl in Hab.
  - destruct (ap_force ap && negb (ls_empty s)) eqn:Hf; [|by apply line_turn_units].
    apply andb_true_iff in Hf as [Hf _]. rewrite (cand_direction_units _ _ _ _ _ _ _ Hf E5).
    destruct (cand_direction _ _ _ _ _ _ _) as [cs|]; simpl; [|constructor]. destruct cs as [|[c w] cs]; [by apply line_turn_units|apply HA].
  - injection Hab as -> _. apply HA.
Qed.
Lemma line_loop_units ws mw primal fuel : ∀ s t, rline s t →
  both rline (line_loop fuel ap g ws mw primal s) (line_loop fuel ap g' (map (wmul kl) ws) (map (wmul kl) mw) primal t).
Proof using EF Hu Hl HQ Hdim.
  induction fuel as [|fuel IH]; intros s t HR; simpl; [constructor|].
  eapply both_bind; [by apply line_step_units|]. intros [s1|] [t1|] H1; try done; [by apply IH|by constructor].
Qed.
Lemma build_units prio thr : build_anisotropic_lines ap g' prio thr = build_anisotropic_lines ap g prio thr.
Proof using EF Hu Hl HQ Hdim HB1 HB2.
  symmetry. apply both_eq. unfold build_anisotropic_lines. eapply both_bind; [apply tag_units|].
  intros [[[alt mw] tr] seeds] [[[alt' mw'] tr'] seeds'] (E1 & E2 & E3 & E4). simpl in *. subst.
  destruct seeds as [|s seeds]; [by constructor|]. rewrite (cen_units' 0). apply both_fun. intros c0 Hc0.
  apply vget_inv, Hdim in Hc0. rewrite map_length, Hc0.
  assert ((if ap_mindist ap then map (wmul (wdiv w1 ll)) alt else map (wmul u) (g_val g)) = map (wmul kl) (if ap_mindist ap then alt else g_val g)) as ->.
  { unfold kl. by destruct (ap_mindist ap). }
  rewrite (foldM_ext_eq (build_line ap g' (map (wmul kl) (if ap_mindist ap then alt else g_val g)) (map (wmul kl) mw) dimc)
    (build_line ap g (if ap_mindist ap then alt else g_val g) mw dimc)); [apply both_refl|].
  intros [tr' lines] i. symmetry. apply both_eq. unfold build_line. destruct (vget tr' i) as [b|]; simpl; [|constructor].
  destruct b; [|by constructor]. destruct (vset tr' i false) as [tr2|]; cbn [mbind res_bind]; [|constructor].
  eapply both_bind; [apply line_loop_units|].
  - split; simpl; try done. split_and!; [apply replicate_length..|done].
  - intros s1 t1 HR. rewrite (rl_tt _ _ HR), (rl_line _ _ HR). by constructor.
Qed.
End lines.

Section main.
Context {A : Arith} {H : HashOrder}.
Lemma units (i : input) (o : outs) (u v l : W) :
  exact_field → good_call i o → units_ok i u v l → in_ar i ≠ 7%Z → in_ar i ≠ 8%Z →
  agglomerate_one_level (rescaled i u v l) o = agglomerate_one_level i o.
Proof.
  intros EF HG [Hu Hv Hl HR Hval Hsq] H7 H8. set (g := graph_of i).
  pose proof HG as [WM HA _ _ _]. pose proof (mesh_wfg i WM) as WF. pose proof (mesh_wfd i WM (ac_dim _ HA)) as WD.
  assert (graph_of (rescaled i u v l) = regeom g (map (wmul u) (g_val g)) (map (wmul v) (g_vol g)) (map (map (wmul l)) (g_cen g))) as Hg by done.
  unfold agglomerate_one_level.
  assert (phase1 (rescaled i u v l) o = phase1 i o) as ->.
  { unfold phase1. assert (sanity (rescaled i u v l) o = sanity i o) as ->.
    { unfold sanity. cbn [in_val rescaled put_geom]. by rewrite map_length. }
    change (pool_of (rescaled i u v l)) with (pool_of i).
    destruct (sanity i o) as [an|] eqn:Hs; simpl; [|done]. destruct (pool_of i) as [p|] eqn:Hp; simpl; [|done].
    change (sing_thresh (rescaled i u v l)) with (sing_thresh i). change (aniso_params_of (rescaled i u v l)) with (aniso_params_of i).
    rewrite Hg. destruct an; [|done].
    assert (lines_of (in_build i) (aniso_params_of i) (regeom g (map (wmul u) (g_val g)) (map (wmul v) (g_vol g)) (map (map (wmul l)) (g_cen g)))
        (in_prio i) (in_thr i) (o_idx o) (o_lines o)
      = lines_of (in_build i) (aniso_params_of i) g (in_prio i) (in_thr i) (o_idx o) (o_lines o)) as HL.
    { destruct (in_build i) eqn:Hb; [|done]. unfold lines_of.
      assert (in_aniso i = true) as Ha.
      { unfold sanity in Hs. rewrite Hb in Hs. clear -Hs. destruct (in_aniso i); [done|]. simpl in Hs.
        repeat match type of Hs with (_ ← ?e; _) = _ => destruct e; simpl in Hs; try done end. }
      destruct (wd_dim _ _ WD) as [dimc Hdc]. destruct (Hval Ha eq_refl) as [HV1 HV2].
      apply (build_units EF g dimc Hdc u v l Hu Hl); [exact HV1| |exact (Hsq Ha eq_refl)].
      intros w Hw. apply HV2. by apply elem_of_list_fmap_1. }
    rewrite HL. change (graph_of i) with g.
    destruct (lines_of (in_build i) (aniso_params_of i) g (in_prio i) (in_thr i) (o_idx o) (o_lines o)) as [lines|]; [|done]. simpl. by rewrite aniso_agglomerate_geom. }
  pose proof (phase1_wp i o HG) as HW. destruct (phase1 i o) as [[[ct p] lo]|]; [|done]. simpl in HW.
  assert (phase2 (rescaled i u v l) ct p = phase2 i ct p) as ->; [|done].
  unfold phase2. change (iso_params_of (rescaled i u v l)) with (iso_params_of i).
  destruct (iso_params_ok i HA) as (ip & Hip & Hd & Hmn & Hgl & Hmx). rewrite Hip. cbn [mbind res_bind].
  destruct (ip_kind _ _ Hip) as [HK HM].
  rewrite Hg. unfold iso_agglomerate. cbn [g_n regeom in_corr rescaled put_geom in_prio].
  rewrite (iso_loop_units EF g (in_prio i) WF WD ip); [done|..].
  all: try done; try (rewrite ?Hmn, ?Hgl, ?Hmx, ?Hd; destruct HA; lia).
  all: try apply HW.
  - intros Hk. by apply HR, HK.
  - intros Hk. by apply HR, HK.
Qed.
End main.
