(** * GeoV: units do not matter (C56) *)

From Coq Require Import Ring.
From Verif Require Import Lib Spec Main SpecFeat SpecAR SpecGeo UseT GeoT GeoU IsoP FeatT MainP.

(** ** Scaling *)
Section scale.
Context {A : Arith} (EF : exact_field).
Add Ring Wr : (ea_ring (ef_ring EF)).
Definition mono (k : W) : Prop := ∀ a b, wlt (wmul k a) (wmul k b) = wlt a b.
Lemma mono_pos k : above0 k → mono k.
Proof using EF. intros Hk a b. by apply (ef_mul EF). Qed.
Lemma mono_inv k : above0 k → mono (wdiv w1 k).
Proof using EF. intros Hk. by apply mono_pos, (ef_inv_pos EF). Qed.
Lemma mono_mul a b : mono a → mono b → mono (wmul a b).
Proof using EF. intros Ha Hb x y. replace (wmul (wmul a b) x) with (wmul a (wmul b x)) by ring.
  replace (wmul (wmul a b) y) with (wmul a (wmul b y)) by ring. by rewrite Ha, Hb. Qed.
Lemma mono_1 : mono w1.
Proof using EF. intros x y. replace (wmul w1 x) with x by ring. by replace (wmul w1 y) with y by ring. Qed.
Lemma scale_0 k : wmul k w0 = w0.
Proof using EF. ring. Qed.
Lemma scale_div a b x y : wdiv (wmul a x) (wmul b y) = wmul (wmul a (wdiv w1 b)) (wdiv x y).
Proof using EF. rewrite (ef_div EF), (ef_inv EF), (ef_div EF x y). ring. Qed.
Lemma scale_sum k l : wsum (map (wmul k) l) = wmul k (wsum l).
Proof using EF. rewrite !(ea_sum (ef_ring EF)). induction l as [|x l IH]; simpl; [ring|]. rewrite IH. ring. Qed.
Lemma scale_dist k a b : dist2 (map (wmul k) a) (map (wmul k) b) = wmul (wmul k k) (dist2 a b).
Proof using EF.
  unfold dist2. revert b. induction a as [|x a IH]; intros [|y b]; unfold sum_l; simpl; try ring.
  unfold sum_l in IH. rewrite IH. ring.
Qed.
Lemma scale_sq a x : wsq (wmul a x) = wmul (wsq a) (wsq x).
Proof using EF. unfold wsq. ring. Qed.
Lemma scale_cb a x : wcb (wmul a x) = wmul (wcb a) (wcb x).
Proof using EF. unfold wcb. ring. Qed.
End scale.
Lemma vget_map {A B} (f : A → B) l i : vget (map f l) i = (x ← vget l i; Ok (f x)).
Proof. unfold vget. rewrite list_lookup_fmap. by destruct (l !! i). Qed.
Lemma vrange_map {A B} (f : A → B) l a b : vrange (map f l) a b = (x ← vrange l a b; Ok (map f x)).
Proof.
  unfold vrange. rewrite map_length. case_decide; [|done]. simpl. f_equal. unfold slice.
  by rewrite skipn_map, firstn_map.
Qed.

Section units.
Context {A : Arith} {H : HashOrder} (EF : exact_field).
Context (g : graph) (prio : list W) (WF : wfg g) (WD : wfd g prio).
Context (ip : iso_params).
Context (Hmin : (1 < ip_min ip)%Z) (Hgoal : (ip_min ip <= ip_goal ip)%Z)
  (Hmax : (ip_goal ip <= ip_max ip)%Z) (Hdim2 : (2 <= ip_dim ip)%Z).
Context (u v l : W) (Hu : above0 u) (Hv : above0 v) (Hl : above0 l).
Notation k := (ip_ar ip).
Context (Hm : needs_moments k = false).
Context (HR1 : needs_distances k = true → in_range (g_cen g)).
Context (HR2 : needs_distances k = true → in_range (map (map (wmul l)) (g_cen g))).
Notation g' := (regeom g (map (wmul u) (g_val g)) (map (wmul v) (g_vol g)) (map (map (wmul l)) (g_cen g))).
Notation ll := (wmul l l).
Add Ring Wr2 : (ea_ring (ef_ring EF)).

Lemma wgts_units i : wgts g' i = (w ← wgts g i; Ok (map (wmul u) w)).
Proof.
  unfold wgts. cbn [g_row g_val regeom]. destruct (vget (g_row g) i); simpl; [|done].
  destruct (vget (g_row g) (S i)); simpl; [|done]. apply vrange_map.
Qed.
Lemma etw_units i : estimated_total_weight g' i = (w ← estimated_total_weight g i; Ok (wmul u w)).
Proof using EF.
  unfold estimated_total_weight, estimated_boundary_weight. rewrite wgts_units.
  change (n_bnd (regeom g (map (wmul u) (g_val g)) (map (wmul v) (g_vol g)) (map (map (wmul l)) (g_cen g)))) with (n_bnd g).
  change (nb_nbrs (regeom g (map (wmul u) (g_val g)) (map (wmul v) (g_vol g)) (map (map (wmul l)) (g_cen g)))) with (nb_nbrs g).
  destruct (wgts g i) as [w|]; simpl; [|done]. destruct (n_bnd g i) as [b|]; simpl; [|done].
  rewrite (scale_sum EF). destruct (bool_decide (b = 0%Z)); simpl; [f_equal; ring|].
  destruct (nb_nbrs g i) as [m|]; simpl; [|done]. f_equal.
  rewrite (ef_div EF (wmul (wofZ b) (wmul u (wsum w)))), (ef_div EF (wmul (wofZ b) (wsum w))). ring.
Qed.
Lemma shared_units i X : compute_shared_faces g' i X = (r ← compute_shared_faces g i X; Ok (wmul u r.1, r.2)).
Proof using EF.
  unfold compute_shared_faces, nbrs_wgts. rewrite wgts_units.
  change (nbrs (regeom g (map (wmul u) (g_val g)) (map (wmul v) (g_vol g)) (map (map (wmul l)) (g_cen g)))) with (nbrs g).
  destruct (nbrs g i) as [ns|]; simpl; [|done]. destruct (wgts g i) as [ws|]; simpl; [|done]. f_equal.
  assert (∀ s (m : gset nat), foldl (λ '(sw, sf) '(n, w), if bool_decide (n ≠ i) && bool_decide (n ∈ X)
        then (wadd sw w, {[n]} ∪ sf) else (sw, sf)) (wmul u s, m) (zip ns (map (wmul u) ws)) =
     let r := foldl (λ '(sw, sf) '(n, w), if bool_decide (n ≠ i) && bool_decide (n ∈ X)
        then (wadd sw w, {[n]} ∪ sf) else (sw, sf)) (s, m) (zip ns ws) in (wmul u r.1, r.2)) as HF.
  { revert ws. induction ns as [|x ns IH]; intros [|w ws] s m; simpl; try done.
    destruct (bool_decide (x ≠ i) && bool_decide (x ∈ X)); [|apply IH].
    rewrite <- IH. do 3 f_equal. ring. }
  rewrite <- HF. do 3 f_equal. ring.
Qed.

(** ** Features *)
Definition scaled_dist (X : gset nat) (f f' : feats) : Prop :=
  size X = 1 ∧ (f_sqdiam f = wminv ∧ f_sqdiam f' = wminv) ∧ (f_sqmin f = wmaxv ∧ f_sqmin f' = wmaxv) ∨
  1 < size X ∧ f_sqdiam f' = wmul ll (f_sqdiam f) ∧ f_sqmin f' = wmul ll (f_sqmin f).
Record RU (X : gset nat) (f f' : feats) : Prop := {
  ru_ne : 1 ≤ size X;
  ru_meas : f_meas f' = wmul v (f_meas f);
  ru_ext : f_ext f' = wmul u (f_ext f);
  ru_int : f_int f' = wmul u (f_int f);
  ru_nint : f_nint f' = f_nint f;
  ru_dist : needs_distances k = true → scaled_dist X f f';
}.
Definition kap (X : gset nat) : W :=
  match k with
  | DiamOverRadius true => wmul ll (wdiv w1 v)
  | DiamOverRadius false => wmul (wcb ll) (wdiv w1 (wsq v))
  | OverMeasure => wdiv w1 v
  | DiamOverMinEdge => if bool_decide (size X = 1) then ll else wmul ll (wdiv w1 ll)
  | PerimOverRadius true => wmul (wsq u) (wdiv w1 v)
  | PerimOverRadius false => wmul (wcb u) (wdiv w1 (wsq v))
  | AlgPerimOverMeasure => wmul u (wdiv w1 v)
  | Diameter => ll
  | ExternalW => u
  | OverInternal => wdiv w1 u
  | _ => w1
  end.
Definition QU (X : gset nat) (a a' : W) : Prop := a' = wmul (kap X) a.
Lemma pos_ll : above0 ll.
Proof using EF Hl. unfold above0. rewrite <- (scale_0 EF l). rewrite (ef_mul EF) by done. done. Qed.
Lemma pos_vv : above0 (wsq v).
Proof using EF Hv. unfold above0, wsq. rewrite <- (scale_0 EF v). rewrite (ef_mul EF) by done. done. Qed.
Lemma mono_kap X : mono (kap X).
Proof using EF Hu Hv Hl.
  clear Hm HR1 HR2. pose proof (mono_pos EF l Hl) as Ml1. pose proof (mono_pos EF u Hu) as Mu. pose proof (mono_inv EF u Hu) as Mu'. pose proof (mono_inv EF v Hv) as Mv.
  pose proof (mono_pos EF ll pos_ll) as Ml. pose proof (mono_inv EF ll pos_ll) as Ml'. pose proof (mono_inv EF (wsq v) pos_vv) as Mvv.
  unfold kap, wcb. assert (mono (wsq u)) as Mu2 by by apply (mono_mul EF). pose proof (mono_1 EF).
  destruct k as [b| | | | |b| |b| |]; try destruct b; repeat case_bool_decide; try done; repeat apply (mono_mul EF); done.
Qed.
Lemma QU_lt X a a' b b' : QU X a a' → QU X b b' → wlt a' b' = wlt a b.
Proof using EF Hu Hv Hl. intros -> ->. apply mono_kap. Qed.
Lemma QU_0 X : QU X w0 w0.
Proof using EF. unfold QU. by rewrite (scale_0 EF). Qed.

Lemma basic_units cw i f f' X :
  f_meas f' = wmul v (f_meas f) → f_ext f' = wmul u (f_ext f) → f_int f' = wmul u (f_int f) → f_nint f' = f_nint f →
  both (λ p q : Z * feats, p.1 = q.1 ∧ f_meas q.2 = wmul v (f_meas p.2) ∧ f_ext q.2 = wmul u (f_ext p.2) ∧
      f_int q.2 = wmul u (f_int p.2) ∧ f_nint q.2 = f_nint p.2)
    (update_basic cw false g i f X) (update_basic cw false g' i f' X).
Proof using EF.
  intros E1 E2 E3 E4. unfold update_basic. rewrite shared_units, etw_units. cbn [g_vol regeom]. rewrite vget_map.
  destruct (vget (g_vol g) i) as [vol|]; simpl; [|constructor].
  destruct (compute_shared_faces g i X) as [[sw sf]|]; simpl; [|constructor]. destruct cw; simpl.
  - destruct (estimated_total_weight g i) as [t|]; simpl; [|constructor]. constructor. simpl.
    split_and!; [done|rewrite E1; ring|rewrite E2; ring|rewrite E3; ring|by rewrite E4].
  - constructor. simpl. split_and!; [done|rewrite E1; ring|ring|ring|by rewrite E4].
Qed.
Lemma cen_units i c : g_cen g !! i = Some c → map (map (wmul l)) (g_cen g) !! i = Some (map (wmul l) c).
Proof. intros Hc. by rewrite list_lookup_fmap, Hc. Qed.
Lemma approx_units i f f' X : i ∉ X → X ≠ ∅ → needs_distances k = true → scaled_dist X f f' →
  both (λ p q : W * W, q.1 = wmul ll p.1 ∧ q.2 = wmul ll p.2) (approx_features g i f X) (approx_features g' i f' X).
Proof using EF HR1 HR2 WD Hl.
  intros Hi HX Hk HD. unfold approx_features. cbn [g_cen regeom]. rewrite vget_map.
  destruct (vget (g_cen g) i) as [c|] eqn:Hc; simpl; [|constructor]. apply vget_inv in Hc.
  assert (∀ p q : W * W, p = (f_sqdiam f, f_sqmin f) ∧ q = (f_sqdiam f', f_sqmin f') ∨ q.1 = wmul ll p.1 ∧ q.2 = wmul ll p.2 → ∀ j, j ∈ X →
    both (λ p q : W * W, q.1 = wmul ll p.1 ∧ q.2 = wmul ll p.2)
      (let '(md, me) := p in c' ← vget (g_cen g) j; d ← sqdist c c'; Ok (if wlt md d then d else md, if wlt d me then d else me))
      (let '(md, me) := q in c' ← vget (map (map (wmul l)) (g_cen g)) j; d ← sqdist (map (wmul l) c) c'; Ok (if wlt md d then d else md, if wlt d me then d else me))) as HS.
  { intros [md me] [md' me'] Hpq j Hj. rewrite vget_map. destruct (vget (g_cen g) j) as [b|] eqn:Hb; simpl; [|constructor].
    apply vget_inv in Hb. destruct (wd_dim _ _ WD) as [dimc Hdc].
    assert (length c = length b) as Hlen by (rewrite (Hdc _ _ Hc); symmetry; by eapply Hdc).
    rewrite !(sqdist_eq (ef_ring EF)) by (rewrite ?map_length; done). simpl. rewrite (scale_dist EF).
    assert (i ≠ j) as Hij by by intros ->.
    constructor. simpl in *.
    assert (md' = wmul ll md ∧ me' = wmul ll me ∨ (md = wminv ∧ md' = wminv) ∧ me = wmaxv ∧ me' = wmaxv) as [[-> ->]|[[-> ->] [-> ->]]].
    { destruct Hpq as [[[= -> ->] [= -> ->]]|?]; [|by left]. destruct HD as [(_ & ? & ?)|(_ & ? & ?)]; [by right|by left]. }
    - rewrite !(mono_pos EF ll pos_ll). split; by destruct (wlt _ _).
    - destruct (HR1 Hk i j c b) as [-> ->]; [done..|].
      destruct (HR2 Hk i j (map (wmul l) c) (map (wmul l) b)) as [G1 G2]; [done|by apply cen_units..|].
      rewrite (scale_dist EF) in G1, G2. rewrite G1, G2. done. }
  pose proof (elem_of_hset s_approx X) as Hin. destruct (hset s_approx X) as [|j js] eqn:Hh.
  { exfalso. apply set_choose_L in HX as [x Hx]. apply Hin in Hx. by apply elem_of_nil in Hx. }
  simpl. eapply both_bind.
  - apply (HS (f_sqdiam f, f_sqmin f) (f_sqdiam f', f_sqmin f')); [by left|apply Hin; left].
  - intros p q Hpq. apply both_foldM; [done|]. intros [md me] [md' me'] j' Hj' Hpq'.
    apply (HS (md, me) (md', me')); [by right|apply Hin; by right].
Qed.
Lemma features_units i f f' X : i ∉ X → RU X f f' →
  both (λ p q : Z * W * feats, p.1.1 = q.1.1 ∧ QU X p.1.2 q.1.2 ∧ RU ({[i]} ∪ X) p.2 q.2)
    (compute_features k g i f X) (compute_features k g' i f' X).
Proof.
  intros Hi [Hne E1 E2 E3 E4 Hd].
  assert (size ({[i]} ∪ X) = S (size X)) as Hsz.
  { rewrite size_union, size_singleton; [done|]. set_solver. }
  assert (X ≠ ∅) as HX by (intros ->; rewrite size_empty in Hne; lia).
  assert (∀ cw (F F' : Z * feats → res (Z * W * feats)), needs_distances k = false →
    (∀ n b b', f_meas b' = wmul v (f_meas b) → f_ext b' = wmul u (f_ext b) → f_int b' = wmul u (f_int b) → f_nint b' = f_nint b →
      ∃ a a', F (n, b) = Ok (n, a, b) ∧ F' (n, b') = Ok (n, a', b') ∧ QU X a a') →
    both (λ p q : Z * W * feats, p.1.1 = q.1.1 ∧ QU X p.1.2 q.1.2 ∧ RU ({[i]} ∪ X) p.2 q.2)
      (b ← update_basic cw false g i f X; F b) (b ← update_basic cw false g' i f' X; F' b)) as HB.
  { intros cw F F' Hk HF. eapply both_bind; [by apply basic_units|]. intros [n b] [n' b'] (G0 & G1 & G2 & G3 & G4). simpl in *. subst n'.
    destruct (HF n b b' G1 G2 G3 G4) as (a & a' & -> & -> & HQ). constructor. simpl. split_and!; [done..|].
    split; try done; [lia|]. by rewrite Hk. }
  assert (∀ (F F' : Z * feats → W * W → res (Z * W * feats)), needs_distances k = true →
    (∀ n b b' a a', f_meas b' = wmul v (f_meas b) → a'.1 = wmul ll a.1 → a'.2 = wmul ll a.2 →
      ∃ r r', F (n, b) a = Ok (n, r, set_approx b a.1 a.2) ∧ F' (n, b') a' = Ok (n, r', set_approx b' a'.1 a'.2) ∧ QU X r r') →
    both (λ p q : Z * W * feats, p.1.1 = q.1.1 ∧ QU X p.1.2 q.1.2 ∧ RU ({[i]} ∪ X) p.2 q.2)
      (b ← update_basic false false g i f X; a ← approx_features g i f X; F b a)
      (b ← update_basic false false g' i f' X; a ← approx_features g' i f' X; F' b a)) as HA.
  { intros F F' Hk HF. eapply both_bind; [by apply basic_units|]. intros [n b] [n' b'] (G0 & G1 & G2 & G3 & G4). simpl in *. subst n'.
    eapply both_bind; [exact (approx_units i f f' X Hi HX Hk (Hd Hk))|]. intros a a' [Ga Ga'].
    destruct (HF n b b' a a' G1 Ga Ga') as (r & r' & -> & -> & HQ). constructor. simpl. split_and!; [done..|].
    split; try done; [lia|]. intros _. right. split; [lia|done]. }
  unfold compute_features. unfold QU, kap in *. clear E1 E2 E3 E4 Hd.
  destruct k as [b2| | | | |b2| |b2| |]; try done; try apply HA; try apply HB; try done.
  - intros n b b' a a' G1 Ga Ga'. do 2 eexists. split_and!; [done..|]. cbn [f_sqdiam f_meas set_approx snd]. rewrite G1, Ga.
    unfold x_over_radius. destruct b2; [apply (scale_div EF)|]. rewrite (scale_cb EF), (scale_sq EF). apply (scale_div EF).
  - intros n b b' a a' G1 Ga Ga'. do 2 eexists. split_and!; [done..|]. cbn [f_sqdiam f_sqmin set_approx snd]. rewrite Ga, Ga'.
    case_bool_decide; [done|]. apply (scale_div EF).
  - intros n b b' a a' G1 Ga Ga'. do 2 eexists. split_and!; [done..|]. done.
  - intros n b b' G1 G2 G3 G4. do 2 eexists. split_and!; [done..|]. cbn [snd]. rewrite G1. apply (ef_inv EF).
  - intros n b b' G1 G2 G3 G4. do 2 eexists. split_and!; [done..|]. cbn [snd]. rewrite G3. apply (ef_inv EF).
  - intros n b b' G1 G2 G3 G4. do 2 eexists. split_and!; [done..|]. cbn [snd]. rewrite G1, G2.
    destruct b2; rewrite ?(scale_cb EF), ?(scale_sq EF); apply (scale_div EF).
  - intros n b b' G1 G2 G3 G4. do 2 eexists. split_and!; [done..|]. done.
  - intros n b b' G1 G2 G3 G4. do 2 eexists. split_and!; [done..|]. cbn [snd]. rewrite G1, G2. apply (scale_div EF).
Qed.
Lemma cell_units s : both (RU {[s]}) (feats_of_cell g s) (feats_of_cell g' s).
Proof.
  unfold feats_of_cell. rewrite etw_units. cbn [g_vol g_cen regeom]. rewrite !vget_map.
  change (total_n_faces (regeom g (map (wmul u) (g_val g)) (map (wmul v) (g_vol g)) (map (map (wmul l)) (g_cen g)))) with (total_n_faces g).
  destruct (vget (g_vol g) s) as [vol|]; simpl; [|constructor]. destruct (estimated_total_weight g s) as [e|]; simpl; [|constructor].
  destruct (total_n_faces g s) as [nf|]; simpl; [|constructor]. destruct (vget (g_cen g) s) as [c|]; simpl; [|constructor].
  pose proof (size_singleton (C:=gset nat) s) as Hs1. constructor. split; cbn [f_meas f_ext f_int f_nint]; try done; [lia|by rewrite (scale_0 EF)|].
  intros _. left. done.
Qed.
(** ** The run *)
Definition NU (h : nbh) (X : gset nat) : Prop :=
  nb_inv g prio 0 h ∧ nb_fc h = X ∧ (∀ x, x ∈ X → x < g_n g) ∧ (∀ x, x ∈ nb_allowed h → x < g_n g).
Definition GU (mi : Z) (n : nat) (s : grow) : Prop :=
  ∃ (seed : nat) (dn0 : gmap nat Z) (dimc : nat), seed < g_n g ∧ dn0 !! seed = None ∧ (∀ x, x ∈ (dom dn0 : gset nat) → x < g_n g) ∧
    (∀ k c, g_cen g !! k = Some c → length c = dimc) ∧
    (∀ cc : gset nat, seed ∈ cc → (∃ x, x ∈ (dom dn0 : gset nat) ∧ x ∉ cc) → ∃ y, border g (dom dn0) cc y) ∧
    (1 < ip_min ip <= mi)%Z ∧ (mi <= Z.of_nat (size dn0) + 1)%Z ∧ grow_inv g prio dimc seed dn0 ip s ∧
    (Z.of_nat (gw_size s + n) <= mi)%Z.
Lemma choose_optimal_units ct p seed : length (ct_aggl ct) = g_n g → freec (ct_aggl ct) seed →
  choose_optimal ip g' prio ct p seed = choose_optimal ip g prio ct p seed.
Proof.
  intros Hag Hseed. destruct (wd_dim _ _ WD) as [dimc Hdc].
  apply (choose_optimal_two g _ _ _ prio ip RU QU NU GU).
  - apply QU_lt.
  - apply QU_0.
  - intros h X i f f' (HI & Hfc & HX & Hal) Hi Hf. destruct (ni_cand _ _ _ _ HI i Hi) as (Hia & Hin & y & Hy & Hya). rewrite Hfc in *.
    pose proof (features_units i f f' X Hin Hf) as HB.
    pose proof (features_of_border g prio WF WD dimc Hdc (nb_allowed h) Hal k i f X ltac:(split_and!; [done..|eauto]) HX) as HW.
    destruct HB as [pp qq (G1 & G2 & G3)|]; [|constructor]. constructor. split_and!; try done. right. simpl in HW. apply HW.
    unfold feat_inv. by destruct k.
  - intros h X i li h' (HI & Hfc & HX & Hal) Hi Hn Hh. destruct (ni_cand _ _ _ _ HI i Hi) as (Hia & _).
    rewrite (nbrs_ok g WF) in Hn by auto. injection Hn as <-.
    pose proof (nbh_update_ok g prio WF (wd_prio _ _ WD) (wd_ord _ _ WD) 0 h i HI (Hal i Hia)) as HW. rewrite Hh in HW.
    destruct HW as (HI' & Ha' & Hf' & _). split_and!; [done|by rewrite Hf', Hfc| |by rewrite Ha'].
    intros x Hx. apply elem_of_union in Hx as [Hx|Hx]; [|auto]. apply elem_of_singleton in Hx as ->. auto.
  - intros mi n s li h (seed' & dn0 & dc & K1 & K2 & K3 & K4 & K5 & K6 & K7 & HI & K9) Hn Hh.
    pose proof (gi_grown _ _ _ _ _ _ _ HI) as HGr.
    assert (∀ x, x ∈ gw_cc s → x < g_n g) as Hcc.
    { intros x. by apply (grown_lt g seed' dn0 K1 K3). }
    assert (gw_next s ∈ gw_cc s) as Hnx by (rewrite <- (gi_fc _ _ _ _ _ _ _ HI); set_solver).
    rewrite (nbrs_ok g WF) in Hn by auto. injection Hn as <-.
    pose proof (nbh_update_ok g prio WF (wd_prio _ _ WD) (wd_ord _ _ WD) 0 (gw_h s) (gw_next s) (gi_h _ _ _ _ _ _ _ HI) (Hcc _ Hnx)) as HW.
    rewrite Hh in HW. destruct HW as (HI' & Ha' & Hf' & _).
    rewrite (gi_fc _ _ _ _ _ _ _ HI) in Hf'. rewrite (gi_allowed _ _ _ _ _ _ _ HI) in Ha'. split.
    + split_and!; [done|done|done|]. by rewrite Ha'.
    + intros Hc. exfalso. destruct (grow_border g prio WF WD dc K4 seed' dn0 K1 K2 K3 K5 ip mi K6 K7 s HI) as [y Hy]; [lia|].
      apply (ni_nonempty _ _ _ _ HI' y); [|done]. by rewrite Ha', Hf'.
  - intros mi n s s' (seed' & dn0 & dc & K1 & K2 & K3 & K4 & K5 & K6 & K7 & HI & K9) Hs.
    pose proof (grow_step_ok g prio WF WD dc K4 seed' dn0 K1 K2 K3 K5 ip mi K6 K7 s HI ltac:(lia)) as HW.
    rewrite Hs in HW. destruct HW as [HI' Hz]. exists seed', dn0, dc. split_and!; (done || lia).
  - apply cell_units.
  - intros dn z ft e Hnb Hemp Hsmall Hft mi.
    assert (seed < g_n g) as Hsn by (apply lookup_lt_Some in Hseed; lia).
    pose proof (compute_neighbourhood_ok g (ct_aggl ct) WF Hag {[seed]} ltac:(set_solver)
      (Z.max (min_neighbourhood ip) (ip_max ip `quot` ip_dim ip)) (ip_max ip) ltac:(lia)) as HW.
    rewrite Hnb in HW. destruct HW as (K & _ & [Hlk Hall Hstop _]). cbn [fst snd] in *.
    assert (∀ x, x ∈ (dom dn : gset nat) → x < g_n g) as HDn.
    { intros x Hx. apply elem_of_dom in Hx as [w Hx]. apply Hlk in Hx as [Hx (j & _ & _ & Hw & _)].
      inversion Hw as [|? ? ? ? ? Hf]; subst; [set_solver|]. apply lookup_lt_Some in Hf. lia. }
    assert (dn !! seed = None) as Hsd.
    { destruct (dn !! seed) as [w|] eqn:Hw; [|done]. apply Hlk in Hw as [Hw _]. set_solver. }
    assert (∀ cc : gset nat, seed ∈ cc → (∃ x, x ∈ (dom dn : gset nat) ∧ x ∉ cc) → ∃ y, border g (dom dn) cc y) as Hreach.
    { intros cc Hsc (x & Hx & Hxc). apply elem_of_dom in Hx as [w Hx].
      apply Hlk in Hx as [_ (j & Hj & _ & Hw & _)]. clear w. revert x Hw Hxc.
      induction j as [|j IH]; intros x Hw Hxc; inversion Hw as [? Hx|j' y ? Hwy He Hf]; subst.
      { apply elem_of_singleton in Hx as ->. done. }
      destruct (decide (y ∈ cc)) as [Hy|Hy]; [|apply (IH ltac:(lia) y); done].
      exists x. split_and!; [|done|exists y; split; [done|by apply elem_of_adj]].
      apply elem_of_dom. destruct (Hall (S j) x) as [Hx|Hx]; [done..| |done].
      apply elem_of_singleton in Hx as ->. done. }
    assert (1 < ip_min ip <= mi)%Z as Hm1 by (unfold mi; lia).
    assert (mi <= Z.of_nat (size dn) + 1)%Z as Hm2 by (unfold mi; lia).
    exists seed, dn, dimc. split_and!; try done; [lia..| |].
    + apply (grow_init_ok g prio WF WD dimc Hdc seed dn Hsn Hsd HDn Hreach ip mi Hm1 Hm2).
      * intros d. destruct (ip_front ip); [|done]. by intros [= <-].
      * unfold feat_inv. by destruct k.
    + cbn [gw_size]. lia.
Qed.
Lemma iso_loop_units fuel : ∀ ct p, cont_inv (g_n g) ct → pool_inv (g_bnd g) (ct_aggl ct) p → sp_top p ≠ None →
  iso_loop fuel ip g' prio ct p = iso_loop fuel ip g prio ct p.
Proof.
  induction fuel as [|fuel IH]; intros ct p HI HP Ht; [done|]. cbn [iso_loop]. cbn [g_n g_bnd regeom].
  case_bool_decide; [|done].
  assert (length (ct_aggl ct) = length (g_bnd g)) as Hal.
  { by rewrite (wd_bnd _ _ WD), (ci_alen _ _ HI). }
  assert (length prio = length (g_bnd g)) as Hpl by by rewrite (wd_bnd _ _ WD), (wd_prio _ _ WD).
  pose proof (choose_new_seed_ok prio (g_bnd g) Hpl (wd_bnd_pos _ _ WD) (wd_ord _ _ WD) (ct_aggl ct) p HP Hal Ht) as HW.
  destruct (choose_new_seed prio (g_bnd g) (ct_aggl ct) p) as [[o p1]|]; [|done]. cbn [mbind res_bind wp fst snd] in *.
  destruct o as [seed|]; [|done]. destruct HW as (_ & _ & HP1 & [Hfree _] & Ht1).
  destruct (massert _); [|done]. cbn [mbind res_bind opt_value].
  rewrite choose_optimal_units by (done || apply HI).
  pose proof (choose_optimal_ok g prio WF WD ip Hmin Hgoal Hmax Hdim2 ct p1 seed HP1 Ht1 (ci_alen _ _ HI) Hfree) as HC.
  destruct (choose_optimal ip g prio ct p1 seed) as [[[cc cpt] p2]|]; [|done]. cbn [mbind res_bind wp fst snd] in *.
  destruct HC as (Hch & HP2 & Ht2 & _).
  assert (cc ≠ ∅) as Hne. { intros ->. by apply ch_seed, elem_of_empty in Hch. }
  pose proof (create_cc_ok (g_n g) ct cc cpt false HI Hne (ch_free _ _ _ _ _ _ Hch)) as HCr.
  destruct (create_cc ct cc cpt false false) as [ct'|]; [|done]. cbn [mbind res_bind wp] in *.
  destruct HCr as [HI' Hcr].
  apply IH; [done| |done].
  eapply pool_inv_mono; [|done]. intros c. unfold freec. rewrite (cr_ag _ _ _ _ _ Hcr). by case_decide.
Qed.
End units.
