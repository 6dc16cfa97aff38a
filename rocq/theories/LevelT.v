(** * LevelT: the levels of the scripts (C81) *)

From Verif Require Import Lib ApiP ApiT UtilM Spec SpecCoarse SpecHier SpecChain SpecTools SpecLevel ToolsM LevelM CoarseT CoarseU ChainT ToolsT ToolsC ToolsU.

Lemma update_zs (f cur : list nat) : (∀ c, c ∈ cur → c < length f) →
  py_update (zs f) (zs cur) = POk (zs (map (λ c, default 0 (f !! c)) cur)).
Proof.
  intros Hc. unfold py_update.
  assert (∀ acc : list nat, pfold (λ acc x, y <~ pget (zs f) x; POk (acc ++ [y])) (zs cur) (zs acc) =
    POk (zs (acc ++ map (λ c, default 0 (f !! c)) cur))) as Hg; [|by apply (Hg [])].
  induction cur as [|c cur IH]; intros acc; cbn [map].
  - cbn [pfold fmap list_fmap]. by rewrite app_nil_r.
  - rewrite fmap_cons. cbn [pfold]. destruct (lookup_lt_is_Some_2 f c) as [y Hy]; [apply Hc; set_solver|].
    rewrite (pget_zs f c y Hy). cbn [pbind]. rewrite Hy. cbn [default from_option id].
    change (zs acc ++ [Z.of_nat y]) with (zs acc ++ zs [y]). rewrite <- fmap_app.
    rewrite IH by set_solver. by rewrite <- app_assoc.
Qed.

Lemma zs_back (l : list nat) : map Z.to_nat (zs l) = l.
Proof.
  induction l as [|x l IH]; [done|]. rewrite fmap_cons. cbn [map]. rewrite IH. f_equal. lia.
Qed.

Lemma foldl_max_0 (l : list nat) acc : foldl max acc l = 0 ↔ acc = 0 ∧ ∀ c, c ∈ l → c = 0.
Proof.
  revert acc. induction l as [|x l IH]; intros acc; cbn [foldl].
  - split; [intros ->; split; [done|]; intros c Hc; by apply elem_of_nil in Hc|by intros [-> _]].
  - rewrite IH. split.
    + intros [Hm Hl]. split; [lia|]. intros c [->|Hc]%elem_of_cons; [lia|by apply Hl].
    + intros [-> Hl]. split; [|intros c Hc; apply Hl; set_solver]. rewrite (Hl x) by set_solver. done.
Qed.

Section levels.
Context {A : Arith} {H : HashOrder}.

Lemma good_vol_sum P (l : list W) : good_vol P → l ≠ [] → (∀ v, v ∈ l → P v) → P (wsum_l l).
Proof.
  intros [G1 G2 G3] Hne Hl. unfold wsum_l. destruct l as [|x l]; [done|]. cbn [foldl].
  assert (P (wadd w0 x)) as Hx by (apply G1, Hl; set_solver).
  assert (∀ v, v ∈ l → P v) as Hl' by (intros v Hv; apply Hl; set_solver).
  revert Hx Hl'. generalize (wadd w0 x). clear Hne Hl. induction l as [|y l IH]; intros s Hs Hl; [done|]. cbn [foldl].
  apply IH; [apply G2; [done|apply Hl; set_solver]|]. intros v Hv. apply Hl. set_solver.
Qed.

Lemma cell_vol_good P i f2c c : good_vol P → (∀ v, v ∈ in_vol i → P v) → length f2c = length (in_vol i) → c ∈ f2c →
  P (cell_vol (fine_graph i) f2c c).
Proof.
  intros HP Hv Hl Hc. unfold cell_vol. apply good_vol_sum; [done| |].
  - apply elem_of_list_lookup in Hc as [x Hx].
    destruct (lookup_lt_is_Some_2 (in_vol i) x) as [v Hxv]; [rewrite <- Hl; by eapply lookup_lt_Some|].
    assert (v ∈ omap (λ x, fg_vol (fine_graph i) !! x) (fine_of f2c c)) as Hin.
    { apply elem_of_list_omap. exists x. split; [|done]. unfold fine_of. apply elem_of_list_filter. split; [done|].
      apply elem_of_seq. apply lookup_lt_Some in Hx. lia. }
    intros E. rewrite E in Hin. by apply elem_of_nil in Hin.
  - intros v (x & _ & Hx)%elem_of_list_omap. apply Hv. by eapply elem_of_list_lookup_2.
Qed.

(** One level. *)
Lemma py_next_good i o prio P : good_call i o → in_connected i → in_corr i = false ∨ thresh_one i →
  (in_aniso i = true → ∀ L, limit_safe i L) →
  good_prio (in_order i = 10%Z ∨ in_order i = 11%Z) prio → good_vol P → (∀ v, v ∈ in_vol i → P v) →
  ∃ r g m, agglomerate_one_level i o = (r, Ok ()) ∧ length (o_fc2cc r) = in_n i ∧
    (∀ c, c < m ↔ ∃ x, o_fc2cc r !! x = Some c) ∧
    py_coarse_of (fine_graph i) (o_fc2cc r) = POk g ∧ length (pg_bnd g) = m ∧
    let i' := py_next i g (prio (length (pg_bnd g))) in
    in_n i' = m ∧ good_call i' r ∧ in_connected i' ∧ ∀ v, v ∈ in_vol i' → P v.
Proof.
  intros GC HC HT HL Hpr HP Hvol. pose proof GC as [WM AC G1 G2 G3].
  destruct (C01_lem i o GC) as (r & Hr & Hlen).
  destruct (C02_lem i o r (Ok ()) GC HT Hr) as [K HK].
  pose proof (fine_ok_of i r WM HC Hlen) as FO.
  assert (contiguous (o_fc2cc r)) as Hct by (by exists K).
  pose proof WM as [W1 W2 W3 W4 W5 W6 W7 W8 W9 W10 W11 W12].
  assert (∀ c, c ∈ o_fc2cc r → P (cell_vol (fine_graph i) (o_fc2cc r) c)) as Hcv.
  { intros c Hc. apply cell_vol_good; [done|done|congruence|done]. }
  assert (∀ c, c ∈ o_fc2cc r → weq (cell_vol (fine_graph i) (o_fc2cc r) c) w0 = false) as Hv.
  { intros c Hc. by apply (gv_ne _ HP), Hcv. }
  destruct (C73_lem _ _ FO Hct Hv) as (g & m & idx & adj & Hg & Hm & Hmax & Eidx & Eadj & C1 & C2 & C3 & C4).
  destruct (C73_data_lem _ _ FO Hct Hv) as (g' & Hg' & D1 & D2 & D3 & D4).
  rewrite Hg in Hg'. injection Hg' as <-.
  destruct (C73_weights_lem _ _ FO Hct Hv) as (g' & idx' & adj' & Hg' & _ & Eadj' & D5 & _).
  rewrite Hg in Hg'. injection Hg' as <-.
  assert (adj' = adj) as ->. { rewrite <- (zs_back adj'), <- Eadj', Eadj. apply zs_back. }
  assert (∀ c, c ≤ m ↔ c ∈ o_fc2cc r) as Hids.
  { intros c. rewrite elem_of_list_lookup. rewrite <- HK. apply elem_of_list_lookup, HK in Hm.
    split; [lia|]. intros Hc. apply HK, elem_of_list_lookup in Hc. by apply Hmax. }
  assert (length (pg_vol g) = S m) as Hlv.
  { assert (m < length (pg_vol g)) by (by apply D1). destruct (decide (length (pg_vol g) = S m)); [done|].
    assert (S m ∈ o_fc2cc r) as Hc by (apply D1; lia). apply Hids in Hc. lia. }
  exists r, g, (S m). split; [done|]. split; [done|]. split.
  { intros c. rewrite <- elem_of_list_lookup, <- Hids. lia. }
  split; [done|]. split; [lia|]. intros i'. destruct (Hpr (length (pg_bnd g))) as (Q1 & Q2 & Q3).
  assert (in_row i' = idx) as Er by (cbn [i' in_row py_next]; rewrite Eidx; apply zs_back).
  assert (in_col i' = adj) as Ec by (cbn [i' in_col py_next]; rewrite Eadj; apply zs_back).
  assert (in_n i' = S m) as Hn. { unfold in_n. rewrite Er, (csr_len _ _ _ C1). lia. }
  split; [done|].
  destruct (lookup_lt_is_Some_2 (in_cen i) 0) as [c0 Hc0]; [lia|].
  assert (wf_mesh i') as WM'.
  { split; rewrite ?Hn, ?Er, ?Ec; cbn [i' py_next in_val in_vol in_cen in_prio in_bnd in_compl];
      [lia|done|by apply C4|done|done|lia| |lia|done|lia| |].
    - exists (length c0). intros k c Hk. assert (k ∈ o_fc2cc r) as Hkm by (apply D1; apply lookup_lt_Some in Hk; lia).
      destruct (D4 k Hkm) as (_ & _ & l & Hl & Hl0 & _). rewrite Hk in Hl. injection Hl as ->. by apply Hl0.
    - intros k b Hb. assert (k ∈ o_fc2cc r) as Hkm by (apply D1; apply lookup_lt_Some in Hb; lia).
      destruct (D4 k Hkm) as (_ & (b' & Hb' & (x & _ & Hx) & _) & _). rewrite Hb in Hb'. injection Hb' as <-. by eapply W11.
    - intros c [_ Hc]%elem_of_seq. lia. }
  split_and!.
  - split; [done| | |done|].
    + destruct AC. by split.
    + intros Ho. exact (Q3 Ho).
    + intros [Ha Hb] _. cbn [i' py_next in_aniso] in Ha. destruct (Hb eq_refl) as [Hb1 Hb2].
      assert (aniso_on i o) as HA.
      { destruct (ran_inv i o r (Ok ()) GC Hr) as (ctA & p & lo & ct & ct' & [P1 _ _ _ _ _ P7 P8]).
        destruct lo as [ls|]; [by destruct (p1_on _ _ _ _ _ P1 ls eq_refl)|].
        cbn in P7, P8. split; [done|]. intros _. rewrite <- P7, <- P8. done. }
      destruct (C13_lem i o r (Ok ()) GC HA Hr) as (E1 & E2 & E3 & E4).
      split; [|intros; by apply HL]. rewrite Hn. destruct E1 as [[F1 F2]|(F1 & F2 & F3)]; [done|].
      split; [intros He; by rewrite He in F1|done|done|done|]. intros x Hx. destruct (E3 _ Hx) as [y Hy].
      assert (x ∈ o_fc2cc r) as Hin by (by eapply elem_of_list_lookup_2). apply Hids in Hin. lia.
  - intros a b Ha Hb. cbn beta in Ha, Hb. rewrite Hn in Ha, Hb.
    assert (a ∈ o_fc2cc r) as Ha' by (apply Hids; lia). assert (b ∈ o_fc2cc r) as Hb' by (apply Hids; lia).
    apply elem_of_list_lookup in Ha' as [x Hx]. apply elem_of_list_lookup in Hb' as [y Hy].
    assert (x < in_n i) as Hxn by (rewrite <- Hlen; by eapply lookup_lt_Some).
    assert (y < in_n i) as Hyn by (rewrite <- Hlen; by eapply lookup_lt_Some).
    destruct (HC x y Hxn Hyn) as [k Hk].
    destruct (walk_map (in_edge i) (in_edge i') (in_n i) (o_fc2cc r)) with (x := x) (k := k) (y := y) (c := a) (m := S m)
      as (d & k' & Hd & Hw); try done.
    + intros u v c d Huv Hu Hv'. destruct (decide (c = d)) as [|Hcd]; [by left|right].
      unfold in_edge. rewrite Er, Ec. apply C3. split; [done|]. by exists u, v.
    + intros z Hz. apply lookup_lt_is_Some_2. lia.
    + intros z d Hz. assert (d ≤ m); [|lia]. apply Hids. by eapply elem_of_list_lookup_2.
    + rewrite Hn. rewrite Hd in Hy. injection Hy as ->. by exists k'.
  - intros v Hvv. cbn [i' py_next in_vol] in Hvv. apply elem_of_list_lookup in Hvv as [c Hc].
    assert (c ∈ o_fc2cc r) as Hcm by (apply D1; by eapply lookup_lt_Some).
    destruct (D4 c Hcm) as (Hcc & _). rewrite Hc in Hcc. injection Hcc as ->. by apply Hcv.
Qed.

Lemma C81_lem (prio : nat → list W) (k : nat) (i : input) (o : outs) (P : W → Prop) :
  good_call i o → in_connected i → in_corr i = false ∨ thresh_one i → (in_aniso i = true → ∀ L, limit_safe i L) →
  good_prio (in_order i = 10%Z ∨ in_order i = 11%Z) prio → good_vol P → (∀ v, v ∈ in_vol i → P v) → 0 < k →
  ∃ (l : list nat) maps, py_levels prio k i o (zs (seq 0 (in_n i))) [] = LOk (zs l, maps) ∧
    0 < length maps ≤ k ∧ level_maps (in_n i) maps ∧
    (length maps < k → ∃ f, last maps = Some f ∧ ∀ c, c ∈ f → c = 0) ∧
    length l = in_n i ∧ ∀ x, x < in_n i → is_Some (follow maps x) ∧ l !! x = follow maps x.
Proof.
  intros GC HC HT HL Hpr HP Hvol Hk.
  assert (∀ k i o (cur : list nat) pre, good_call i o → in_connected i → in_corr i = false ∨ thresh_one i → (in_aniso i = true → ∀ L, limit_safe i L) →
    good_prio (in_order i = 10%Z ∨ in_order i = 11%Z) prio → (∀ v, v ∈ in_vol i → P v) → 0 < k → (∀ c, c ∈ cur → c < in_n i) →
    ∃ (l : list nat) maps, py_levels prio k i o (zs cur) pre = LOk (zs l, pre ++ maps) ∧
      0 < length maps ≤ k ∧ level_maps (in_n i) maps ∧
      (length maps < k → ∃ f, last maps = Some f ∧ ∀ c, c ∈ f → c = 0) ∧
      length l = length cur ∧ ∀ x c, cur !! x = Some c → is_Some (follow maps c) ∧ l !! x = follow maps c) as Hg.
  { clear k i o GC HC HT HL Hpr Hvol Hk. intros k. induction k as [|k IH]; intros i o cur pre GC HC HT HL Hpr Hvol Hk Hcur; [lia|].
    destruct (py_next_good i o prio P GC HC HT HL Hpr HP Hvol) as (r & g & m & Hr & Hlen & Hm & Hg & Hb & Hi').
    cbn [py_levels]. rewrite Hr.
    assert (∀ c, c ∈ cur → c < length (o_fc2cc r)) as Hc' by (rewrite Hlen; done).
    rewrite (update_zs _ _ Hc').
    set (cur' := map (λ c, default 0 (o_fc2cc r !! c)) cur) in *.
    assert (∀ x c, cur !! x = Some c → ∃ d, o_fc2cc r !! c = Some d ∧ cur' !! x = Some d) as Hcx.
    { intros x c Hx. assert (c < length (o_fc2cc r)) as Hlt by (apply Hc'; by eapply elem_of_list_lookup_2).
      apply lookup_lt_is_Some_2 in Hlt as [d Hd]. exists d. split; [done|]. unfold cur'.
      change (((λ c, default 0 (o_fc2cc r !! c)) <$> cur) !! x = Some d). rewrite list_lookup_fmap, Hx. cbn. by rewrite Hd. }
    assert (length cur' = length cur) as Hcl by apply map_length.
    assert (∀ d, d ∈ cur' → ∃ c, o_fc2cc r !! c = Some d) as Hcd.
    { intros d Hd. apply elem_of_list_lookup in Hd as [x Hx].
      destruct (lookup_lt_is_Some_2 cur x) as [c Hc]; [rewrite <- Hcl; by eapply lookup_lt_Some|].
      destruct (Hcx x c Hc) as (d' & Hd' & Hx'). rewrite Hx in Hx'. injection Hx' as <-. by exists c. }
    clearbody cur'.
    assert (0 < in_n i) as Hpos by (apply (wf_pos _ (gc_mesh _ _ GC))).
    destruct (o_fc2cc r) as [|c1 l1] eqn:Ef; [cbn [length] in Hlen; lia|]. rewrite <- Ef in *.
    case_bool_decide as Hstop.
    - exists cur', [o_fc2cc r]. split; [done|]. cbn [length]. split; [lia|]. split; [split; [done|]; by exists m|].
      split; [|split].
      + intros Hlt. exists (o_fc2cc r). split; [done|]. destruct Hstop as [->|Hz]; [lia|]. by apply foldl_max_0 in Hz as [_ Hz].
      + done.
      + intros x c Hx. destruct (Hcx x c Hx) as (d & Hd & Hxd). cbn [follow]. rewrite Hd. split; [by eexists|done].
    - unfold py_coarse_of in Hg. cbn [fine_graph fg_idx fg_adj fg_wgt fg_vol fg_bnd fg_cen] in Hg. rewrite Hg.
      destruct Hi' as (Hn' & GC' & HC' & Hvol').
      destruct (IH (py_next i g (prio (length (pg_bnd g)))) r cur' (pre ++ [o_fc2cc r]) GC' HC' HT HL Hpr Hvol' ltac:(lia))
        as (l & maps & El & Hml & Hlm & Hend & Hll & Hfol).
      { intros d Hd. rewrite Hn'. by apply Hm, Hcd. }
      exists l, (o_fc2cc r :: maps). rewrite El, <- app_assoc. split; [done|]. cbn [length]. split; [lia|].
      split; [split; [done|]; exists m; split; [done|]; by rewrite <- Hn'|].
      split; [|split].
      + intros Hlt. destruct Hend as (f & Hf & Hz); [lia|]. exists f. split; [|done]. rewrite <- Hf.
        destruct maps; [cbn in Hml; lia|done].
      + by rewrite Hll.
      + intros x c Hx. destruct (Hcx x c Hx) as (d & Hd & Hxd). cbn [follow]. rewrite Hd. by apply Hfol. }
  destruct (Hg k i o (seq 0 (in_n i)) [] GC HC HT HL Hpr Hvol Hk) as (l & maps & El & H1 & H2 & H3 & H4 & H5).
  { intros c [_ Hc]%elem_of_seq. lia. }
  exists l, maps. split; [done|]. split; [done|]. split; [done|]. split; [done|]. rewrite H4, seq_length. split; [done|].
  intros x Hx. apply H5. by rewrite lookup_seq_lt.
Qed.
End levels.
