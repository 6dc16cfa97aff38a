(** * LayT: lines over several levels of agglomeration (C71) *)

From Verif Require Import Base Main UtilM Spec SpecLine SpecChain SpecHier SpecLay SpecGrid SpecCol.
From Verif Require Import ApiP ApiT LineT ColT ColG CoarseT CoarseU ChainT HierT.

(** ** Pairs *)

Lemma concat_pairs (parts : list (list nat)) j x : (∀ p, p ∈ parts → length p = 2) →
  concat parts !! j = Some x → ∃ p, parts !! (j / 2) = Some p ∧ x ∈ p.
Proof.
  revert j. induction parts as [|p parts IH]; intros j Hp Hj; [done|]. simpl in Hj.
  assert (length p = 2) as Hlp by (apply Hp; left). apply lookup_app_Some in Hj as [Hj|[Hge Hj]].
  - exists p. apply lookup_lt_Some in Hj as Hlt. rewrite (Nat.div_small j 2) by lia. split; [done|]. by eapply elem_of_list_lookup_2.
  - rewrite Hlp in *. destruct (IH (j - 2)) as (q & Hq & Hx); [intros q Hq; apply Hp; by right|done|].
    exists q. split; [|done]. replace j with ((j - 2) + 1 * 2) by lia. rewrite Nat.div_add, Nat.add_1_r by done. done.
Qed.
Lemma concat_two (parts : list (list nat)) : (∀ p, p ∈ parts → length p = 2) → length (concat parts) = 2 * length parts.
Proof.
  induction parts as [|p parts IH]; intros Hp; [done|]. cbn [concat length]. rewrite app_length, IH by (intros q Hq; apply Hp; by right).
  rewrite (Hp p) by left. lia.
Qed.
Lemma half_rev n j : j < 2 * n → (2 * n - 1 - j) / 2 = n - 1 - j / 2.
Proof.
  intros Hj. pose proof (Nat.div_mod j 2 ltac:(lia)). pose proof (Nat.mod_upper_bound j 2 ltac:(lia)).
  symmetry. apply (Nat.div_unique _ _ _ (1 - j mod 2)); lia.
Qed.

Section lay.
Context {A : Arith} {H : HashOrder}.

(** ** One level *)

Lemma line_halved i o r e lines l n : good_call i o → aniso_on i o → in_maxline i = None →
  agglomerate_one_level i o = (r, e) → call_lines i o = Ok lines → l ∈ lines → length l = 2 * n →
  ∃ ids, ids ∈ split_lines (o_idx r) (o_lines r) ∧ length ids = n ∧ grouped [o_fc2cc r] 2 l ids.
Proof.
  intros HG Ha Hm Hr Hl Hin Hlen. destruct (C11_lem i o r e HG Ha (or_introl Hm) Hr) as (lines' & Hl' & _ & Hf).
  rewrite Hl in Hl'. injection Hl' as <-. apply elem_of_list_lookup in Hin as [k Hk].
  destruct (Forall2_lookup_l _ _ _ _ _ Hf Hk) as (ids & Hids & l2 & parts & rest & Ho & Hcut & Hp & _).
  exists ids. split; [by eapply elem_of_list_lookup_2|].
  assert (l2 = l ∨ l2 = reverse l) as Hor by (destruct Ho as (u & v & _ & _ & [[_ ->]|[_ ->]]); auto).
  assert (length l2 = 2 * n) as Hl2 by (destruct Hor as [->| ->]; rewrite ?reverse_length; done).
  assert (Nat.odd (length l2) = false) as Hodd by (rewrite Hl2, Nat.odd_mul; done).
  destruct Hcut as [Hc1 Hc2 Hc3 Hc4]. rewrite Hodd, !andb_false_r in *. simpl in Hc4.
  rewrite bool_decide_false in Hc4 by lia. destruct rest; [|done]. rewrite app_nil_r in Hc1.
  assert (∀ p, p ∈ parts → length p = 2) as H2.
  { intros p Hpp. apply elem_of_list_lookup in Hpp as [k' Hk']. destruct (decide (S k' < length parts)) as [Hlt|Hge]; [by eapply Hc2|].
    apply Hc3. rewrite last_lookup. apply lookup_lt_Some in Hk' as Hlt'. by replace (Nat.pred (length parts)) with k' by lia. }
  split.
  { rewrite <- (Forall2_length _ _ _ Hp). pose proof (concat_two parts H2) as Hc. rewrite Hc1, Hl2 in Hc. lia. }
  split.
  - exists l2. split; [done|]. intros j x Hj. rewrite <- Hc1 in Hj. destruct (concat_pairs parts j x H2 Hj) as (p & Hpj & Hx).
    destruct (Forall2_lookup_l _ _ _ _ _ Hp Hpj) as (c & Hc & Hiff). exists c. split; [done|]. cbn [follow].
    apply Hiff in Hx. by rewrite Hx.
  - intros x c Hx Hc. cbn [follow] in Hx. destruct (o_fc2cc r !! x) as [c'|] eqn:Hxc; [|done]. injection Hx as ->.
    apply elem_of_list_lookup in Hc as [j Hj]. destruct (Forall2_lookup_r _ _ _ _ _ Hp Hj) as (p & Hpj & Hiff).
    apply Hiff in Hxc. assert (x ∈ l2) as Hx2.
    { rewrite <- Hc1. apply elem_of_list_In, in_concat. exists p. rewrite <- !elem_of_list_In. split; [by eapply elem_of_list_lookup_2|done]. }
    destruct Hor as [->| ->]; [done|by apply (proj1 (elem_of_reverse _ _)) in Hx2].
Qed.

(** A group of groups. *)
Lemma grouped_comp f maps n m l l1 l' : length l = 2 * n → length l1 = n → m ≠ 0 →
  grouped [f] 2 l l1 → grouped maps m l1 l' → grouped (f :: maps) (2 * m) l l'.
Proof.
  intros Hl Hl1 Hm [(l2 & Hor & Hg) Hb] [(l3 & Hor3 & Hg3) Hb3]. split.
  - exists (if decide (l3 = l1) then l2 else reverse l2). split.
    { case_decide; [done|]. destruct Hor as [->| ->]; [by right|rewrite reverse_involutive; by left]. }
    assert (length l2 = 2 * n) as Hl2 by (destruct Hor as [->| ->]; rewrite ?reverse_length; done).
    intros j x Hj.
    assert (∃ y, f !! x = Some y ∧ l3 !! (j / 2) = Some y) as (y & Hy & Hly).
    { case_decide as Hd.
      - destruct (Hg j x Hj) as (c & Hc & Hfx). cbn [follow] in Hfx. destruct (f !! x) as [c'|]; [|done]. injection Hfx as ->.
        exists c. by rewrite Hd.
      - destruct Hor3 as [?|Hl3]; [done|]. assert (j < 2 * n) as Hjn.
        { apply lookup_lt_Some in Hj. rewrite reverse_length in Hj. lia. }
        rewrite reverse_lookup in Hj by lia. rewrite Hl2 in Hj.
        destruct (Hg _ x Hj) as (c & Hc & Hfx). cbn [follow] in Hfx. destruct (f !! x) as [c'|]; [|done]. injection Hfx as ->.
        exists c. split; [done|]. replace (2 * n - S j) with (2 * n - 1 - j) in Hc by lia. rewrite half_rev in Hc by done.
        rewrite Hl3, reverse_lookup by (rewrite Hl1; apply Nat.div_lt_upper_bound; lia).
        rewrite Hl1. by replace (n - S (j / 2)) with (n - 1 - j / 2) by lia. }
    destruct (Hg3 _ y Hly) as (c & Hc & Hfy). exists c. split.
    + rewrite <- Nat.div_div by done. done.
    + cbn [follow]. by rewrite Hy.
  - intros x c Hx Hc. cbn [follow] in Hx. destruct (f !! x) as [y|] eqn:Hy; [|done].
    apply (Hb x y); [cbn [follow]; by rewrite Hy|]. by apply (Hb3 y c).
Qed.

(** ** Any number of levels *)

Lemma line_on i o l : in_aniso i = true → l ∈ split_lines (o_idx o) (o_lines o) → 0 < length l → aniso_on i o.
Proof.
  intros Ha Hl Hlen. split; [done|]. intros _. apply elem_of_list_lookup in Hl as [k Hk]. unfold split_lines in Hk.
  apply lookup_zip_with_Some in Hk as (a & b & -> & H1 & H2). split.
  - destruct (o_idx o) as [|u [|v w]]; [done|done|simpl; lia].
  - intros Hn. rewrite Hn, drop_nil, take_nil in Hlen. simpl in Hlen. lia.
Qed.
Lemma line_nodup i o l : good_call i o → aniso_on i o → in_build i = false → l ∈ split_lines (o_idx o) (o_lines o) → NoDup l.
Proof.
  intros HG Ha Hb Hl. destruct (gc_given _ _ HG Ha Hb) as [HW _]. apply elem_of_list_lookup in Hl as [k Hk].
  unfold split_lines in Hk. apply lookup_zip_with_Some in Hk as (a & b & -> & _ & _).
  pose proof (ul_nd _ _ _ HW) as Hn. rewrite <- (take_drop a), <- (take_drop (b - a) (drop a (o_lines o))) in Hn.
  apply NoDup_app in Hn as (_ & _ & Hn). by apply NoDup_app in Hn as (Hn & _).
Qed.

Lemma C71_lem (i : input) (o : outs) (cs : list (list nat)) (l : list nat) (h : nat) :
  good_call i o → in_connected i → given_paths i o → in_corr i = false ∨ thresh_one i →
  weak_order (@wlt A) (λ _, True) → in_aniso i = true → in_build i = false → in_maxline i = None →
  l ∈ split_lines (o_idx o) (o_lines o) → length l = 2 ^ length cs * h → 0 < h →
  ∃ i' o' l', levels cs i o = Ok (i', o') ∧ length (level_maps cs i o) = length cs ∧
    l' ∈ split_lines (o_idx o') (o_lines o') ∧ NoDup l' ∧ length l' = h ∧ grouped (level_maps cs i o) (2 ^ length cs) l l'.
Proof.
  intros GC HC GP HT WO Han Hb Hm Hl Hlen Hh. revert i o l GC HC GP HT Han Hb Hm Hl Hlen. induction cs as [|compl cs IH];
    intros i o l GC HC GP HT Han Hb Hm Hl Hlen.
  - exists i, o, l. cbn [levels level_maps length] in *. split; [done|]. split; [done|]. split; [done|].
    split; [eapply line_nodup; try done; eapply line_on; try done; simpl in Hlen; lia|]. split; [simpl in Hlen; lia|].
    split; [|by intros x c [= <-]]. exists l. split; [by left|]. intros j x Hj. exists x. cbn [follow Nat.pow]. by rewrite Nat.div_1_r.
  - assert (∀ L, limit_safe i L) as HL by (intros L m; congruence).
    destruct (next_good i o compl GC HC HT WO (λ _, HL)) as (r & g & Hr & Hg & _ & GC' & HC').
    pose proof (next_paths i o r g compl GC HC GP Hr Hg) as GP'.
    assert (2 ^ length cs ≠ 0) as Hpz by (by apply Nat.pow_nonzero).
    cbn [length Nat.pow] in Hlen.
    assert (aniso_on i o) as Ha by (eapply line_on; [done|done|nia]).
    destruct (C11_lem i o r (Ok ()) GC Ha (or_introl Hm) Hr) as (lines & Hcl & Hgl & _). specialize (Hgl Hb).
    destruct (line_halved i o r _ lines l (2 ^ length cs * h) GC Ha Hm Hr Hcl) as (ids & Hids & Hil & Hgr).
    { rewrite Hgl. apply elem_of_list_filter. split; [|done]. rewrite Hlen. nia. }
    { lia. }
    destruct (IH (next_input i g compl) r ids GC' HC' GP' HT Han eq_refl Hm Hids Hil) as (i' & o' & l' & Hlv & Hml & Hl' & Hnd & Hlh & Hg').
    exists i', o', l'. cbn [levels level_maps]. rewrite Hr. cbn [fst]. rewrite Hg, bind_ok. split; [done|].
    split; [by cbn [length]; f_equal|]. split; [done|]. split; [done|]. split; [done|]. cbn [length Nat.pow].
    apply (grouped_comp _ _ (2 ^ length cs * h) _ l ids l'); [lia|done..].
Qed.

(** The lines of the first level are built. *)
Lemma grouped_reverse maps g l l' : grouped maps g (reverse l) l' → grouped maps g l l'.
Proof.
  intros [(l2 & Hor & Hg) Hb]. split.
  - exists l2. split; [|done]. destruct Hor as [->| ->]; [by right|rewrite reverse_involutive; by left].
  - intros x c Hx Hc. apply (proj1 (elem_of_reverse _ _)). by eapply Hb.
Qed.

Lemma C71_columns_lem (N : W → Prop) (i : input) (o : outs) (cols : list (list nat)) compl (cs : list (list nat)) (l : list nat) (h : nat) :
  line_order N i → good_call i o → in_connected i → in_corr i = false ∨ thresh_one i →
  weak_order (@wlt A) (λ _, True) → in_aniso i = true → in_build i = true → in_maxline i = None →
  columns i cols → l ∈ cols → length l = 2 ^ length (compl :: cs) * h → 0 < h →
  ∃ i' o' l', levels (compl :: cs) i o = Ok (i', o') ∧ length (level_maps (compl :: cs) i o) = length (compl :: cs) ∧
    l' ∈ split_lines (o_idx o') (o_lines o') ∧ NoDup l' ∧ length l' = h ∧
    grouped (level_maps (compl :: cs) i o) (2 ^ length (compl :: cs)) l l'.
Proof.
  intros LO GC HC HT WO Han Hb Hm HCL Hl Hlen Hh.
  assert (aniso_on i o) as Ha by (split; [done|]; intros ?; congruence).
  assert (given_paths i o) as GP by (intros _ ?; congruence).
  assert (∀ L, limit_safe i L) as HL by (intros L m; congruence).
  destruct (next_good i o compl GC HC HT WO (λ _, HL)) as (r & g & Hr & Hg & _ & GC' & HC').
  pose proof (next_paths i o r g compl GC HC GP Hr Hg) as GP'.
  assert (2 ^ length cs ≠ 0) as Hpz by (by apply Nat.pow_nonzero).
  cbn [length Nat.pow] in Hlen.
  destruct (C69_lines N i o cols LO GC Ha Hb HCL) as (lines & cl & Hcl & Hp & Hf).
  assert (∃ l1, l1 ∈ lines ∧ (l1 = l ∨ l1 = reverse l)) as (l1 & Hl1 & Hor).
  { assert (l ∈ cl) as Hlc. { rewrite Hp. apply elem_of_list_filter. split; [nia|done]. }
    apply elem_of_list_lookup in Hlc as [k Hk]. destruct (Forall2_lookup_r _ _ _ _ _ Hf Hk) as (l1 & Hl1 & Hor).
    exists l1. split; [by eapply elem_of_list_lookup_2|done]. }
  assert (length l1 = 2 * (2 ^ length cs * h)) as Hlen1 by (destruct Hor as [->| ->]; rewrite ?reverse_length; lia).
  destruct (line_halved i o r _ lines l1 (2 ^ length cs * h) GC Ha Hm Hr Hcl Hl1 Hlen1) as (ids & Hids & Hil & Hgr).
  destruct (C71_lem (next_input i g compl) r cs ids h GC' HC' GP' HT WO Han eq_refl Hm Hids Hil Hh) as (i' & o' & l' & Hlv & Hml & Hl' & Hnd & Hlh & Hg').
  exists i', o', l'. cbn [levels level_maps]. rewrite Hr. cbn [fst]. rewrite Hg, bind_ok. split; [done|].
  split; [by cbn [length]; f_equal|]. split; [done|]. split; [done|]. split; [done|]. cbn [length Nat.pow].
  pose proof (grouped_comp (o_fc2cc r) _ _ (2 ^ length cs) l1 ids l' Hlen1 Hil Hpz Hgr Hg') as Hgg.
  destruct Hor as [->| ->]; [done|by apply grouped_reverse].
Qed.

(** ** Stretched grids *)

Lemma group_rev n g j : g ≠ 0 → j < g * n → (g * n - 1 - j) / g = n - 1 - j / g.
Proof.
  intros Hg Hj. pose proof (Nat.div_mod j g Hg). pose proof (Nat.mod_upper_bound j g Hg).
  assert (j / g < n) by (apply Nat.div_lt_upper_bound; lia).
  symmetry. apply (Nat.div_unique _ _ _ (g - 1 - j mod g)); [lia|].
  set (q := j / g) in *. set (r := j mod g) in *. assert (∃ k, n = q + 1 + k) as [k ->] by (exists (n - q - 1); lia).
  replace (q + 1 + k - 1 - q) with k by lia. lia.
Qed.

Lemma grouped_place maps g n l l' t x : g ≠ 0 → length l = g * n → length l' = n → NoDup l' → grouped maps g l l' → l !! t = Some x →
  ∃ c, follow maps x = Some c ∧ c ∈ l' ∧ ∀ u y, l !! u = Some y → follow maps y = Some c ↔ t / g = u / g.
Proof.
  intros Hg Hl Hl' Hnd [(l2 & Hor & Hgr) Hb] Ht.
  assert (∃ pl : nat → nat, (∀ u y, l !! u = Some y → l2 !! pl u = Some y) ∧
    ∀ u, u < g * n → ∀ v, v < g * n → pl u / g = pl v / g ↔ u / g = v / g) as (pl & Hp1 & Hp2).
  { destruct Hor as [->| ->].
    - by exists (λ u, u).
    - exists (λ u, g * n - 1 - u). split.
      + intros u y Hu. apply lookup_lt_Some in Hu as Hlt. rewrite reverse_lookup by lia. rewrite <- Hu. f_equal. lia.
      + intros u Hu v Hv. rewrite !group_rev by done.
        assert (u / g < n) by (apply Nat.div_lt_upper_bound; lia). assert (v / g < n) by (apply Nat.div_lt_upper_bound; lia). lia. }
  destruct (Hgr _ _ (Hp1 _ _ Ht)) as (c & Hc & Hf). exists c. split; [done|]. split; [by eapply elem_of_list_lookup_2|].
  intros u y Hu. destruct (Hgr _ _ (Hp1 _ _ Hu)) as (d & Hd & Hfd). rewrite Hfd.
  apply lookup_lt_Some in Ht as Htl, Hu as Hul. rewrite Hl in Htl, Hul. rewrite <- (Hp2 t Htl u Hul). split.
  - intros [= ->]. by eapply NoDup_lookup.
  - intros Heq. rewrite Heq in Hc. congruence.
Qed.

Lemma C71_grid_lem (N : W → Prop) (i : input) (o : outs) (cs : list (list nat)) size co (a b : W) h kk :
  line_order N i → good_call i o → in_corr i = false ∨ thresh_one i → weak_order (@wlt A) (λ _, True) →
  in_aniso i = true → in_build i = true → in_maxline i = None →
  stretched_grid i size co a b → far_apart i a b →
  in_coupling i ≠ 1%Z → in_force i = false → (∀ x, x < in_n i → x ∈ in_compl i) →
  size 0 = 2 ^ length cs * h → 2 ≤ size 0 → 0 < kk < axes i → 2 ≤ size kk →
  (∃ i' o', levels cs i o = Ok (i', o')) ∧ length (level_maps cs i o) = length cs ∧
  ∀ x y, x < in_n i → y < in_n i →
    is_Some (follow (level_maps cs i o) x) ∧
    (follow (level_maps cs i o) x = follow (level_maps cs i o) y ↔
     co x 0 / 2 ^ length cs = co y 0 / 2 ^ length cs ∧ ∀ k, 0 < k < axes i → co x k = co y k).
Proof.
  intros LO HG HT WO Han Hb Hm SG FA Hcp Hfo Hcm Hs0 H02 Hkk Hk2.
  assert (in_dim i = 2%Z ∨ in_dim i = 3%Z) as Hdim by (apply (ac_dim _ (gc_acc _ _ HG))).
  pose proof (axes_pos i Hdim) as Hax.
  destruct cs as [|compl cs].
  { split; [by exists i, o|]. split; [done|]. intros x y Hx Hy. cbn [level_maps follow length Nat.pow]. rewrite !Nat.div_1_r.
    split; [by eexists|]. split; [by intros [= ->]|]. intros [H1 H2]. f_equal. apply (sg_one _ _ _ _ _ SG); [done..|].
    intros [|k] Hk; [done|]. apply H2. lia. }
  pose proof (gc_mesh _ _ HG) as WM.
  assert (in_connected i) as HC by (destruct SG; by eapply grid_one_piece).
  pose proof (columns_grid N i size co a b LO WM SG FA Hdim Hcp Hfo Hcm H02 kk Hkk Hk2) as HCL.
  set (g := 2 ^ length (compl :: cs)) in *.
  assert (g ≠ 0) as Hg0 by (by apply Nat.pow_nonzero).
  assert (0 < h) as Hh by (destruct h; lia).
  assert (∀ x, x < in_n i → ∃ c l', c ∈ cols i size co ∧ c !! co x 0 = Some x ∧ length c = g * h ∧
    NoDup l' ∧ length l' = h ∧ grouped (level_maps (compl :: cs) i o) g c l') as Hcell.
  { intros x Hx. destruct (own_col i size co a b SG Hdim x Hx) as (c & Hc & Hxc).
    assert (length c = g * h) as Hlc by (apply in_cols in Hc as (z & -> & _); by rewrite column_length).
    destruct (C71_columns_lem N i o _ compl cs c h LO HG HC HT WO Han Hb Hm HCL Hc Hlc Hh) as (i' & o' & l' & _ & _ & _ & Hnd & Hl' & Hgr).
    by exists c, l'. }
  destruct (own_col i size co a b SG Hdim 0 (wf_pos _ WM)) as (c0 & Hc0 & _).
  assert (length c0 = g * h) as Hlc0 by (apply in_cols in Hc0 as (z & -> & _); by rewrite column_length).
  destruct (C71_columns_lem N i o _ compl cs c0 h LO HG HC HT WO Han Hb Hm HCL Hc0 Hlc0 Hh) as (i' & o' & l0 & Hlv & Hlm & _).
  split; [by exists i', o'|]. split; [done|]. intros x y Hx Hy.
  destruct (Hcell x Hx) as (c & l' & Hc & Hxc & Hlc & Hnd & Hll & Hgr).
  destruct (grouped_place _ g h c l' _ x Hg0 Hlc Hll Hnd Hgr Hxc) as (d & Hd & Hdl & Hiff).
  rewrite Hd. split; [by eexists|].
  pose proof Hc as Hc'. apply in_cols in Hc' as (z & Hz & Hzn & Hz0).
  assert (x ∈ column i size co z) as Hxz by (rewrite <- Hz; by eapply elem_of_list_lookup_2).
  apply (in_column i size co a b SG Hdim) in Hxz as [_ Hxk]; [|done].
  split.
  - intros Heq. symmetry in Heq. assert (y ∈ c) as Hyc by (destruct Hgr as [_ Hbk]; by eapply Hbk).
    assert (∀ k, 0 < k < axes i → co x k = co y k) as Hk.
    { rewrite Hz in Hyc. apply (in_column i size co a b SG Hdim) in Hyc as [_ Hyk]; [|done]. intros k Hk. by rewrite Hxk, Hyk. }
    split; [|done]. apply elem_of_list_lookup in Hyc as [u Hu]. pose proof Hu as Hu'. rewrite Hz in Hu'.
    apply (column_at i size co a b SG Hdim) in Hu' as (_ & _ & Hu0 & _); [|done]. rewrite Hu0. by apply (Hiff u y).
  - intros [H0 Hk]. assert (c !! co y 0 = Some y) as Hyc.
    { rewrite Hz. apply (column_at i size co a b SG Hdim); [done|]. split; [apply SG; [done|lia]|]. split; [done|]. split; [done|].
      intros k Hkx. by rewrite <- Hk, Hxk. }
    symmetry. by apply (Hiff (co y 0) y).
Qed.
End lay.
