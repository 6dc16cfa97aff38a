(** * WholeU: there is only one right result, that of the program (C57) *)

From Verif Require Import NeighP SearchT ApiP ApiT SpecHash SpecSub SpecFeat SpecAR SpecBest SpecFront SpecPool SpecGrow SpecFeed SpecLine
  SpecMove SpecRules SpecWhole FeatU BestT GrowT FeedT LineT MoveP MoveT DetT RuleT WholeT.

(** ** Growth *)
Section grow.
Context {A : Arith} {H : HashOrder} (EA : exact_arith) (WO : weak_order (@wlt A) (λ _, True)).
Context (ip : iso_params) (g : graph) (prio : list W) (dim : nat) (MD : mesh_data g dim) (Hpl : length prio = g_n g).
Context (Hb3 : ∀ b, b ∈ g_bnd g → (0 <= b <= 3)%Z) (Hd2 : (2 <= ip_dim ip)%Z).
Context (Hex : ip_ar ip = MaxOverMinBary → ∀ Y : gset nat, (∀ x, x ∈ Y → x < g_n g) → extremes_ok g (wofZ (Z.of_nat (size Y))) Y).
Notation fr := (if ip_front ip then Some (ip_dim ip) else None).

Lemma front_two d : fr = Some d → (2 <= d)%Z.
Proof using Hd2. destruct (ip_front ip); [|done]. by intros [= <-]. Qed.

Lemma next_picked dn seed pre n c : NoDup (seed :: pre) → (∀ x, x ∈ seed :: pre → x < g_n g) → (∀ x, x ∈ dom dn → x < g_n g) →
  next_cell ip g prio dn seed pre n c →
  picked g prio (ip_ar ip) dim (dom dn) fr (λ x, default 0%Z (dn !! x)) n (seed :: pre) c ∧ c ∈ dom dn.
Proof using EA WO MD Hpl Hb3 Hd2 Hex.
  intros Hnd Hlt HD (f & h & ar & look & Hf & Hh & Hl & Hb). split.
  - exists (nb_cand h), look. split_and!; [by eapply candidates_run; eauto using front_two| |done].
    intros y Hy. destruct (Hl y Hy) as (f' & Hc & Hv).
    eapply (judged_run EA WO g prio dim MD Hpl Hb3 (ip_ar ip) dn fr seed HD front_two Hex n pre (filter (λ e : nat * Z, e.1 ∉ seed :: pre) dn) h f y (ar y) f'); try done.
    intros z Hz. rewrite map_filter_lookup. destruct (dn !! z) as [v|]; [|done]. cbn [mbind option_bind].
    by rewrite option_guard_True.
  - destruct (C29_lem g prio (dom dn) fr (seed :: pre) (md_csr _ _ MD) (md_sym _ _ MD) (md_val _ _ MD) Hpl (prio_ord WO prio) front_two Hlt)
      as (h1 & Eh & _ & Hbord & _). rewrite Hh in Eh. injection Eh as <-.
    apply Hbord. destruct Hb as (p1 & p2 & -> & _). apply elem_of_app. right. left.
Qed.

Lemma hood_lt aggl seed K dn x : length aggl = g_n g → hood ip g (is_free aggl) seed K dn → x ∈ dom dn → x < g_n g.
Proof using.
  clear. intros HL [HD _ _] [v Hv]%elem_of_dom. apply HD in Hv as (Hn & j & _ & _ & Hw & _).
  destruct Hw as [z Hz|j z y Hw He Hf]; [by destruct Hn|]. rewrite <- HL. by eapply lookup_lt_Some.
Qed.

Lemma grown_transfer aggl seed X : length aggl = g_n g →
  grown_from ip g prio (compactness (g_row g) (g_col g)) (ext_of g) (is_free aggl) seed X →
  grown_cell ip g prio dim (is_free aggl) seed X.
Proof using EA WO MD Hpl Hb3 Hd2 Hex.
  intros HL [Hs (K & dn & HD & HR)]. split; [done|]. exists K, dn. split; [done|]. cbv zeta in *.
  case_bool_decide; [done|]. destruct HR as (l & C & kk & Hnd & Hlen & Hst & HC & Hk & HX).
  exists l, C, kk. split_and!; try done.
  assert (seed < g_n g) as Hsn by (rewrite <- HL; by eapply lookup_lt_Some).
  assert (∀ x, x ∈ dom dn → x < g_n g) as Hdn by (intros x; by eapply hood_lt).
  assert (∀ j, NoDup (seed :: take j l)) as Hndj.
  { intros j. change (seed :: take j l) with (take (S j) (seed :: l)). rewrite <- (take_drop (S j) (seed :: l)) in Hnd. by apply NoDup_app in Hnd as [? _]. }
  assert (∀ j x, x ∈ seed :: take j l → x < g_n g) as Hlt.
  { induction j as [|j IH]; [by intros x ->%elem_of_list_singleton|]. intros x Hx.
    destruct (l !! j) as [c|] eqn:Ec.
    - rewrite (take_S_r _ _ _ Ec) in Hx. change (seed :: take j l ++ [c]) with ((seed :: take j l) ++ [c]) in Hx.
      apply elem_of_app in Hx as [Hx| ->%elem_of_list_singleton]; [by apply IH|].
      apply Hdn. eapply (next_picked dn seed (take j l)); [apply Hndj|exact IH|exact Hdn|]. by apply Hst.
    - apply IH. apply lookup_ge_None in Ec. by rewrite take_ge in Hx |- * by lia. }
  intros j c Hj. eapply next_picked; [apply Hndj|apply Hlt|exact Hdn|]. by apply Hst.
Qed.

Lemma made_transfer aggl p Xs : length aggl = g_n g →
  made ip g prio (compactness (g_row g) (g_col g)) aggl p Xs → sequence ip g prio dim aggl p Xs.
Proof using EA WO MD Hpl Hb3 Hd2 Hex.
  intros HL HM. induction HM as [aggl p Hn|aggl p seed p1 X K dn p2 aggl' Xs T G Hd F L E M IH]; [by constructor|].
  econstructor; try done; [by apply grown_transfer|]. apply IH. congruence.
Qed.
End grow.

(** ** Lines *)
Lemma concat_prefix_eq (p1 p2 : list (list nat)) r1 r2 : Forall2 (λ a b, length a = length b) p1 p2 →
  concat p1 ++ r1 = concat p2 ++ r2 → p1 = p2.
Proof.
  induction 1 as [|a b p1 p2 Hab HF IH]; [done|]. cbn [concat]. rewrite <- !app_assoc. intros E.
  apply app_inj_1 in E as [-> E]; [|done]. f_equal. by apply IH.
Qed.
Lemma two_lengths (parts : list (list nat)) n : (∀ k p, parts !! k = Some p → S k < length parts → length p = 2) →
  (∀ p, last parts = Some p → length p = n) → parts ≠ [] →
  length (concat parts) + 2 = 2 * length parts + n.
Proof.
  induction parts as [|p parts IH]; intros H2 Hl Hne; [done|]. cbn [concat]. rewrite app_length.
  destruct parts as [|q parts].
  - cbn. rewrite (Hl p eq_refl). lia.
  - rewrite (H2 0 p eq_refl) by (simpl; lia). cbn [length] in *.
    assert (length (concat (q :: parts)) + 2 = 2 * S (length parts) + n); [|lia]. apply IH.
    + intros k r Hk Hlt. apply (H2 (S k)); [done|]. simpl in *. lia.
    + intros r Hr. apply Hl. by rewrite last_cons, Hr.
    + done.
Qed.
Lemma cut_unique odd l parts rest parts' rest' : cut_spec odd l parts rest → cut_spec odd l parts' rest' → parts = parts'.
Proof.
  intros [C1 T1 L1 R1] [C2 T2 L2 R2].
  set (n := if odd && Nat.odd (length l) then 3 else 2) in *.
  assert (length (concat parts) = length (concat parts')) as El.
  { pose proof (f_equal length C1) as E1. pose proof (f_equal length C2) as E2. rewrite app_length in E1, E2. lia. }
  assert (2 ≤ n) as Hn by (unfold n; destruct (_ && _); lia).
  assert (length parts = length parts') as Ep.
  { destruct (decide (parts = [])) as [->|N1], (decide (parts' = [])) as [->|N2]; [done| | |].
    - pose proof (two_lengths _ _ T2 L2 N2) as E2. destruct parts'; [done|]. simpl in *. lia.
    - pose proof (two_lengths _ _ T1 L1 N1) as E1. destruct parts; [done|]. simpl in *. lia.
    - pose proof (two_lengths _ _ T1 L1 N1). pose proof (two_lengths _ _ T2 L2 N2). lia. }
  eapply concat_prefix_eq; [|by rewrite C1, C2].
  apply Forall2_same_length_lookup_2; [done|]. intros k p q Hp Hq.
  pose proof (lookup_lt_Some _ _ _ Hp). destruct (decide (S k < length parts)) as [Hk|Hk].
  - rewrite (T1 k p) by done. rewrite (T2 k q); [done|done|lia].
  - rewrite (L1 p), (L2 q); [done| |]; rewrite last_lookup.
    + by replace (pred (length parts')) with k by lia.
    + by replace (pred (length parts)) with k by lia.
Qed.

Lemma idx_starts n idx cells pieces : idx !! 0 = Some n →
  (∀ k a b, idx !! k = Some a → idx !! S k = Some b → a ≤ b) → last idx = Some (length cells) →
  Forall2 (λ (p : list (list nat)) (ids : list nat), length p = length ids) pieces (split_lines idx cells) →
  idx = starts n pieces.
Proof.
  revert n idx. induction pieces as [|p pieces IH]; intros n idx H0 Hm Hl HF.
  - destruct idx as [|a [|b idx]]; [done| |].
    + by injection H0 as ->.
    + apply Forall2_nil_inv_l in HF. done.
  - apply Forall2_cons_inv_l in HF as (ids & rest & Hp & HF & E).
    destruct idx as [|a [|b idx]]; [done|done|]. injection H0 as ->.
    unfold split_lines in E. cbn [tail zip_with] in E. injection E as E1 E2.
    cbn [starts]. f_equal.
    assert (b ≤ length cells) as Hb.
    { clear -Hm Hl. assert (∀ k a, (b :: idx) !! k = Some a → b ≤ a) as Hk.
      { induction k as [|k IH]; intros a Ha; [by injection Ha as ->|].
        destruct (lookup_lt_is_Some_2 (b :: idx) k) as [c Hc]; [apply lookup_lt_Some in Ha; lia|].
        specialize (IH _ Hc). specialize (Hm (S k) c a Hc Ha). lia. }
      rewrite last_lookup in Hl. cbn [length pred] in Hl. by eapply Hk. }
    pose proof (Hm 0 n b eq_refl eq_refl) as Hab.
    rewrite <- E1, take_length, drop_length in Hp. replace (n + length p) with b by lia.
    apply IH; [done| | |].
    + intros k a c Ha Hc. by apply (Hm (S k)).
    + done.
    + rewrite <- E2 in HF. exact HF.
Qed.

Section whole.
Context {A : Arith} {H : HashOrder}.
Implicit Types (i : input) (o r : outs).

Lemma mesh_of_graph i : mesh_of i = graph_of i.
Proof.
  unfold mesh_of, graph_of. f_equal. unfold fixed_bnd. apply list_eq. intros k. rewrite !list_lookup_fmap.
  destruct (in_bnd i !! k) as [b|]; [|done]. cbn. case_bool_decide; f_equal; lia.
Qed.
Lemma used_eff i n : in_aniso i = true → used i n = eff (max_line i) n.
Proof.
  intros Ha. unfold used, max_line. destruct (in_maxline i) as [m|]; [|done]. rewrite Ha. cbn [andb].
  destruct (in_build i && _); [done|]. cbn. case_bool_decide; [done|]. lia.
Qed.

Lemma no_lines_idx i o r e lines : good_call i o → aniso_on i o → agglomerate_one_level i o = (r, e) →
  call_lines i o = Ok lines → lines = [] → o_idx r = [].
Proof.
  intros HG Hon He Hcl ->. destruct (ran_inv i o r e HG He) as (ctA & p & lo & ct & ct' & []).
  destruct lo as [outs|]; [|by destruct (p1_off _ _ _ _ _ ra_p1 eq_refl)].
  destruct (p1_on _ _ _ _ _ ra_p1 outs eq_refl) as (_ & lines & Hlo & _ & _ & HI).
  assert (lines = []) as ->.
  { unfold call_lines in Hcl. rewrite Hlo in Hcl. by injection Hcl. }
  pose proof (ai_res _ _ _ _ _ _ HI) as HF. apply Forall2_nil_inv_l in HF as ->. by rewrite ra_idx.
Qed.

Lemma call_lines_right i o lines : total_order A → good_call i o → aniso_on i o → call_lines i o = Ok lines →
  lines_right i o lines.
Proof.
  intros HO HG Hon Hcl. unfold lines_right. destruct (in_build i) eqn:Hb.
  - destruct (C44_lem i o HO HG Hon Hb) as (l' & E & Hbl & _). rewrite Hcl in E. by injection E as <-.
  - unfold call_lines, lines_of in Hcl. rewrite Hb in Hcl. by apply input_lines_eq.
Qed.

(** The pieces of the lines and their numbers. *)
Lemma pieces_of i f lines outs walked : in_aniso i = true → Forall2 (line_cut i f) lines outs → Forall2 (oriented i) lines walked →
  let pieces := (λ l, cut (in_odd i) (take (used i (length l)) l)) <$> walked in
  Forall2 (λ (p : list (list nat)) (ids : list nat), length p = length ids) pieces outs ∧
  Forall2 (λ p id, ∀ x, f !! x = Some id ↔ x ∈ p) (concat pieces) (concat outs).
Proof.
  intros Ha HF. revert walked. induction HF as [|line ids lines outs (l & Hl & Hp) HF IH]; intros walked HW.
  { apply Forall2_nil_inv_l in HW as ->. simpl. split; constructor. }
  apply Forall2_cons_inv_l in HW as (l' & walked' & Hl' & HW & ->).
  rewrite (comes_first_oriented _ _ _ _ Hl' Hl). destruct (IH _ HW) as [I1 I2]. cbn zeta. rewrite fmap_cons. cbn [concat].
  assert (length l = length line) as El.
  { destruct (oriented_or _ _ _ Hl) as [->| ->]; [done|]. apply reverse_length. }
  rewrite (used_eff _ _ Ha), El. split.
  - constructor; [by eapply Forall2_length|done].
  - apply Forall2_app; done.
Qed.

Lemma whole_of_call i o r e : total_order A → exact_arith → good_call i o → simple_csr (in_row i) (in_col i) →
  sym_weights (in_row i) (in_col i) (in_val i) → extremes_fine i → in_corr i = false →
  agglomerate_one_level i o = (r, e) → whole i o r.
Proof.
  intros HO EA HG Hs Hsw Hex Hc He. pose proof HO as [WO HT]. pose proof HG as [WM HA _ _ _].
  destruct (by_rules_of_call i o r e HG Hc Hs WO He)
    as (ip & m & aggl & p & walked & Xs & D1 & Mn & G1 & Mx & AR & Fr & It & It' & Id & La & Fe & Wn & Wa & St & Md & Ec).
  destruct (wf_dim _ WM) as [d Hdim].
  pose proof (mesh_wfd i WM (ac_dim _ HA)) as WD.
  assert (length (o_fc2cc r) = in_n i) as Lf.
  { destruct (C01_lem i o HG) as (r1 & E1 & L1). rewrite E1 in He. by injection He as <- <-. }
  assert (∃ lines pieces,
    (aniso_on i o → lines_right i o lines) ∧ (¬ aniso_on i o → lines = []) ∧
    Forall2 (oriented i) lines walked ∧
    Forall2 (λ l parts, ∃ rest, cut_spec (in_odd i) (take (used i (length l)) l) parts rest) walked pieces ∧
    length (concat pieces) = m ∧
    (∀ x c, c < m → o_fc2cc r !! x = Some c ↔ ∃ p, concat pieces !! c = Some p ∧ x ∈ p) ∧
    (aniso_on i o → o_lines r = seq 0 (length (concat pieces)) ∧
      o_idx r = if decide (lines = []) then [] else starts 0 pieces) ∧
    (¬ aniso_on i o → o_lines r = o_lines o ∧ o_idx r = o_idx o))
    as (lines & pieces & P1 & P2 & P3 & P4 & P5 & P6 & P7 & P8).
  { destruct (aniso_on_or i o) as [Hon|Hoff].
    - destruct (Wa Hon) as (lines & Hcl & HW).
      destruct (lines_run i o r e HG Hon He) as (lines' & Hcl' & _ & _ & HF & Hcat & Hseq & _ & Hidx).
      rewrite Hcl in Hcl'. injection Hcl' as <-.
      destruct (pieces_of i _ _ _ _ (proj1 Hon) HF HW) as [Q1 Q2].
      set (pieces := (λ l, cut (in_odd i) (take (used i (length l)) l)) <$> walked) in *.
      rewrite Hcat in Q2. pose proof (Forall2_length _ _ _ Q2) as Q3.
      assert (∀ c, c ∈ o_lines r ↔ c < length (o_lines r)) as Hin.
      { intros c. rewrite Hseq at 1. rewrite elem_of_seq. lia. }
      exists lines, pieces. split_and!; try done.
      + intros _. by apply call_lines_right.
      + apply Forall2_fmap_r, Forall_Forall2_diag, Forall_forall. intros l _. apply cut_ok.
      + rewrite Q3. destruct (lt_eq_lt_dec (length (o_lines r)) m) as [[Hlt|]|Hlt]; [|done|].
        * apply Id in Hlt as [_ Hlt]. apply Hin in Hlt. lia.
        * exfalso. assert (aniso_id i o r m) as Hm; [|apply Id in Hm; lia].
          split; [done|]. apply Hin. lia.
      + intros x c Hcm. apply Id in Hcm as [_ Hcm]. apply Hin in Hcm.
        destruct (lookup_lt_is_Some_2 (concat pieces) c) as [q Hq]; [lia|].
        assert (o_lines r !! c = Some c) as Hcc by (rewrite Hseq; apply lookup_seq; lia).
        pose proof (Forall2_lookup_lr _ _ _ _ _ _ Q2 Hq Hcc) as Hx. cbv beta in Hx. rewrite Hx. split; [eauto|].
        intros (q' & Hq' & Hxq). congruence.
      + intros _. split; [by rewrite Q3|]. destruct (decide (lines = [])) as [Hl|Hl].
        * by eapply no_lines_idx.
        * destruct Hidx as [[? _]|(I0 & I1 & I2)]; [done|]. by eapply idx_starts.
    - rewrite (Wn Hoff). exists [], [].
      assert (m = 0) as ->.
      { destruct m; [done|]. exfalso. apply Hoff. assert (0 < S m) as Hm by lia. apply Id in Hm. apply Hm. }
      split_and!; try done; try lia.
      intros _. destruct (ran_inv i o r e HG He) as (ctA & p' & lo & ct & ct' & []).
      destruct lo as [outs|]; [|done].
      by destruct (p1_on _ _ _ _ _ ra_p1 outs eq_refl) as (? & _). }
  exists lines, walked, pieces, ip, d, aggl, p, Xs. split_and!; try done.
  - intros x. rewrite Fe. split.
    + intros (c & Hc' & Hn). split; [rewrite <- Lf; by eapply lookup_lt_Some|].
      rewrite elem_of_concat. intros (q & Hx & Hq%elem_of_list_lookup). destruct Hq as [c' Hq].
      assert (c' < m) as Hlt by (rewrite <- P5; by eapply lookup_lt_Some).
      assert (o_fc2cc r !! x = Some c') as Hc'' by (apply P6; eauto). rewrite Hc' in Hc''. injection Hc'' as <-.
      by apply Hn, Id.
    + intros [Hx Hn]. destruct (lookup_lt_is_Some_2 (o_fc2cc r) x) as [c Hc']; [lia|]. exists c. split; [done|].
      rewrite Id. intros Hlt. apply (P6 x c Hlt) in Hc' as (q & Hq & Hxq). apply Hn, elem_of_concat.
      exists q. split; [done|]. by eapply elem_of_list_lookup_2.
  - by rewrite mesh_of_graph.
  - rewrite mesh_of_graph. apply made_transfer; try done.
    + split; try apply WM; try done. apply (wd_bnd _ _ WD).
    + apply WM.
    + intros b [x Hb]%elem_of_list_lookup. by apply (wd_bnd_pos _ _ WD) in Hb.
    + rewrite D1. destruct (ac_dim _ HA); lia.
    + intros Hk Y HY. rewrite <- mesh_of_graph. apply Hex; [|done].
      pose proof (ac_ar _ HA) as Har. revert AR. rewrite Hk.
      assert (in_ar i ∈ [0;1;2;3;4;5;6;7;8;9]%Z) as Hin by (rewrite !elem_of_cons; lia). clear Har.
      rewrite !elem_of_cons, elem_of_nil in Hin. repeat destruct Hin as [-> |Hin]; done.
  - intros x c. destruct (decide (c < m)) as [Hlt|Hge].
    + rewrite (P6 x c Hlt), lookup_app_l by (rewrite fmap_length; lia). rewrite list_lookup_fmap. split.
      * intros (q & Hq & Hx). exists (list_to_set q). rewrite Hq. split; [done|]. by apply elem_of_list_to_set.
      * intros (X & HX & Hx). destruct (concat pieces !! c) as [q|]; [|done]. injection HX as <-.
        exists q. split; [done|]. by apply elem_of_list_to_set in Hx.
    + rewrite lookup_app_r by (rewrite fmap_length; lia). rewrite fmap_length, P5.
      replace c with (m + (c - m)) at 1 by lia. by rewrite <- Ec.
Qed.

Lemma whole_unique i o r r' : total_order A → wf_mesh i → whole i o r → whole i o r' → r' = r.
Proof.
  intros HO WM
    (lines & walked & pieces & ip & d & aggl & p & Xs & L1 & L2 & Hw & Hp & [] & Hd & La & Fa & St & Sq & Lf & Fc & An & Af)
    (lines' & walked' & pieces' & ip' & d' & aggl' & p' & Xs' & L1' & L2' & Hw' & Hp' & [] & Hd' & La' & Fa' & St' & Sq' & Lf' & Fc' & An' & Af').
  pose proof HO as [WO HT].
  assert (lines' = lines) as ->.
  { destruct (aniso_on_or i o) as [Hon|Hoff]; [|by rewrite L2, L2'].
    specialize (L1 Hon). specialize (L1' Hon). unfold lines_right in *. destruct (in_build i); [|congruence].
    by eapply built_lines_uniq. }
  assert (walked' = walked) as ->.
  { clear -Hw Hw'. revert walked' Hw'. induction Hw as [|x y l w Hxy F IH]; intros w2 F2; inversion F2; subst; [done|].
    f_equal; [by eapply comes_first_oriented|by apply IH]. }
  assert (pieces' = pieces) as ->.
  { clear -Hp Hp'. revert pieces' Hp'. induction Hp as [|x y l w [rest Hxy] F IH]; intros w2 F2.
    - by apply Forall2_nil_inv_l in F2.
    - apply Forall2_cons_inv_l in F2 as (q & w3 & [rest' Hxy'] & F3 & ->).
      f_equal; [by eapply cut_unique|by apply IH]. }
  assert (ip' = ip) as ->.
  { destruct ip, ip'. simpl in *. congruence. }
  assert (d' = d) as ->.
  { destruct (lookup_lt_is_Some_2 (in_cen i) 0) as [c Hc]; [rewrite (wf_cen _ WM); apply (wf_pos _ WM)|].
    by rewrite <- (Hd _ _ Hc), <- (Hd' _ _ Hc). }
  assert (aggl' = aggl) as ->.
  { eapply (free_unique aggl aggl' aggl); [lia|done|exact Fa'|exact Fa]. }
  pose proof (started_unique WO _ _ _ _ _ _ _ _ St' St) as ->.
  pose proof (sequence_unique WO HT _ _ _ _ _ _ _ _ Sq' Sq) as ->.
  assert (o_fc2cc r' = o_fc2cc r) as Ef.
  { apply list_eq_same_length with (in_n i); [done|done|]. intros x c' c Hx Hc' Hc.
    apply Fc, Fc' in Hc. congruence. }
  destruct r as [f idx ls], r' as [f' idx' ls']. simpl in *. subst f'.
  destruct (aniso_on_or i o) as [Hon|Hoff].
  - destruct (An Hon) as [-> ->], (An' Hon) as [-> ->]. done.
  - destruct (Af Hoff) as [-> ->], (Af' Hoff) as [-> ->]. done.
Qed.

Lemma extremes_fine_uncorrected i : extremes_fine i → extremes_fine (uncorrected i).
Proof. done. Qed.

Lemma C57_lem i o r e : exact_arith → total_order A → good_call i o → simple_csr (in_row i) (in_col i) →
  sym_weights (in_row i) (in_col i) (in_val i) → extremes_fine i → agglomerate_one_level i o = (r, e) →
  e = Ok () ∧ result_right i o r ∧
  (in_corr i = false ∨ (corr_size i <= 1)%Z → ∀ r', result_right i o r' → r' = r).
Proof.
  intros EA HO HG Hs Hsw Hex He. split.
  { destruct (C01_lem i o HG) as (r1 & E1 & _). rewrite E1 in He. by injection He. }
  unfold result_right. destruct (in_corr i) eqn:Ec.
  - destruct (agglomerate_one_level (uncorrected i) o) as [r0 e0] eqn:E0.
    pose proof (good_uncorrected _ _ HG) as HG0.
    assert (whole (uncorrected i) o r0) as W0 by (by eapply whole_of_call).
    split. { exists r0. split; [done|]. by destruct (C41_lem i o r0 e0 r e HG Hs Ec E0 He) as (_ & _ & HC). }
    intros [|Hc]; [done|]. intros r' (r1 & W1 & HC). apply (C51_corrected_lem i o r0 e0 r e HG Hs Ec Hc E0 He r').
    by rewrite (whole_unique _ _ _ _ HO (gc_mesh _ _ HG0) W0 W1) in HC.
  - split; [by eapply whole_of_call|]. intros _ r' HW.
    eapply whole_unique; [done|apply HG|by eapply whole_of_call|done].
Qed.
End whole.
