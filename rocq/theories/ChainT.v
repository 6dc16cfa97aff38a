(** * ChainT: several levels of agglomeration (C32) *)

From Verif Require Import ApiP ApiT UtilM SpecCoarse CoarseT CoarseU SpecChain.

Section walks.
Context (E F : nat → nat → Prop) (n : nat) (f : list nat).
(** Edges of the fine graph stay inside a coarse cell or give a coarse edge. *)
Context (HE : ∀ x y c d, E x y → f !! x = Some c → f !! y = Some d → c = d ∨ F c d).

Lemma walk_map x k y c m : (∀ z, z < n → is_Some (f !! z)) → (∀ z d, f !! z = Some d → d < m) → x < n → f !! x = Some c →
  walk E (λ z, z < n) (λ z, z = x) k y →
  ∃ d k', f !! y = Some d ∧ walk F (λ z, z < m) (λ z, z = c) k' d.
Proof using HE.
  intros Hd Hm Hx Hc. induction 1 as [y ->|k y z Hw IH He Hz].
  - exists c, 0. split; [done|]. by constructor.
  - destruct IH as (d & k' & Hy & Hk). destruct (Hd _ Hz) as [e Hze].
    exists e. destruct (HE _ _ _ _ He Hy Hze) as [<- |HF]; [by exists k'|].
    exists (S k'). split; [done|]. econstructor; [done|done|]. by eapply Hm.
Qed.
End walks.

Lemma path_pieces (E : nat → nat → Prop) (parts : list (list nat)) rest j p q :
  path E (concat parts ++ rest) → parts !! j = Some p → parts !! S j = Some q → p ≠ [] → q ≠ [] →
  ∃ x y, x ∈ p ∧ y ∈ q ∧ E x y.
Proof.
  revert j. induction parts as [|a parts IH]; intros j HP Hp Hq Np Nq; [done|].
  destruct j as [|j].
  - simpl in Hp. injection Hp as ->. destruct parts as [|b parts]; [done|]. simpl in Hq. injection Hq as ->.
    destruct p as [|x p _] using rev_ind; [done|]. destruct q as [|y q]; [done|].
    exists x, y. split; [apply elem_of_app; right; left|]. split; [left|].
    apply (HP (length p)); simpl; rewrite <- ?app_assoc; simpl.
    + by apply list_lookup_middle.
    + rewrite lookup_app_r by lia. by replace (S (length p) - length p) with 1 by lia.
  - simpl in HP. rewrite <- app_assoc in HP. apply path_app_r in HP. by apply (IH j).
Qed.

Lemma cut_ne odd l parts rest p : cut_spec odd l parts rest → p ∈ parts → p ≠ [].
Proof.
  intros [_ C2 C3 _] Hp ->. apply elem_of_list_lookup in Hp as [k Hk].
  destruct (decide (S k < length parts)) as [Hl|Hl]; [by apply (C2 k [] Hk) in Hl|].
  assert (last parts = Some []) as Hla.
  { rewrite last_lookup. pose proof (lookup_lt_Some _ _ _ Hk). by replace (pred (length parts)) with k by lia. }
  apply C3 in Hla. simpl in Hla. by destruct (_ && _).
Qed.

Section chain.
Context {A : Arith} {H : HashOrder}.

Lemma connected_neighbour i : wf_mesh i → in_connected i → 2 ≤ in_n i → ∀ x, x < in_n i → ∃ y, in_edge i x y.
Proof.
  intros WM HC Hn x Hx.
  assert (∃ y, y < in_n i ∧ y ≠ x) as (y & Hy & Hne).
  { destruct (decide (x = 0)) as [-> |]; [exists 1|exists 0]; split; lia. }
  destruct (HC y x Hy Hx) as [k Hk]. inversion Hk as [|k' z ? Hw He]; subst; [done|].
  exists z. by apply (wf_sym _ WM).
Qed.

Lemma fine_ok_of i r : wf_mesh i → in_connected i → length (o_fc2cc r) = in_n i →
  fine_ok (fine_graph i) (o_fc2cc r).
Proof.
  intros WM HC Hl. pose proof WM as [W1 W2 W3 W4 W5 W6 W7 W8 W9 W10 W11 W12].
  destruct W7 as [d Hd].
  destruct (decide (2 ≤ in_n i)) as [H2|H2].
  - apply C20_isolated_lem; simpl; rewrite ?Hl; try done.
    + intros x c0 c Hc0 Hc. rewrite (Hd _ _ Hc), (Hd _ _ Hc0). done.
    + by apply connected_neighbour.
  - split; simpl; rewrite ?Hl; try done.
    + intros x c0 c Hc0 Hc. rewrite (Hd _ _ Hc), (Hd _ _ Hc0). done.
    + intros x y He Hne. exfalso. apply Hne.
      pose proof (wf_sym _ WM _ _ He) as He'.
      assert (∀ a b, in_edge i a b → b < in_n i) as Hb.
      { intros a b (p & q & k & _ & _ & _ & Hk). by eapply (csr_col _ _ _ W2). }
      apply Hb in He'. apply Hb in He. by replace x with y by lia.
Qed.

(** One level. *)
Lemma next_good i o compl : good_call i o → in_connected i → in_corr i = false ∨ thresh_one i →
  weak_order (@wlt A) (λ _, True) → (in_aniso i = true → ∀ L, limit_safe i L) →
  ∃ r g, agglomerate_one_level i o = (r, Ok ()) ∧ build_coarse_graph (fine_graph i) (o_fc2cc r) = Ok g ∧
    (∀ c, c < length (cg_vol g) ↔ c ∈ o_fc2cc r) ∧
    good_call (next_input i g compl) r ∧ in_connected (next_input i g compl).
Proof.
  intros GC HC HT WO HL. pose proof GC as [WM AC G1 G2 G3].
  destruct (C01_lem i o GC) as (r & Hr & Hlen). exists r.
  destruct (C02_lem i o r (Ok ()) GC HT Hr) as [K HK].
  pose proof (fine_ok_of i r WM HC Hlen) as FO.
  destruct (C20_lem _ _ FO) as (g & m & Hg & Hm & Hmax & C1 & C2 & C3 & C4 & C5 & C6 & C7 & C8 & C9).
  exists g. split; [done|]. split; [done|].
  assert (∀ c, c ≤ m ↔ c ∈ o_fc2cc r) as Hids.
  { intros c. rewrite elem_of_list_lookup. rewrite <- HK. apply elem_of_list_lookup, HK in Hm.
    split; [lia|]. intros Hc. apply HK, elem_of_list_lookup in Hc. by apply Hmax. }
  split. { intros c. rewrite C6, <- Hids. lia. }
  assert (in_n (next_input i g compl) = S m) as Hn.
  { unfold in_n. simpl. rewrite (csr_len _ _ _ C1). lia. }
  pose proof WM as [W1 W2 W3 W4 W5 W6 W7 W8 W9 W10 W11 W12].
  destruct (C24_lem (fine_graph i) (o_fc2cc r) FO) as (g' & m' & Hg' & _ & _ & _ & Hpb).
  { destruct WO. split; eauto. }
  { intros b Hb. apply elem_of_list_lookup in Hb as [k Hb]. apply W11 in Hb. unfold int_min. lia. }
  rewrite Hg in Hg'. injection Hg' as <-.
  destruct (C23_lem (fine_graph i) (o_fc2cc r) FO) as (g' & m'' & Hg' & _ & Hcl & Hcen).
  rewrite Hg in Hg'. injection Hg' as <-.
  destruct (lookup_lt_is_Some_2 (in_cen i) 0) as [c0 Hc0]; [lia|].
  assert (wf_mesh (next_input i g compl)) as WM'.
  { split; rewrite ?Hn; cbn [next_input in_row in_col in_val in_vol in_cen in_prio in_bnd in_compl];
      [lia|done|by apply C4|done|done|done| |done| |done| |].
    - exists (length c0). intros k c Hk. assert (k ≤ m'') as Hkm by (apply lookup_lt_Some in Hk; lia).
      destruct (Hcen k c0 Hkm Hc0) as (x & Hx & Hxl & _). congruence.
    - destruct WO. split; eauto.
    - intros k b Hb. assert (k ∈ o_fc2cc r) as Hk by (apply Hids; apply lookup_lt_Some in Hb; lia).
      destruct (Hpb _ Hk) as (p & b' & _ & Hb' & (x & _ & Hx) & _). rewrite Hb in Hb'. injection Hb' as <-. by eapply W11.
    - intros c [Hc _]%elem_of_list_filter. lia. }
  assert (prio_pos i → prio_pos (next_input i g compl)) as HPP.
  { intros HP w Hw. simpl in Hw. apply elem_of_list_lookup in Hw as [k Hw].
    assert (k ∈ o_fc2cc r) as Hk by (apply Hids; apply lookup_lt_Some in Hw; lia).
    destruct (Hpb _ Hk) as (p & b' & Hp & _ & _ & _ & _ & Hor). rewrite Hw in Hp. injection Hp as <-.
    destruct Hor as [[_ (x & _ & Hx)]|[_ ->]]; [|by apply (wo_irr _ _ WO)].
    apply HP. by eapply elem_of_list_lookup_2. }
  split.
  - split; [done| | |done|].
    + destruct AC. by split.
    + intros Ho. by apply HPP, G1.
    + intros [Ha Hb] _. simpl in Ha. destruct (Hb eq_refl) as [Hb1 Hb2].
      assert (aniso_on i o) as HA.
      { destruct (ran_inv i o r (Ok ()) GC Hr) as (ctA & p & lo & ct & ct' & [P1 _ _ _ _ _ P7 P8]).
        destruct lo as [ls|]; [by destruct (p1_on _ _ _ _ _ P1 ls eq_refl)|].
        cbn in P7, P8. split; [done|]. intros _. rewrite <- P7, <- P8. done. }
      destruct (C13_lem i o r (Ok ()) GC HA Hr) as (D1 & D2 & D3 & D4).
      split; [|intros; by apply HL]. rewrite Hn. destruct D1 as [[E1 E2]|(E1 & E2 & E3)]; [done|].
      split; [intros He; by rewrite He in E1|done|done|done|]. intros x Hx. destruct (D3 _ Hx) as [y Hy].
      assert (x ∈ o_fc2cc r) as Hin by (by eapply elem_of_list_lookup_2). apply Hids in Hin. lia.
  - intros a b Ha Hb. rewrite Hn in Ha, Hb. simpl in Ha, Hb.
    assert (a ∈ o_fc2cc r) as Ha' by (apply Hids; lia). assert (b ∈ o_fc2cc r) as Hb' by (apply Hids; lia).
    apply elem_of_list_lookup in Ha' as [x Hx]. apply elem_of_list_lookup in Hb' as [y Hy].
    assert (x < in_n i) as Hxn by (rewrite <- Hlen; by eapply lookup_lt_Some).
    assert (y < in_n i) as Hyn by (rewrite <- Hlen; by eapply lookup_lt_Some).
    destruct (HC x y Hxn Hyn) as [k Hk].
    destruct (walk_map (in_edge i) (in_edge (next_input i g compl)) (in_n i) (o_fc2cc r)) with (x := x) (k := k) (y := y) (c := a) (m := S m)
      as (d & k' & Hd & Hw); try done.
    + intros u v c d Huv Hu Hv. destruct (decide (c = d)) as [|Hcd]; [by left|right].
      apply C3. split; [done|]. by exists u, v.
    + intros z Hz. apply lookup_lt_is_Some_2. lia.
    + intros z d Hz. assert (d ≤ m); [|lia]. apply Hids. by eapply elem_of_list_lookup_2.
    + rewrite Hn. rewrite Hd in Hy. injection Hy as ->. by exists k'.
Qed.

(** The lines handed on are paths of the coarse graph. *)
Lemma next_paths i o r g compl : good_call i o → in_connected i → given_paths i o →
  agglomerate_one_level i o = (r, Ok ()) → build_coarse_graph (fine_graph i) (o_fc2cc r) = Ok g →
  given_paths (next_input i g compl) r.
Proof.
  intros GC HC GP Hr Hg [Ha Hb] _ k ids Hk. simpl in Ha. destruct (Hb eq_refl) as [Hb1 Hb2].
  destruct (C01_lem i o GC) as (r' & Hr' & Hlen). rewrite Hr in Hr'. injection Hr' as <-.
  pose proof (fine_ok_of i r (gc_mesh _ _ GC) HC Hlen) as FO.
  destruct (C20_lem _ _ FO) as (g' & m & Hg' & Hm & Hmax & C1 & C2 & C3 & _).
  rewrite Hg in Hg'. injection Hg' as <-.
  assert (aniso_on i o) as HA.
  { destruct (ran_inv i o r (Ok ()) GC Hr) as (ctA & p & lo & ct & ct' & [P1 _ _ _ _ _ P7 P8]).
    destruct lo as [ls|]; [by destruct (p1_on _ _ _ _ _ P1 ls eq_refl)|].
    cbn in P7, P8. split; [done|]. intros _. rewrite <- P7, <- P8. done. }
  destruct (C13_lem i o r (Ok ()) GC HA Hr) as (_ & ND & _).
  destruct (lines_run i o r (Ok ()) GC HA Hr) as (lines & _ & (_ & _ & _ & HPa) & _ & HF & Hcat & _).
  assert (∀ l, l ∈ lines → path (in_edge i) l) as HP.
  { intros l Hl. destruct (in_build i) eqn:Eb; [by apply HPa|]. destruct (HPa l Hl) as [j Hj]. by apply (GP HA Eb j). }
  assert (split_lines (o_idx r) (o_lines r) !! k = Some ids) as Hids.
  { destruct Hk as (a & b & Hka & Hkb & ->). unfold split_lines.
    rewrite lookup_zip_with, Hka. simpl. by rewrite lookup_tail, Hkb. }
  destruct (Forall2_lookup_r _ _ _ _ _ HF Hids) as (line & Hline & Hcut).
  destruct (line_cut_spec _ _ _ _ Hcut) as (l & parts & rest & Hl & HCut & HPa').
  apply oriented_or in Hl.
  assert (path (in_edge i) l) as Hpl.
  { apply elem_of_list_lookup_2, HP in Hline. destruct Hl as [-> | ->]; [done|].
    apply path_reverse; [|done]. intros x y. apply (wf_sym _ (gc_mesh _ _ GC)). }
  rewrite <- (take_drop (eff (max_line i) (length line)) l) in Hpl. apply path_app_l in Hpl.
  rewrite <- (cs_concat _ _ _ _ HCut) in Hpl.
  intros j c d Hc Hd. unfold in_edge. simpl. apply C3.
  destruct (Forall2_lookup_r _ _ _ _ _ HPa' Hc) as (p & Hp & Hpx).
  destruct (Forall2_lookup_r _ _ _ _ _ HPa' Hd) as (q & Hq & Hqx).
  destruct (path_pieces _ _ _ j p q Hpl Hp Hq) as (x & y & Hx & Hy & Hxy).
  { eapply cut_ne; [done|by eapply elem_of_list_lookup_2]. }
  { eapply cut_ne; [done|by eapply elem_of_list_lookup_2]. }
  split.
  - intros ->. assert (NoDup ids) as Hnd.
    { rewrite <- Hcat in ND. apply elem_of_list_lookup_2, elem_of_list_split in Hids as (l1 & l2 & Hs).
      rewrite Hs, concat_app in ND. apply NoDup_app in ND as (_ & _ & ND). simpl in ND.
      by apply NoDup_app in ND as (? & _ & _). }
    pose proof (NoDup_lookup _ _ _ _ Hnd Hc Hd). lia.
  - exists x, y. split; [by apply Hpx|]. split; [by apply Hqx|done].
Qed.

Lemma C32_lem (i : input) (o : outs) (cs : list (list nat)) :
  good_call i o → in_connected i → given_paths i o → in_corr i = false ∨ thresh_one i →
  weak_order (@wlt A) (λ _, True) → (in_aniso i = true → ∀ L, limit_safe i L) →
  ∃ i' o', levels cs i o = Ok (i', o') ∧ good_call i' o' ∧ in_connected i' ∧ given_paths i' o'.
Proof.
  intros GC HC GP HT WO HL. revert i o GC HC GP HT HL. induction cs as [|compl cs IH]; intros i o GC HC GP HT HL.
  - by exists i, o.
  - destruct (next_good i o compl GC HC HT WO HL) as (r & g & Hr & Hg & _ & GC' & HC').
    pose proof (next_paths i o r g compl GC HC GP Hr Hg) as GP'.
    cbn [levels]. rewrite Hr, Hg, bind_ok. by apply IH.
Qed.
End chain.
