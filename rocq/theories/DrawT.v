(** * DrawT: the cells drawn for each line, the priorities of the first level (C82, C83) *)

From Verif Require Import Lib ApiP Main Spec SpecCoarse SpecHier SpecTools UtilM ToolsM DrawM MainP ApiT CoarseT ToolsT ToolsC ToolsL.
From Coq Require Import Sorted.

(** ** Lines *)

Lemma seq_sorted a n : StronglySorted lt (seq a n).
Proof.
  revert a. induction n as [|n IH]; intros a; simpl; constructor; [done|].
  apply Forall_forall. intros x Hx%elem_of_seq. lia.
Qed.
Lemma filter_sorted (P : nat → Prop) `{∀ x, Decision (P x)} l : StronglySorted lt l → StronglySorted lt (filter P l).
Proof.
  induction 1 as [|x l Hl IH Hx]; [constructor|]. rewrite filter_cons. destruct (decide _); [|done].
  constructor; [done|]. rewrite Forall_forall in *. intros y [_ Hy]%elem_of_list_filter. by apply Hx.
Qed.

Lemma dict_ok idx cells (f2c : list nat) :
  (∀ k a, idx !! k = Some a → a ≤ length cells) →
  ∃ dic, py_line_dict (zs idx) (zs cells) (zs f2c) = POk dic ∧
    Forall2 (λ ids d, StronglySorted lt d ∧ ∀ x, x ∈ d ↔ ∃ c, f2c !! x = Some c ∧ c ∈ ids) (split_lines idx cells) dic.
Proof.
  intros Hend. unfold py_line_dict. rewrite !fmap_length.
  assert (length (split_lines idx cells) = length idx - 1) as Hlen.
  { unfold split_lines. rewrite zip_with_length. destruct idx; cbn [length tail]; lia. }
  edestruct (pfold_ok (λ dic ln, a <~ pget (zs idx) (Z.of_nat ln); b <~ pget (zs idx) (Z.of_nat ln + 1)%Z;
    POk (dic ++ [filter (λ x, zs f2c !! x ∈ Some <$> pslice (zs cells) a b) (seq 0 (length f2c))]))
    (λ pre dic, Forall2 (λ ids d, StronglySorted lt d ∧ ∀ x, x ∈ d ↔ ∃ c, f2c !! x = Some c ∧ c ∈ ids)
       (take (length pre) (split_lines idx cells)) dic) (seq 0 (length idx - 1)) []) as (dic & Hd & HF).
  - by rewrite take_0.
  - intros pre k post dic Heq HI.
    assert (length pre = k ∧ k < length idx - 1) as [Hk Hlt].
    { assert (seq 0 (length idx - 1) !! length pre = Some k) as Hk by (rewrite Heq; by rewrite list_lookup_middle).
      apply lookup_seq in Hk as [-> ?]. done. }
    destruct (lookup_lt_is_Some_2 idx k) as [a Ha]; [lia|]. destruct (lookup_lt_is_Some_2 idx (S k)) as [b Hb]; [lia|].
    rewrite (pget_zs _ _ _ Ha), (pget_zs_S _ _ _ Hb). cbn [pbind]. eexists. split; [done|].
    rewrite app_length, Hk. simpl. rewrite Nat.add_1_r.
    assert (split_lines idx cells !! k = Some (slice cells a b)) as Hs.
    { unfold split_lines. rewrite lookup_zip_with, Ha. simpl. rewrite lookup_tail, Hb. done. }
    rewrite (take_S_r _ _ _ Hs). apply Forall2_app; [by rewrite <- Hk|]. constructor; [|constructor].
    split; [apply filter_sorted, seq_sorted|]. intros x. rewrite elem_of_list_filter, elem_of_seq.
    rewrite pslice_nat by (rewrite fmap_length; eauto). rewrite slice_fmap, elem_of_list_fmap, list_lookup_fmap.
    split.
    + intros ((z & Hz & Hin) & _). destruct (f2c !! x) as [c|]; simplify_eq/=. exists c. split; [done|]. by apply elem_of_zs.
    + intros (c & Hc & Hin). split; [|apply lookup_lt_Some in Hc; lia]. exists (Z.of_nat c). rewrite Hc. split; [done|].
      by apply elem_of_zs.
  - exists dic. split; [done|]. by rewrite seq_length, <- Hlen, firstn_all in HF.
Qed.

Section draw.
Context {A : Arith} {H : HashOrder}.

Lemma idx_end i o r e : good_call i o → aniso_on i o → agglomerate_one_level i o = (r, e) →
  ∀ k a, o_idx r !! k = Some a → a ≤ length (o_lines r).
Proof.
  intros HG Hon He. destruct (C13_lem i o r e HG Hon He) as (Hidx & _).
  destruct Hidx as [[-> _]|(H0 & Hm & Hl)]; [done|]. intros k a Ha.
  assert (∀ j b, k ≤ j → o_idx r !! j = Some b → a ≤ b) as Hle.
  { intros j b Hkj. revert b. induction Hkj as [|j Hkj IH]; intros b Hb; [naive_solver|].
    destruct (lookup_lt_is_Some_2 (o_idx r) j) as [c Hc]; [apply lookup_lt_Some in Hb; lia|].
    specialize (Hm _ _ _ Hc Hb). specialize (IH c Hc). lia. }
  rewrite last_lookup in Hl. apply lookup_lt_Some in Ha as Hlt. apply (Hle (pred (length (o_idx r)))); [lia|done].
Qed.
Lemma parts_dict (f : list nat) (parts : list (list nat)) (ids d : list nat) :
  Forall2 (λ p id, ∀ x, f !! x = Some id ↔ x ∈ p) parts ids →
  (∀ x, x ∈ d ↔ ∃ c, f !! x = Some c ∧ c ∈ ids) → ∀ x, x ∈ d ↔ x ∈ concat parts.
Proof.
  intros HP Hx x. rewrite Hx, (elem_of_list_In (concat parts)), in_concat. split.
  - intros (c & Hc & Hin). apply elem_of_list_lookup in Hin as [j Hj].
    destruct (Forall2_lookup_r _ _ _ _ _ HP Hj) as (p & Hp & Hpx). exists p.
    rewrite <- !elem_of_list_In. split; [by eapply elem_of_list_lookup_2|by apply Hpx].
  - intros (p & Hp & Hin). apply elem_of_list_In in Hp, Hin. apply elem_of_list_lookup in Hp as [j Hj].
    destruct (Forall2_lookup_l _ _ _ _ _ HP Hj) as (c & Hc & Hpx). exists c. split; [by apply Hpx|].
    by eapply elem_of_list_lookup_2.
Qed.
Lemma cut_take odd l parts rest : cut_spec odd l parts rest →
  concat parts = take (length l - if negb odd && Nat.odd (length l) || bool_decide (length l = 1) then 1 else 0) l.
Proof.
  intros HC. pose proof (cs_rest _ _ _ _ HC) as Hr. rewrite <- Hr. pose proof (cs_concat _ _ _ _ HC) as <-.
  rewrite app_length, Nat.add_sub, take_app. done.
Qed.

Lemma C82_lem i o r e : good_call i o → aniso_on i o →
  in_maxline i = None ∨ in_build i = true ∧ (∃ m, in_maxline i = Some m ∧ m <= 0)%Z →
  agglomerate_one_level i o = (r, e) →
  ∃ lines dic, call_lines i o = Ok lines ∧
    py_line_dict (zs (o_idx r)) (zs (o_lines r)) (zs (o_fc2cc r)) = POk dic ∧
    Forall2 (λ line d, StronglySorted lt d ∧ ∃ l, oriented i line l ∧
      ∀ x, x ∈ d ↔ x ∈ take (length l - if negb (in_odd i) && Nat.odd (length l) then 1 else 0) l) lines dic.
Proof.
  intros HG Hon Hmx He. destruct (C11_lem i o r e HG Hon Hmx He) as (lines & Hlo & Hfil & HF).
  assert (∀ l, l ∈ lines → length l ≠ 1) as Hlen.
  { intros l Hl. destruct (in_build i) eqn:Hb.
    - destruct (C14_lem i o r e HG Hon Hb He) as (lines' & Hlo' & _ & Hp & _). assert (lines' = lines) as -> by congruence.
      destruct (Hp l Hl). lia.
    - rewrite Hfil in Hl by done. apply elem_of_list_filter in Hl as [? _]. lia. }
  destruct (dict_ok (o_idx r) (o_lines r) (o_fc2cc r) (idx_end _ _ _ _ HG Hon He)) as (dic & Hd & HD).
  exists lines, dic. split_and!; [done|done|].
  apply Forall2_same_length_lookup_2; [by rewrite (Forall2_length _ _ _ HF), (Forall2_length _ _ _ HD)|].
  intros k line d Hk Hkd. destruct (Forall2_lookup_l _ _ _ _ _ HF Hk) as (ids & Hids & l & parts & rest & Ho & HC & HP & HR).
  destruct (Forall2_lookup_l _ _ _ _ _ HD Hids) as (d' & Hd' & Hs & Hx). simplify_eq. split; [done|]. exists l.
  split; [done|]. intros x. rewrite (parts_dict _ _ _ _ HP Hx), (cut_take _ _ _ _ HC), (bool_decide_false (length l = 1)), orb_false_r; [done|].
  destruct Ho as (y1 & y2 & _ & _ & [[_ ->]|[_ ->]]); rewrite ?reverse_length; apply Hlen; by eapply elem_of_list_lookup_2.
Qed.

Lemma C82_limit_lem i o r e m : good_call i o → aniso_on i o → in_maxline i = Some m → (0 < m)%Z ∨ in_build i = false →
  agglomerate_one_level i o = (r, e) →
  ∃ lines dic, call_lines i o = Ok lines ∧
    py_line_dict (zs (o_idx r)) (zs (o_lines r)) (zs (o_fc2cc r)) = POk dic ∧
    Forall2 (λ line d, StronglySorted lt d ∧ ∃ l K, oriented i line l ∧
      Z.of_nat K = (if bool_decide (Z.even m = true ∧ Z.of_nat (length l) = m + 1) then m + 1
                    else Z.max 0 (Z.min m (Z.of_nat (length l))))%Z ∧
      ∀ x, x ∈ d ↔ x ∈ take (K - if negb (in_odd i) && Nat.odd K || bool_decide (K = 1) then 1 else 0) l) lines dic.
Proof.
  intros HG Hon Hmx Hpos He. destruct (C12_lem i o r e m HG Hon Hmx Hpos He) as (lines & Hlo & _ & HF).
  destruct (dict_ok (o_idx r) (o_lines r) (o_fc2cc r) (idx_end _ _ _ _ HG Hon He)) as (dic & Hd & HD).
  exists lines, dic. split_and!; [done|done|].
  apply Forall2_same_length_lookup_2; [by rewrite (Forall2_length _ _ _ HF), (Forall2_length _ _ _ HD)|].
  intros k line d Hk Hkd. destruct (Forall2_lookup_l _ _ _ _ _ HF Hk) as (ids & Hids & l & K & parts & rest & Ho & HK & HC & HP & HR).
  destruct (Forall2_lookup_l _ _ _ _ _ HD Hids) as (d' & Hd' & Hs & Hx). simplify_eq. split; [done|]. exists l, K.
  split_and!; [done|done|]. intros x. rewrite (parts_dict _ _ _ _ HP Hx), (cut_take _ _ _ _ HC).
  assert (K ≤ length l) as Hle by (case_bool_decide as Hb; [destruct Hb; lia|lia]).
  rewrite take_length, (Nat.min_l _ _ Hle), take_take, Nat.min_l by lia. done.
Qed.
End draw.
