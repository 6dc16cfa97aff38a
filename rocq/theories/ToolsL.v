(** * ToolsL: lines, drawing and scripts (C75-C78) *)

From Verif Require Import Lib Main Spec SpecCoarse SpecHier SpecTools UtilM ToolsM MainP CoarseT ToolsT ToolsC.

(** ** Lines as pieces of a vector *)

Lemma NoDup_piece {T} (l : list T) k j : NoDup l → NoDup (take k (drop j l)).
Proof.
  intros Hl. rewrite <- (take_drop j l) in Hl. apply NoDup_app in Hl as (_ & _ & Hl).
  rewrite <- (take_drop k (drop j l)) in Hl. by apply NoDup_app in Hl as [Hl _].
Qed.

Section lines.
Context (n : nat) (idx cells : list nat) (HL : wf_lines n idx cells).

Lemma wl_le i j a b : i ≤ j → idx !! i = Some a → idx !! j = Some b → a ≤ b.
Proof using HL.
  intros Hij. revert b. induction Hij as [|j Hij IH]; intros b Ha Hb; [naive_solver|].
  destruct (lookup_lt_is_Some_2 idx j) as [c Hc]; [apply lookup_lt_Some in Hb; lia|].
  pose proof (ul_mono _ _ _ HL _ _ _ Hc Hb). specialize (IH c Ha Hc). lia.
Qed.
Lemma wl_end i a : idx !! i = Some a → a ≤ length cells.
Proof using HL.
  intros Ha. pose proof (ul_last _ _ _ HL) as Hl. rewrite last_lookup in Hl. apply lookup_lt_Some in Ha as Hlt.
  apply (wl_le i (pred (length idx)) a); [lia|done|done].
Qed.
Lemma wl_pos k l c : line_at idx cells k l → c ∈ l →
  ∃ a b j, idx !! k = Some a ∧ idx !! S k = Some b ∧ a ≤ j < b ∧ cells !! j = Some c.
Proof using HL.
  intros (a & b & Ha & Hb & ->) Hc. apply elem_of_list_lookup in Hc as [j Hj]. exists a, b, (a + j).
  apply lookup_lt_Some in Hj as Hlt. rewrite take_length, drop_length in Hlt. rewrite lookup_take, lookup_drop in Hj by lia.
  split_and!; [done|done|lia|lia|done].
Qed.
Lemma wl_one k l k' l' c : line_at idx cells k l → line_at idx cells k' l' → c ∈ l → c ∈ l' → k = k'.
Proof using HL.
  intros Hk Hk' Hc Hc'. destruct (wl_pos k l c Hk Hc) as (a & b & j & Ha & Hb & Hj & Hcj).
  destruct (wl_pos k' l' c Hk' Hc') as (a' & b' & j' & Ha' & Hb' & Hj' & Hcj').
  assert (j = j') as <- by (eapply NoDup_lookup; [apply HL|done|done]).
  destruct (lt_eq_lt_dec k k') as [[Hlt|?]|Hlt]; [|done|].
  - pose proof (wl_le (S k) k' b a' Hlt Hb Ha'). lia.
  - pose proof (wl_le (S k') k b' a Hlt Hb' Ha). lia.
Qed.
Lemma wl_slice k : S k < length idx → ∃ a b l, idx !! k = Some a ∧ idx !! S k = Some b ∧ line_at idx cells k l ∧
  l = slice cells a b ∧ pslice (zs cells) (Z.of_nat a) (Z.of_nat b) = zs l.
Proof using HL.
  intros Hk. destruct (lookup_lt_is_Some_2 idx k) as [a Ha]; [lia|]. destruct (lookup_lt_is_Some_2 idx (S k)) as [b Hb]; [lia|].
  exists a, b, (slice cells a b). split_and!; [done|done|by exists a, b|done|].
  rewrite pslice_nat by (rewrite fmap_length; by eapply wl_end). by rewrite slice_fmap.
Qed.
End lines.

(** ** Identifiers *)

Lemma ids_ok n deflt modulo perm : shuffles n perm →
  length (py_line_ids n deflt modulo perm) = n ∧
  (∀ ln, ln < n → line_id deflt modulo perm ln = py_line_ids n deflt modulo perm !! ln) ∧
  (∀ ln z, line_id deflt modulo perm ln = Some z → ln < n → z ≠ deflt).
Proof.
  intros Hp.
  assert (∃ base : list Z, length base = n ∧ (∀ ln, ln < n → match perm with None => Some (Z.of_nat ln) | Some p => p !! ln end = base !! ln) ∧
    (∀ z, z ∈ base → (0 <= z)%Z) ∧ base = match perm with Some p => p | None => zs (seq 0 n) end) as (base & Hl & Hb & Hpos & Hdef).
  { destruct perm as [p|]; simpl in Hp.
    - exists p. split_and!; [|done| |done].
      + by rewrite Hp, fmap_length, seq_length.
      + intros z Hz. rewrite Hp in Hz. apply elem_of_list_fmap in Hz as (k & -> & _). lia.
    - exists (zs (seq 0 n)). split_and!; [by rewrite fmap_length, seq_length| | |done].
      + intros ln Hln. rewrite list_lookup_fmap, lookup_seq_lt by done. done.
      + intros z Hz. apply elem_of_list_fmap in Hz as (k & -> & _). lia. }
  unfold py_line_ids, line_id. rewrite <- Hdef.
  set (md := λ k : Z, match modulo with Some m => if bool_decide (1 < m)%Z then (k mod m)%Z else k | None => k end).
  set (sg := λ k : Z, if bool_decide (deflt = 0)%Z then (k + 1)%Z else if bool_decide (0 < deflt)%Z then (- k)%Z else k).
  set (l1 := match modulo with Some m => _ | None => base end).
  assert (l1 = md <$> base) as ->.
  { unfold l1, md. destruct modulo as [m|]; [|by rewrite list_fmap_id]. case_bool_decide; [done|by rewrite list_fmap_id]. }
  set (l2 := if bool_decide (deflt = 0)%Z then _ else _).
  assert (l2 = sg <$> (md <$> base)) as ->.
  { unfold l2, sg. case_bool_decide; [done|]. case_bool_decide; [done|]. by rewrite list_fmap_id. }
  split_and!.
  - by rewrite !fmap_length.
  - intros ln Hln. rewrite !list_lookup_fmap, (Hb ln Hln). by destruct (base !! ln).
  - intros ln z Hz Hln. rewrite (Hb ln Hln) in Hz. destruct (base !! ln) as [k|] eqn:Hk; [|done].
    assert (0 <= k)%Z as Hk0 by (apply Hpos; by eapply elem_of_list_lookup_2).
    change (Some (sg (md k)) = Some z) in Hz. injection Hz as <-.
    assert (0 <= md k)%Z as Hm.
    { unfold md. destruct modulo as [m|]; [|done]. case_bool_decide; [|done]. apply Z.mod_pos_bound. lia. }
    unfold sg. repeat case_bool_decide; lia.
Qed.

(** C75, the data of the lines. *)
Lemma C75_lem n idx cells f2c deflt modulo perm : wf_lines n idx cells → shuffles (length idx - 1) perm →
  ∃ r, py_line_data (zs idx) (zs cells) (zs f2c) deflt modulo perm = POk r ∧ length r = length f2c ∧
    ∀ x c, f2c !! x = Some c →
      (∀ ln l, line_at idx cells ln l → c ∈ l → ∃ z, line_id deflt modulo perm ln = Some z ∧ r !! x = Some z ∧ z ≠ deflt) ∧
      ((∀ ln l, line_at idx cells ln l → c ∉ l) → r !! x = Some deflt).
Proof.
  intros HL HP. unfold py_line_data. rewrite !fmap_length. set (nl := length idx - 1).
  destruct (ids_ok nl deflt modulo perm HP) as (Hil & Hid & Hne). set (ids := py_line_ids nl deflt modulo perm) in *.
  pose proof (ul_ne _ _ _ HL) as Hidx. assert (length idx = S nl) as Hlen by (unfold nl; destruct idx; [done|simpl; lia]).
  edestruct (pfold_ok (λ ret ln,
      a <~ pget (zs idx) (Z.of_nat ln); b <~ pget (zs idx) (Z.of_nat ln + 1)%Z; v <~ pget ids (Z.of_nat ln);
      POk (zip_with (λ c r, if bool_decide (c ∈ pslice (zs cells) a b) then v else r) (zs f2c) ret))
    (λ pre r, length r = length f2c ∧ ∀ x c, f2c !! x = Some c →
      (∀ ln l, ln < length pre → line_at idx cells ln l → c ∈ l → r !! x = line_id deflt modulo perm ln) ∧
      ((∀ ln l, ln < length pre → line_at idx cells ln l → c ∉ l) → r !! x = Some deflt))
    (seq 0 nl) (replicate (length f2c) deflt)) as (r & Hr & Hrl & Hrx).
  - split; [apply replicate_length|]. intros x c Hx. split; [simpl; lia|]. intros _. apply lookup_replicate_2. by eapply lookup_lt_Some.
  - intros pre ln post r Heq [Hl Hx]. apply seq_split in Heq as (Hln & _ & Hlt). rewrite <- Hln in Hx.
    destruct (wl_slice n idx cells HL ln) as (a & b & l & Ha & Hb & Hat & _ & Hsl); [lia|].
    destruct (lookup_lt_is_Some_2 ids ln) as [v Hv]; [lia|].
    rewrite (pget_zs _ _ _ Ha). cbn [pbind]. rewrite (pget_zs_S _ _ _ Hb). cbn [pbind]. rewrite (pget_nat _ _ _ Hv). cbn [pbind].
    eexists. split; [done|]. rewrite zip_with_length, fmap_length. split; [lia|]. rewrite app_length. cbn [length]. rewrite Nat.add_1_r, <- Hln.
    intros x c Hxc. destruct (Hx x c Hxc) as [H1 H2]. destruct (lookup_lt_is_Some_2 r x) as [y Hy].
    { rewrite Hl. by eapply lookup_lt_Some. }
    rewrite lookup_zip_with, list_lookup_fmap, Hxc. cbn [fmap option_fmap option_map mbind option_bind]. rewrite Hy. simpl.
    rewrite Hsl. rewrite (bool_decide_ext _ (c ∈ l) (elem_of_zs l c)). split.
    + intros ln' l' Hln' Hat' Hc. case_bool_decide as Hin.
      * assert (ln' = ln) as -> by (by eapply (wl_one n idx cells HL _ l' _ l c)). by rewrite Hid, Hv.
      * assert (ln' ≠ ln).
        { intros ->. apply Hin. destruct Hat as (a1 & b1 & ? & ? & ->). destruct Hat' as (a2 & b2 & ? & ? & ->). by simplify_eq. }
        rewrite <- Hy. apply (H1 ln' l'); [lia|done|done].
    + intros Hno. rewrite bool_decide_false by (apply (Hno ln l); [lia|done]). rewrite <- Hy. apply H2.
      intros ln' l' ? ?. apply (Hno ln' l'); [lia|done].
  - exists r. split; [exact Hr|]. split; [done|]. rewrite seq_length in Hrx. intros x c Hx. destruct (Hrx x c Hx) as [H1 H2]. split.
    + intros ln l Hat Hc. assert (ln < nl) as Hlt.
      { destruct Hat as (a & b & _ & Hb & _). apply lookup_lt_Some in Hb. lia. }
      destruct (lookup_lt_is_Some_2 ids ln) as [v Hv]; [lia|]. exists v. rewrite (Hid ln Hlt), Hv. split; [done|].
      rewrite (H1 ln l Hlt Hat Hc), (Hid ln Hlt), Hv. split; [done|]. apply (Hne ln); [|done]. by rewrite (Hid ln Hlt).
    + intros Hno. apply H2. intros ln l _ Hat. by apply (Hno ln l).
Qed.
(** Two lines have different identifiers, but for the modulo. *)
Lemma C75_distinct_lem n deflt perm ln ln' z : shuffles n perm → ln < n → ln' < n →
  line_id deflt None perm ln = Some z → line_id deflt None perm ln' = Some z → ln = ln'.
Proof.
  intros Hp Hln Hln'. unfold line_id. destruct perm as [p|]; simpl in Hp.
  - destruct (p !! ln) as [k|] eqn:Hk; [|done]. destruct (p !! ln') as [k'|] eqn:Hk'; [|done].
    intros [= <-] [= Heq]. assert (k = k') as <- by (revert Heq; repeat case_bool_decide; lia).
    eapply NoDup_lookup; [|done|done]. rewrite Hp. apply NoDup_fmap_2; [apply _|apply NoDup_seq].
  - intros [= <-] [= Heq]. revert Heq; repeat case_bool_decide; lia.
Qed.

(** ** Limits *)

Lemma C75_limit_lem n idx cells mx : wf_lines n idx cells →
  ∃ idx' cells', py_limit_lines (zs idx) cells (Z.of_nat mx) = POk (zs idx', cells') ∧
    length idx' = length idx ∧ wf_lines n idx' cells' ∧ head idx' = Some 0 ∧
    ∀ k l, line_at idx cells k l → line_at idx' cells' k (take mx l).
Proof.
  intros HL. unfold py_limit_lines. rewrite fmap_length. set (nl := length idx - 1).
  pose proof (ul_ne _ _ _ HL) as Hidx. assert (length idx = S nl) as Hlen by (unfold nl; destruct idx; [done|simpl; lia]).
  edestruct (pfold_ok (λ (st : Z * list Z * list nat) ln, let '(cur, ri, rc) := st in
      b <~ pget (zs idx) (Z.of_nat ln + 1)%Z; a <~ pget (zs idx) (Z.of_nat ln);
      POk ((cur + Z.min (Z.of_nat mx) (b - a))%Z, ri ++ [(cur + Z.min (Z.of_nat mx) (b - a))%Z], rc ++ pslice cells a (a + Z.min (Z.of_nat mx) (b - a))))
    (λ pre st, ∃ rows, length rows = length pre ∧ st.1.1 = Z.of_nat (length (concat rows)) ∧
      st.1.2 = zs (map (row_ptr rows) (seq 0 (S (length rows)))) ∧ st.2 = concat rows ∧
      ∀ k l, k < length rows → line_at idx cells k l → rows !! k = Some (take mx l))
    (seq 0 nl) (0%Z, [0%Z], [])) as ([[cur ri] rc] & Hr & rows & H1 & H2 & H3 & H4 & H5).
  - exists []. split_and!; try done. simpl. lia.
  - intros pre ln post [[cur ri] rc] Heq (rows & H1 & H2 & H3 & H4 & H5). cbn [fst snd] in H2, H3, H4.
    apply seq_split in Heq as (Hln & _ & Hlt).
    destruct (wl_slice n idx cells HL ln) as (a & b & l & Ha & Hb & Hat & Hl & _); [lia|].
    pose proof (ul_mono _ _ _ HL _ _ _ Ha Hb) as Hab. pose proof (wl_end n idx cells HL _ _ Hb) as Hbl.
    rewrite (pget_zs _ _ _ Ha), (pget_zs_S _ _ _ Hb). cbn [pbind].
    replace (Z.min (Z.of_nat mx) (Z.of_nat b - Z.of_nat a)) with (Z.of_nat (min mx (b - a))) by lia.
    rewrite <- Nat2Z.inj_add, pslice_nat by lia.
    assert (slice cells a (a + min mx (b - a)) = take mx l) as ->.
    { rewrite Hl. unfold slice. rewrite take_take. f_equal. lia. }
    assert (length (take mx l) = min mx (b - a)) as Hll by (rewrite take_length, Hl; unfold slice; rewrite take_length, drop_length; lia).
    eexists. split; [done|]. exists (rows ++ [take mx l]). rewrite !app_length. cbn [length fst snd]. rewrite !Nat.add_1_r. split_and!.
    + by rewrite H1.
    + rewrite concat_app, app_length. simpl. rewrite app_nil_r. lia.
    + rewrite (seq_S (S (length rows))), map_app, fmap_app. rewrite H3. f_equal.
      * f_equal. apply map_ext_in. intros k Hk%elem_of_list_In%elem_of_seq. symmetry. apply row_ptr_app. simpl in Hk. lia.
      * simpl. rewrite row_ptr_snoc, row_ptr_all. f_equal. lia.
    + rewrite concat_app, H4. simpl. by rewrite app_nil_r.
    + intros k l' Hk Hat'. destruct (decide (k < length rows)) as [Hlt'|Hge].
      * rewrite lookup_app_l by done. by apply H5.
      * assert (k = ln) as -> by lia. rewrite lookup_app_r by lia. replace (ln - length rows) with 0 by lia. simpl. do 2 f_equal.
        destruct Hat as (a1 & b1 & ? & ? & ->). destruct Hat' as (a2 & b2 & ? & ? & ->). by simplify_eq.
  - cbn [fst snd] in H2, H3, H4. rewrite seq_length in H1.
    exists (map (row_ptr rows) (seq 0 (S (length rows)))), rc. set (idx' := map _ _).
    assert (∀ k, k ≤ nl → idx' !! k = Some (row_ptr rows k)) as Hk.
    { intros k Hk. unfold idx'. change ((row_ptr rows <$> seq 0 (S (length rows))) !! k = Some (row_ptr rows k)).
      rewrite list_lookup_fmap, lookup_seq_lt by lia. done. }
    assert (length idx' = S nl) as Hl' by (unfold idx'; rewrite map_length, seq_length; lia).
    split_and!.
    + transitivity (pbind (POk (cur, ri, rc)) (λ r : Z * list Z * list nat, POk (r.1.2, r.2))); [|simpl; by rewrite H3].
      rewrite <- Hr. reflexivity.
    + lia.
    + assert (∀ x, x ∈ rc → x ∈ cells) as Hsub.
      { intros x Hx. rewrite H4 in Hx. apply elem_of_list_In, in_concat in Hx as (r & Hr'%elem_of_list_In & Hx%elem_of_list_In).
        apply elem_of_list_lookup in Hr' as [k Hkr]. apply lookup_lt_Some in Hkr as Hlt.
        destruct (wl_slice n idx cells HL k) as (a & b & l & Ha & Hb & Hat & Hl & _); [lia|].
        rewrite (H5 k l) in Hkr by (done || lia). injection Hkr as <-.
        destruct (wl_pos n idx cells HL k l x Hat) as (_ & _ & j & _ & _ & _ & Hj); [|by eapply elem_of_list_lookup_2].
        apply elem_of_take in Hx as (i & Hi & _). by eapply elem_of_list_lookup_2. }
      split.
      * intros He. rewrite He in Hl'. done.
      * intros k a b Ha Hb. apply lookup_lt_Some in Hb as Hlt. rewrite Hk in Ha, Hb by lia. simplify_eq.
        destruct (lookup_lt_is_Some_2 rows k) as [r Hrk]; [lia|]. rewrite (row_ptr_S _ _ _ Hrk). lia.
      * rewrite last_lookup, Hl'. simpl. rewrite Hk by done. rewrite <- H1, row_ptr_all. by rewrite H4.
      * rewrite H4. pose proof (ul_nd _ _ _ HL) as Hnd.
        assert (∀ k, k ≤ length rows → NoDup (concat (take k rows))) as Hg.
        { induction k as [|k IH]; intros Hk'; [constructor|]. destruct (lookup_lt_is_Some_2 rows k) as [r Hrk]; [lia|].
          rewrite (take_S_r _ _ _ Hrk), concat_app. simpl. rewrite app_nil_r.
          destruct (wl_slice n idx cells HL k) as (a & b & l & Ha & Hb & Hat & Hl & _); [lia|].
          rewrite (H5 k l) in Hrk by (done || lia). injection Hrk as <-. apply NoDup_app. split_and!; [apply IH; lia| |].
          - intros x Hx Hxl. apply elem_of_take in Hxl as (i & Hi & _).
            apply elem_of_list_In, in_concat in Hx as (r & Hr'%elem_of_list_In & Hx%elem_of_list_In).
            apply elem_of_list_lookup in Hr' as [k' Hk'r]. apply lookup_lt_Some in Hk'r as Hlt'. rewrite take_length in Hlt'.
            rewrite lookup_take in Hk'r by lia.
            destruct (wl_slice n idx cells HL k') as (a' & b' & l' & Ha' & Hb' & Hat' & Hl'' & _); [lia|].
            rewrite (H5 k' l') in Hk'r by (done || lia). injection Hk'r as <-. apply elem_of_take in Hx as (i' & Hi' & _).
            assert (k' = k); [|lia]. eapply (wl_one n idx cells HL k' l' k l x); [done|done|by eapply elem_of_list_lookup_2..].
          - rewrite Hl. unfold slice. rewrite take_take. by apply NoDup_piece. }
        rewrite <- (firstn_all rows). by apply Hg.
      * intros x Hx. apply (ul_lt _ _ _ HL). by apply Hsub.
    + rewrite head_lookup, Hk by lia. done.
    + intros k l Hat. assert (k < nl) as Hlt.
      { destruct Hat as (a & b & _ & Hb & _). apply lookup_lt_Some in Hb. lia. }
      pose proof (H5 k l ltac:(lia) Hat) as Hrk. exists (row_ptr rows k), (row_ptr rows (S k)).
      rewrite !Hk by lia. split_and!; [done|done|]. rewrite (row_ptr_S _ _ _ Hrk), H4, (concat_at _ _ _ Hrk).
      unfold row_ptr. rewrite drop_app. replace (_ + _ - _) with (length (take mx l)) by lia. by rewrite take_app.
Qed.

(** ** Data for drawing *)

Lemma split_concat {T} (data : list T) sizes : ∀ start, start + sum_list sizes ≤ length data →
  concat (py_split data start sizes) = slice data start (start + sum_list sizes) ∧ map length (py_split data start sizes) = sizes.
Proof.
  induction sizes as [|k sizes IH]; intros start Hs; cbn [py_split concat map].
  - split; [|done]. change (sum_list []) with 0. unfold slice. by replace (start + 0 - start) with 0 by lia.
  - change (sum_list (k :: sizes)) with (k + sum_list sizes) in *.
    destruct (IH (start + k)) as [IH1 IH2]; [lia|]. rewrite IH1, IH2. split.
    + unfold slice. replace (start + k - start) with k by lia. replace (start + k + sum_list sizes - (start + k)) with (sum_list sizes) by lia.
      replace (start + (k + sum_list sizes) - start) with (k + sum_list sizes) by lia. rewrite <- drop_drop, <- take_take_drop. done.
    + f_equal. rewrite slice_length by lia. lia.
Qed.
(** C76, blocks. *)
Lemma C76_blocks_lem {T} (data : list T) sizes : sum_list sizes = length data → sizes ≠ [] →
  concat (py_celldata data sizes) = data ∧ map length (py_celldata data sizes) = sizes.
Proof.
  intros Hs Hne. unfold py_celldata. case_bool_decide as Hl.
  - destruct sizes as [|k [|? ?]]; [done| |simpl in Hl; lia]. simpl in *. rewrite app_nil_r. split; [done|]. f_equal. lia.
  - destruct (split_concat data sizes 0) as [H1 H2]; [lia|]. rewrite H1, H2. split; [|done].
    unfold slice. rewrite drop_0. apply take_ge. lia.
Qed.

Lemma pfold_map (p l : list Z) : (∀ x, x ∈ l → ∃ y, pget p x = POk y) → ∀ acc,
  ∃ d, pfold (λ acc x, y <~ pget p x; POk (acc ++ [y])) l acc = POk (acc ++ d) ∧ length d = length l ∧
    ∀ k x, l !! k = Some x → ∃ y, d !! k = Some y ∧ pget p x = POk y.
Proof.
  induction l as [|x l IH]; intros Hl acc; [by exists []; rewrite app_nil_r|]. destruct (Hl x) as [y Hy]; [left|].
  destruct (IH ltac:(intros z Hz; apply Hl; by right) (acc ++ [y])) as (d & Hd & Hdl & Hdk).
  exists (y :: d). cbn [pfold]. rewrite Hy. cbn [pbind]. rewrite Hd. rewrite <- app_assoc. split_and!; [done|simpl; lia|].
  intros [|k] z Hz; simpl in *; [|by apply Hdk]. simplify_eq. eauto.
Qed.

(** C76, shuffling: cells of the same coarse cell, and only them, get the same
    number. *)
Lemma C76_shuffle_lem array (f2c : list nat) m p : m ∈ f2c → (∀ c, c ∈ f2c → c ≤ m) → p ≡ₚ zs (seq 0 (S m)) →
  ∃ d, py_aggl_data array (zs f2c) [length f2c] None (Some p) = POk ([d], if array then d else zs f2c) ∧
    length d = length f2c ∧
    ∀ x y, x < length f2c → y < length f2c → d !! x = d !! y ↔ f2c !! x = f2c !! y.
Proof.
  intros Hm Hall Hp. assert (length p = S m) as Hpl by (by rewrite Hp, fmap_length, seq_length).
  assert (NoDup p) as Hnd by (rewrite Hp; apply NoDup_fmap_2; [apply _|apply NoDup_seq]).
  assert (∀ x, x ∈ zs f2c → ∃ y, pget p x = POk y) as Hget.
  { intros x (c & -> & Hc%Hall)%elem_of_list_fmap. destruct (lookup_lt_is_Some_2 p c) as [y Hy]; [lia|]. exists y. by apply pget_nat. }
  destruct (pfold_map p (zs f2c) Hget []) as (d & Hd & Hdl & Hdk). rewrite fmap_length in Hdl.
  exists d. split_and!.
  - unfold py_aggl_data. destruct (zs f2c) as [|z l] eqn:Hz.
    { apply (f_equal length) in Hz. rewrite fmap_length in Hz. destruct f2c; [by apply elem_of_nil in Hm|done]. }
    rewrite Hd. simpl. done.
  - done.
  - intros x y Hx Hy. destruct (lookup_lt_is_Some_2 f2c x Hx) as [c Hc]. destruct (lookup_lt_is_Some_2 f2c y Hy) as [c' Hc'].
    assert (∀ k c, f2c !! k = Some c → d !! k = p !! c) as Hpc.
    { intros k e Hk. destruct (Hdk k (Z.of_nat e)) as (v & Hv & Hpv); [by rewrite list_lookup_fmap, Hk|].
      destruct (p !! e) as [v'|] eqn:Hpe; [|by rewrite (pget_out p e Hpe) in Hpv]. rewrite (pget_nat p e v' Hpe) in Hpv. congruence. }
    rewrite (Hpc x c Hc), (Hpc y c' Hc'), Hc, Hc'. split; [|congruence]. intros He.
    destruct (lookup_lt_is_Some_2 p c) as [v Hv]; [apply elem_of_list_lookup_2, Hall in Hc; lia|].
    f_equal. eapply NoDup_lookup; [done|done|congruence].
Qed.

(** C76, all options: each cell gets the number of its coarse cell, shuffled and modulo. *)
Lemma C76_numbers_lem array (f2c : list nat) sizes modulo perm m : m ∈ f2c → (∀ c, c ∈ f2c → c ≤ m) →
  (∀ p, perm = Some p → p ≡ₚ zs (seq 0 (S m))) → sum_list sizes = length f2c → sizes ≠ [] →
  ∃ d bl, py_aggl_data array (zs f2c) sizes modulo perm = POk (bl, if array then d else zs f2c) ∧
    concat bl = d ∧ map length bl = sizes ∧ length d = length f2c ∧
    ∀ x c, f2c !! x = Some c → ∃ z, (match perm with Some p => p !! c | None => Some (Z.of_nat c) end) = Some z ∧
      d !! x = Some (match modulo with Some k => if bool_decide (1 < k)%Z then (z mod k)%Z else z | None => z end).
Proof.
  intros Hm Hall Hp Hs Hne.
  assert (∃ d0, match perm with
       | None => POk (zs f2c)
       | Some p => match zs f2c with [] => PRaise ValueError | _ => pfold (λ acc x, y <~ pget p x; POk (acc ++ [y])) (zs f2c) [] end
       end = POk d0 ∧ length d0 = length f2c ∧
    ∀ x c, f2c !! x = Some c → ∃ z, (match perm with Some p => p !! c | None => Some (Z.of_nat c) end) = Some z ∧ d0 !! x = Some z) as (d0 & Hd0 & Hl0 & Hx0).
  { destruct perm as [p|].
    - specialize (Hp p eq_refl). assert (length p = S m) as Hpl by (by rewrite Hp, fmap_length, seq_length).
      assert (∀ x, x ∈ zs f2c → ∃ y, pget p x = POk y) as Hget.
      { intros x (c & -> & Hc%Hall)%elem_of_list_fmap. destruct (lookup_lt_is_Some_2 p c) as [y Hy]; [lia|]. exists y. by apply pget_nat. }
      destruct (pfold_map p (zs f2c) Hget []) as (d & Hd & Hdl & Hdk). rewrite fmap_length in Hdl. exists d. split_and!; [|done|].
      + destruct (zs f2c) as [|z l] eqn:Hz; [|by rewrite Hd].
        apply (f_equal length) in Hz. rewrite fmap_length in Hz. destruct f2c; [by apply elem_of_nil in Hm|done].
      + intros k e Hk. destruct (Hdk k (Z.of_nat e)) as (v & Hv & Hpv); [by rewrite list_lookup_fmap, Hk|].
        destruct (p !! e) as [v'|] eqn:Hpe; [|by rewrite (pget_out p e Hpe) in Hpv]. rewrite (pget_nat p e v' Hpe) in Hpv.
        exists v'. split; [done|congruence].
    - exists (zs f2c). split_and!; [done|by rewrite fmap_length|]. intros x c Hx. exists (Z.of_nat c). by rewrite list_lookup_fmap, Hx. }
  unfold py_aggl_data. rewrite Hd0. cbn [pbind].
  set (d := match modulo with Some k => if bool_decide (1 < k)%Z then map (λ x, (x mod k)%Z) d0 else d0 | None => d0 end).
  assert (length d = length f2c) as Hdl by (unfold d; destruct modulo as [k|]; [case_bool_decide; rewrite ?map_length|]; done).
  destruct (C76_blocks_lem d sizes) as [Hb1 Hb2]; [lia|done|].
  exists d, (py_celldata d sizes). split_and!; [done|done|done|done|].
  intros x c Hx. destruct (Hx0 x c Hx) as (z & Hz & Hdz). exists z. split; [done|].
  unfold d. destruct modulo as [k|]; [|done]. case_bool_decide; [|done].
  change (map ?f d0) with (f <$> d0). by rewrite list_lookup_fmap, Hdz.
Qed.

(** ** Levels *)

(** C77, the cells followed through the levels. *)
Lemma C77_lem n (maps : list (list nat)) : (∀ x, x < n → is_Some (follow maps x)) →
  ∃ l : list nat, py_updates n (map (λ f : list nat, zs f) maps) = POk (zs l) ∧ length l = n ∧ ∀ x, x < n → l !! x = follow maps x.
Proof.
  unfold py_updates.
  assert (∀ cur : list nat, (∀ c, c ∈ cur → is_Some (follow maps c)) →
    ∃ l : list nat, pfold (λ cur f, py_update f cur) (map (λ f : list nat, zs f) maps) (zs cur) = POk (zs l) ∧ length l = length cur ∧
      ∀ x c, cur !! x = Some c → l !! x = follow maps c) as Hg.
  { induction maps as [|f maps IH]; intros cur Hc; [by exists cur|]. cbn [pfold map].
    assert (∀ x, x ∈ zs cur → ∃ y, pget (zs f) x = POk y) as Hget.
    { intros x (c & -> & Hcc)%elem_of_list_fmap. destruct (Hc c Hcc) as [e He]. simpl in He.
      destruct (f !! c) as [y|] eqn:Hy; [|done]. exists (Z.of_nat y). by apply pget_zs. }
    destruct (pfold_map (zs f) (zs cur) Hget []) as (d & Hd & Hdl & Hdk). rewrite fmap_length in Hdl. unfold py_update at 1. rewrite Hd. cbn [pbind app].
    assert (∀ x c, cur !! x = Some c → ∃ y, f !! c = Some y ∧ d !! x = Some (Z.of_nat y)) as Hx.
    { intros x c Hxc. destruct (Hdk x (Z.of_nat c)) as (y & Hy & Hp); [by rewrite list_lookup_fmap, Hxc|].
      destruct (Hc c) as [e He]; [by eapply elem_of_list_lookup_2|]. simpl in He. destruct (f !! c) as [y'|] eqn:Hy'; [|done].
      exists y'. split; [done|]. rewrite (pget_zs f c y' Hy') in Hp. congruence. }
    set (cur' := map Z.to_nat d). assert (d = zs cur') as Hd'.
    { apply list_eq. intros k. unfold cur'. change (map Z.to_nat d) with (Z.to_nat <$> d). rewrite !list_lookup_fmap.
      destruct (d !! k) as [z|] eqn:Hk; [|done]. simpl. f_equal. apply lookup_lt_Some in Hk as Hlt.
      destruct (lookup_lt_is_Some_2 cur k) as [c Hck]; [lia|]. destruct (Hx k c Hck) as (y & _ & Hy).
      assert (z = Z.of_nat y) as -> by congruence. by rewrite Nat2Z.id. }
    assert (∀ x c, cur !! x = Some c → ∃ y, f !! c = Some y ∧ cur' !! x = Some y) as Hx'.
    { intros x c Hxc. destruct (Hx x c Hxc) as (y & Hy & Hdx). exists y. split; [done|]. unfold cur'.
      change (map Z.to_nat d) with (Z.to_nat <$> d). rewrite list_lookup_fmap, Hdx. simpl. by rewrite Nat2Z.id. }
    assert (length cur' = length cur) as Hcl by (unfold cur'; by rewrite map_length).
    rewrite Hd'. destruct (IH cur') as (l & Hl & Hll & Hlx).
    - intros y Hy. apply elem_of_list_lookup in Hy as [x Hxy]. apply lookup_lt_Some in Hxy as Hlt.
      destruct (lookup_lt_is_Some_2 cur x) as [c Hxc]; [lia|]. destruct (Hx' x c Hxc) as (y' & Hy' & Hxy').
      destruct (Hc c) as [e He]; [by eapply elem_of_list_lookup_2|]. simpl in He. rewrite Hy' in He. exists e. congruence.
    - exists l. split_and!; [exact Hl|lia|]. intros x c Hxc. destruct (Hx' x c Hxc) as (y & Hy & Hxy).
      rewrite (Hlx x y Hxy). simpl. by rewrite Hy. }
  intros Hn. destruct (Hg (seq 0 n)) as (l & Hl & Hll & Hlx).
  - intros c Hc%elem_of_seq. apply Hn. lia.
  - rewrite seq_length in Hll. exists l. split_and!; [exact Hl|done|]. intros x Hx. apply Hlx. by apply lookup_seq_lt.
Qed.

(** ** Priorities *)

Section prio.
Context {A : Arith} {H : HashOrder}.

Lemma py_weights_len n : length (py_weights n) = n - 1.
Proof. unfold py_weights. by rewrite map_length, reverse_length, seq_length. Qed.
Lemma py_weights_out n : 0 < n → py_weights n !! (n - 1) = None.
Proof. intros Hn. apply lookup_ge_None_2. rewrite py_weights_len. lia. Qed.

Lemma foldM_last_ub {S T} (f : S → T → res S) l x s : (∀ s y, y ∈ l → (∃ s', f s y = Ok s') ∨ f s y = Err EUB) →
  (∀ s, f s x = Err EUB) → foldM f (l ++ [x]) s = Err EUB.
Proof.
  intros Hl Hx. revert s. induction l as [|y l IH]; intros s; simpl.
  - by rewrite Hx.
  - destruct (Hl s y) as [[s' ->]| ->]; [left| |done]. simpl. apply IH. intros s2 z Hz. apply Hl. by right.
Qed.
Lemma vget_ub {T} (l : list T) k : (∃ x, vget l k = Ok x) ∨ vget l k = Err EUB.
Proof. unfold vget. destruct (l !! k); eauto. Qed.

Lemma max_bnd_in bnd top : max_bnd bnd = Ok top → top ∈ bnd.
Proof.
  destruct bnd as [|b l]; [done|]. simpl. intros [= <-].
  assert (foldl (λ m x, if bool_decide (m < x)%Z then x else m) b l = foldl Z.max b l) as ->; [|by apply zmax_ok].
  revert b. induction l as [|y l IH]; intros b; [done|]. simpl. case_bool_decide.
  - rewrite Z.max_r by lia. apply (IH y).
  - rewrite Z.max_l by lia. apply (IH b).
Qed.

Lemma init_ub prio bnd n bp one : length bnd = S n → prio !! n = None →
  (one = true ∨ ∃ b, bnd !! n = Some b ∧ ∀ x, x ∈ bnd → (x <= b)%Z) →
  pool_initialize prio bnd (pool_new bp one) = Err EUB.
Proof.
  intros Hl Hp Hone. unfold pool_initialize. cbn [sp_top pool_new sp_q sp_one].
  destruct (max_bnd bnd) as [top|e] eqn:Ht; cbn [mbind res_bind]; [|destruct bnd; simpl in *; congruence].
  assert (∀ (q : list (list nat)) z, (∃ x, vgetZ q z = Ok x) ∨ vgetZ q z = Err EUB) as Hz.
  { intros q z. unfold vgetZ. case_bool_decide; [apply vget_ub|by right]. }
  set (q := replicate N_CELL_TYPES []). destruct (Hz q top) as [[x Hx]|Hx]; rewrite Hx; [|done]. cbn [mbind res_bind].
  assert (vget prio (0 + n) = Err EUB) as Hpn by (unfold vget; simpl; by rewrite Hp).
  destruct one.
  - unfold one_point_init. rewrite Hl, seq_S. rewrite (foldM_last_ub _ (seq 0 n)); [done| |].
    + intros s y _. destruct (vget_ub prio y) as [[? ->]| ->]; [|by right]. simpl. destruct (vget_ub bnd y) as [[? ->]| ->]; [|by right]. simpl. eauto.
    + intros s. cbv beta. by rewrite Hpn.
  - destruct Hone as [?|(b & Hb & Hmax)]; [done|]. assert (vget bnd (0 + n) = Ok b) as Hbn by (unfold vget; simpl; by rewrite Hb).
    unfold full_init. rewrite Hl, seq_S. rewrite (foldM_last_ub _ (seq 0 n)); [done| |].
    + intros s y _. destruct (vget_ub bnd y) as [[? ->]| ->]; [|by right]. simpl. case_bool_decide; [|by eauto].
      destruct (vget_ub prio y) as [[? ->]| ->]; [|by right]. simpl. eauto.
    + intros s. cbv beta. rewrite Hbn. cbn [mbind res_bind]. rewrite bool_decide_true by (by apply Hmax, max_bnd_in). by rewrite Hpn.
Qed.

(** C78, the priorities of the scripts. *)
Lemma C78_lem i o : good_call i o → ¬ aniso_on i o →
  (in_order i = 10%Z ∨ in_order i = 11%Z ∨
   ∃ b, in_bnd i !! (in_n i - 1) = Some b ∧ ((in_dim i <= b)%Z ∨ ∀ x b', in_bnd i !! x = Some b' → (b' <= b)%Z)) →
  agglomerate_one_level (give_prio (py_weights (in_n i)) i) o = (o, Err EUB).
Proof.
  intros HG Hna Hcase. pose proof (sanity_ok i o HG) as Hs.
  destruct (sanity i o) as [b|] eqn:Es; simpl in Hs; [|done].
  assert (b = false) as -> by (destruct b; [by destruct Hna; apply Hs|done]).
  assert (sanity (give_prio (py_weights (in_n i)) i) o = Ok false) as Es' by exact Es.
  pose proof (gc_mesh _ _ HG) as HM. pose proof (wf_bnd _ HM) as Hbl.
  assert (∃ n, in_n i = S n) as [n Hn].
  { destruct (in_n i) as [|n] eqn:E; [|eauto]. pose proof (wf_pos _ HM). lia. }
  assert (phase1 (give_prio (py_weights (in_n i)) i) o = Err EUB) as Hp1; [|by unfold agglomerate_one_level; rewrite Hp1].
  unfold phase1. rewrite Es'. simpl. change (pool_of (give_prio (py_weights (in_n i)) i)) with (pool_of i).
  assert (∃ bp one, pool_of i = Ok (pool_new bp one) ∧ (in_order i = 10%Z ∨ in_order i = 11%Z → one = true)) as (bp & one & -> & Hone).
  { pose proof (ac_order _ (gc_acc _ _ HG)) as Ho. unfold pool_of. rewrite !elem_of_cons, elem_of_nil in Ho.
    destruct Ho as [-> |[-> |[-> |[-> |[]]]]]; eexists _, _; (split; [reflexivity|]); intros [?|?]; done. }
  cbn [mbind res_bind]. rewrite (init_ub _ _ n); [done| | |].
  - simpl. unfold fixed_bnd. rewrite map_length. simpl. lia.
  - simpl. rewrite Hn. replace n with (S n - 1) at 1 by lia. apply py_weights_out. lia.
  - destruct Hcase as [Ho|[Ho|(b & Hb & Hmax)]]; [left; auto..|right]. rewrite Hn in Hb. replace (S n - 1) with n in Hb by lia.
    exists (if bool_decide (in_dim i < b)%Z then in_dim i else b). split.
    + change (fixed_bnd i !! n = Some (if bool_decide (in_dim i < b)%Z then in_dim i else b)). unfold fixed_bnd.
      change (((λ n, if bool_decide (in_dim i < n)%Z then in_dim i else n) <$> in_bnd i) !! n = Some (if bool_decide (in_dim i < b)%Z then in_dim i else b)).
      by rewrite list_lookup_fmap, Hb.
    + intros x Hx. change (x ∈ (λ n, if bool_decide (in_dim i < n)%Z then in_dim i else n) <$> in_bnd i) in Hx.
      apply elem_of_list_fmap in Hx as (b' & -> & Hb'). apply elem_of_list_lookup in Hb' as [k Hk].
      destruct Hmax as [Hd|Hmax]; [|pose proof (Hmax k b' Hk)]; repeat case_bool_decide; lia.
Qed.
End prio.
