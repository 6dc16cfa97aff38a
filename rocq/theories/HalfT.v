(** * HalfT: the number of coarse cells (C61) *)

From Verif Require Import ApiP ApiT UtilM SpecCoarse CoarseT CoarseU SpecChain ChainT AnisoP.

(** ** Counting the cells of a partition *)

Section count.
Context (f : list nat).

Definition cell_list (c : nat) : list nat := filter (λ x, f !! x = Some c) (seq 0 (length f)).

Lemma elem_of_cell_list x c : x ∈ cell_list c ↔ f !! x = Some c.
Proof.
  unfold cell_list. rewrite elem_of_list_filter, elem_of_seq. split; [by intros [? _]|].
  intros Hx. pose proof (lookup_lt_Some _ _ _ Hx). split; [done|lia].
Qed.
Lemma cell_list_nodup c : NoDup (cell_list c).
Proof. apply NoDup_filter, NoDup_seq. Qed.

Lemma cells_nodup m : NoDup (concat (map cell_list (seq 0 m))).
Proof.
  induction m as [|m IH]; [constructor|]. rewrite seq_S, map_app, concat_app. simpl. rewrite app_nil_r.
  apply NoDup_app. split; [done|]. split; [|apply cell_list_nodup]. intros x Hx Hx'.
  apply elem_of_cell_list in Hx'. apply elem_of_concat in Hx as (l & Hx & Hl).
  apply elem_of_list_fmap in Hl as (c & -> & Hc). apply elem_of_cell_list in Hx. apply elem_of_seq in Hc.
  rewrite Hx in Hx'. injection Hx' as ->. lia.
Qed.

Lemma cells_length m : (∀ c, c ∈ f → c < m) → length (concat (map cell_list (seq 0 m))) = length f.
Proof.
  intros Hm. rewrite <- (seq_length (length f) 0). apply Permutation_length, NoDup_Permutation;
    [apply cells_nodup|apply NoDup_seq|]. intros x. rewrite elem_of_concat, elem_of_seq. split.
  - intros (l & Hx & Hl). apply elem_of_list_fmap in Hl as (c & -> & _). apply elem_of_cell_list in Hx.
    apply lookup_lt_Some in Hx. lia.
  - intros [_ Hx]. destruct (lookup_lt_is_Some_2 f x) as [c Hc]; [done|]. exists (cell_list c).
    split; [by apply elem_of_cell_list|]. apply elem_of_list_fmap. exists c. split; [done|].
    apply elem_of_seq. split; [lia|]. apply Hm. by eapply elem_of_list_lookup_2.
Qed.

(** Each class has two elements or an element of [L]. *)
Lemma count_half m (L : gset nat) : (∀ c, c ∈ f → c < m) →
  (∀ c, c < m → (∃ x y, x ≠ y ∧ f !! x = Some c ∧ f !! y = Some c) ∨ (∃ x, x ∈ L ∧ f !! x = Some c)) →
  2 * m ≤ length f + size L.
Proof.
  intros Hm Hc. rewrite <- (cells_length m Hm). clear Hm. revert L Hc.
  induction m as [|m IH]; intros L Hc; [simpl; lia|].
  rewrite seq_S, map_app, concat_app, app_length. simpl. rewrite app_nil_r.
  destruct (Hc m) as [(x & y & Hne & Hx & Hy)|(x & HL & Hx)]; [lia| |].
  - assert (2 ≤ length (cell_list m)).
    { apply (submseteq_length [x; y]), NoDup_submseteq.
      - apply NoDup_cons. split; [by intros ->%elem_of_list_singleton|apply NoDup_singleton].
      - intros z Hz. apply elem_of_cons in Hz as [-> |Hz%elem_of_list_singleton]; [by apply elem_of_cell_list|].
        subst. by apply elem_of_cell_list. }
    assert (2 * m ≤ length (concat (map cell_list (seq 0 m))) + size L); [|lia]. apply IH. intros. apply Hc. lia.
  - assert (1 ≤ length (cell_list m)).
    { apply (submseteq_length [x]), NoDup_submseteq; [apply NoDup_singleton|].
      intros z ->%elem_of_list_singleton. by apply elem_of_cell_list. }
    assert (∀ c, c < m → (∃ x y, x ≠ y ∧ f !! x = Some c ∧ f !! y = Some c) ∨
      (∃ x', x' ∈ L ∖ {[x]} ∧ f !! x' = Some c)) as Hc'.
    { intros c Hcm. destruct (Hc c) as [?|(x' & HL' & Hx')]; [lia|by left|right]. exists x'. split; [|done].
      apply elem_of_difference. split; [done|]. intros ->%elem_of_singleton. rewrite Hx in Hx'. injection Hx' as ->. lia. }
    assert (size L = S (size (L ∖ {[x]}))) as HS.
    { rewrite (union_difference_L {[x]} L) at 1 by set_solver. rewrite size_union by set_solver.
      by rewrite size_singleton. }
    specialize (IH _ Hc'). lia.
Qed.

(** Each class has at most [k] elements. *)
Lemma count_most m k : (∀ c, c ∈ f → c < m) →
  (∀ c (X : gset nat), (∀ x, x ∈ X ↔ f !! x = Some c) → size X ≤ k) → length f ≤ m * k.
Proof.
  intros Hm Hc. rewrite <- (cells_length m Hm). clear Hm. induction m as [|m IH]; [simpl; lia|].
  rewrite seq_S, map_app, concat_app, app_length. simpl. rewrite app_nil_r.
  specialize (Hc m (list_to_set (cell_list m))). rewrite size_list_to_set in Hc by apply cell_list_nodup.
  assert (length (cell_list m) ≤ k); [|lia]. apply Hc. intros x. by rewrite elem_of_list_to_set, elem_of_cell_list.
Qed.
End count.

Section half.
Context {A : Arith} {H : HashOrder}.

(** Coarse cells of lines have two cells. *)
Lemma aniso_two i o r e c : good_call i o → agglomerate_one_level i o = (r, e) → aniso_id i o r c →
  ∃ x y, x ≠ y ∧ o_fc2cc r !! x = Some c ∧ o_fc2cc r !! y = Some c.
Proof.
  intros GC He [Hon Hc].
  destruct (lines_run i o r e GC Hon He) as (lines & _ & (_ & Hnd & _) & _ & HF & Hcat & _).
  rewrite <- Hcat in Hc. apply elem_of_concat in Hc as (ids & Hc & Hids).
  apply elem_of_list_lookup in Hids as [j Hj]. destruct (Forall2_lookup_r _ _ _ _ _ HF Hj) as (line & Hline & Hcut).
  destruct (line_cut_spec _ _ _ _ Hcut) as (l & parts & rest & Hl & HC & HP). apply oriented_or in Hl.
  apply elem_of_list_lookup in Hc as [k Hk]. destruct (Forall2_lookup_r _ _ _ _ _ HP Hk) as (p & Hp & Hpc).
  pose proof (line_nodup lines j line l Hnd Hline Hl) as Hnl.
  assert (NoDup p) as Hnp.
  { rewrite <- (take_drop (eff (max_line i) (length line)) l) in Hnl. apply NoDup_app in Hnl as (Hnl & _ & _).
    rewrite <- (cs_concat _ _ _ _ HC) in Hnl. apply NoDup_app in Hnl as (Hnl & _ & _).
    apply elem_of_list_lookup_2, elem_of_list_split in Hp as (l1 & l2 & ->).
    rewrite concat_app in Hnl. apply NoDup_app in Hnl as (_ & _ & Hnl). simpl in Hnl. by apply NoDup_app in Hnl as (? & _ & _). }
  assert (2 ≤ length p) as Hlen.
  { destruct (decide (S k < length parts)) as [Hs|Hs]; [by rewrite (cs_two _ _ _ _ HC k p Hp Hs)|].
    assert (last parts = Some p) as Hla.
    { rewrite last_lookup. pose proof (lookup_lt_Some _ _ _ Hp). by replace (pred (length parts)) with k by lia. }
    rewrite (cs_last _ _ _ _ HC p Hla). destruct (_ && _); lia. }
  destruct p as [|x [|y p]]; simpl in Hlen; [lia..|]. exists x, y. split_and!.
  - apply NoDup_cons in Hnp as [Hnp _]. intros ->. apply Hnp. left.
  - apply Hpc. left.
  - apply Hpc. right. left.
Qed.

Lemma ids_of i o r e : good_call i o → in_corr i = false ∨ thresh_one i → agglomerate_one_level i o = (r, e) →
  length (o_fc2cc r) = in_n i ∧ ∃ m, 0 < m ∧ ∀ c, c ∈ o_fc2cc r ↔ c < m.
Proof.
  intros GC HT He. destruct (C01_lem i o GC) as (r' & Hr & Hlen). rewrite He in Hr. injection Hr as <- ->.
  split; [done|]. destruct (C02_lem i o r (Ok ()) GC HT He) as [m Hm]. exists m. split.
  - pose proof (wf_pos _ (gc_mesh _ _ GC)). destruct (lookup_lt_is_Some_2 (o_fc2cc r) 0) as [c Hc]; [lia|].
    assert (c < m); [|lia]. apply Hm. by exists 0.
  - intros c. by rewrite elem_of_list_lookup, Hm.
Qed.

Lemma C61_count_lem (i : input) (o : outs) (r : outs) (e : res ()) (L : gset nat) :
  good_call i o → in_corr i = true → thresh_one i → agglomerate_one_level i o = (r, e) →
  (∀ x, x < in_n i →
    (∀ y c, in_edge i x y → y ≠ x → o_fc2cc r !! y = Some c → aniso_id i o r c) → x ∈ L) →
  ∃ m, (∀ c, c ∈ o_fc2cc r ↔ c < m) ∧ 2 * m ≤ in_n i + size L.
Proof.
  intros GC Hco HT He HL. destruct (ids_of i o r e GC (or_intror HT) He) as (Hlen & m & _ & Hm).
  exists m. split; [done|]. rewrite <- Hlen. apply count_half; [intros; by apply Hm|].
  intros c Hc. apply Hm, elem_of_list_lookup in Hc as [x Hx].
  destruct (decide (aniso_on i o ∧ c ∈ o_lines r)) as [Ha|Ha]; [left; by eapply aniso_two|].
  destruct (decide (cell_list (o_fc2cc r) c = [x])) as [Hs|Hs].
  - right. exists x. split; [|done]. apply HL; [rewrite <- Hlen; by eapply lookup_lt_Some|].
    intros y c' Hxy Hne Hy. eapply C09_lem; try done. intros z.
    by rewrite <- elem_of_cell_list, Hs, elem_of_list_singleton.
  - left. assert (x ∈ cell_list (o_fc2cc r) c) as Hxl by (by apply elem_of_cell_list).
    pose proof (cell_list_nodup (o_fc2cc r) c) as Hnd.
    destruct (cell_list (o_fc2cc r) c) as [|a [|b l]] eqn:El; [by apply elem_of_nil in Hxl| |].
    + apply elem_of_list_singleton in Hxl as ->. done.
    + exists a, b. rewrite <- !elem_of_cell_list, El. apply NoDup_cons in Hnd as [Hnd _].
      split; [intros ->; apply Hnd; left|]. split; [left|right; left].
Qed.

Lemma C61_half_lem (i : input) (o : outs) (r : outs) (e : res ()) :
  good_call i o → ¬ aniso_on i o → in_corr i = true → thresh_one i →
  (∀ x, x < in_n i → ∃ y, in_edge i x y ∧ y ≠ x) → agglomerate_one_level i o = (r, e) →
  ∃ m, (∀ c, c ∈ o_fc2cc r ↔ c < m) ∧ 2 * m ≤ in_n i.
Proof.
  intros GC Hon Hco HT HN He. destruct (C61_count_lem i o r e ∅ GC Hco HT He) as (m & Hm & Hl).
  - intros x Hx Hy. destruct (HN x Hx) as (y & Hxy & Hne). exfalso. apply Hon.
    destruct (ids_of i o r e GC (or_intror HT) He) as (Hlen & _).
    destruct (lookup_lt_is_Some_2 (o_fc2cc r) y) as [c Hc].
    { rewrite Hlen. unfold in_edge, edge in Hxy. destruct Hxy as (? & ? & k & _ & _ & _ & Hk).
      by eapply csr_col; [apply (wf_csr _ (gc_mesh _ _ GC))|]. }
    by destruct (Hy y c Hxy Hne Hc).
  - exists m. split; [done|]. rewrite size_empty in Hl. lia.
Qed.

Lemma C61_few_lem (i : input) (o : outs) (r : outs) (e : res ()) :
  good_call i o → ¬ aniso_on i o → in_corr i = false → agglomerate_one_level i o = (r, e) →
  ∃ m, (∀ c, c ∈ o_fc2cc r ↔ c < m) ∧ (Z.of_nat (in_n i) <= Z.of_nat m * in_max i)%Z.
Proof.
  intros GC Hon Hco He. destruct (ids_of i o r e GC (or_introl Hco) He) as (Hlen & m & Hpos & Hm).
  exists m. split; [done|]. rewrite <- Hlen.
  pose proof (gc_acc _ _ GC) as [_ A1 A2 A3 _ _ _ _].
  assert (length (o_fc2cc r) ≤ m * Z.to_nat (in_max i)); [|nia].
  apply count_most; [intros; by apply Hm|]. intros c X HX.
  assert (Z.of_nat (size X) <= in_max i)%Z; [|lia]. eapply C04_lem; try done. by intros [? _].
Qed.

Lemma other_neighbour i : wf_mesh i → in_connected i → 2 ≤ in_n i → ∀ x, x < in_n i → ∃ y, in_edge i x y ∧ y ≠ x.
Proof.
  intros WM HC Hn x Hx.
  assert (∃ y, y < in_n i ∧ y ≠ x) as (y & Hy & Hne).
  { destruct (decide (x = 0)) as [-> |]; [exists 1|exists 0]; split; lia. }
  destruct (HC x y Hx Hy) as [k Hk]. revert Hne. induction Hk as [y ->|k y z Hw IH He Hz]; [done|].
  intros Hne. destruct (decide (y = x)) as [-> |Hyx]; [by exists z|]. apply IH; [|done].
  unfold in_edge, edge in He. destruct Hw as [? ->|]; [lia|done].
Qed.

Lemma C61_levels_lem (i : input) (o : outs) (cs : list (list nat)) :
  good_call i o → in_connected i → in_aniso i = false → in_corr i = true → thresh_one i →
  weak_order (@wlt A) (λ _, True) →
  ∃ i' o', levels cs i o = Ok (i', o') ∧ 0 < in_n i' ∧
    (in_n i' = 1 ∨ 2 ^ length cs * in_n i' ≤ in_n i) ∧
    (in_n i < 2 * 2 ^ length cs → in_n i' = 1).
Proof.
  intros GC HC Ha Hco HT WO.
  assert (∃ i' o', levels cs i o = Ok (i', o') ∧ 0 < in_n i' ∧
    (in_n i' = 1 ∨ 2 ^ length cs * in_n i' ≤ in_n i)) as (i' & o' & H1 & H2 & H3).
  - revert i o GC HC Ha Hco HT. induction cs as [|compl cs IH]; intros i o GC HC Ha Hco HT.
    + exists i, o. split; [done|]. split; [apply (wf_pos _ (gc_mesh _ _ GC))|]. right. simpl. lia.
    + destruct (next_good i o compl GC HC (or_intror HT) WO) as (r & g & Hr & Hg & Hids & GC' & HC'); [by rewrite Ha|].
      cbn [levels]. rewrite Hr, Hg, bind_ok.
      destruct (IH (next_input i g compl) r GC' HC' Ha Hco HT) as (i' & o' & H1 & H2 & H3).
      exists i', o'. split; [done|]. split; [done|]. destruct H3 as [|H3]; [by left|].
      assert (in_n (next_input i g compl) = length (cg_vol g)) as Hn.
      { by rewrite <- (wf_vol _ (gc_mesh _ _ GC')). }
      destruct (decide (in_n i = 1)) as [H1n|H1n].
      * left. destruct (ids_of i o r (Ok ()) GC (or_intror HT) Hr) as (Hlen & m & Hm & Hcm).
        assert (length (cg_vol g) ≤ 1).
        { rewrite H1n in Hlen. destruct (o_fc2cc r) as [|c0 [|]]; try done.
          destruct (decide (length (cg_vol g) ≤ 1)) as [|Hv]; [done|].
          assert (0 ∈ [c0]) as H0 by (apply Hids; lia). assert (1 ∈ [c0]) as H1' by (apply Hids; lia).
          apply elem_of_list_singleton in H0, H1'. lia. }
        pose proof (Nat.pow_nonzero 2 (length cs)). nia.
      * right. destruct (C61_half_lem i o r (Ok ()) GC) as (m & Hm & Hl); try done.
        { intros [Ha' _]. by rewrite Ha in Ha'. }
        { apply other_neighbour; [apply GC|done|]. pose proof (wf_pos _ (gc_mesh _ _ GC)). lia. }
        assert (length (cg_vol g) ≤ m).
        { destruct (decide (length (cg_vol g) ≤ m)) as [|Hv]; [done|].
          assert (m < m); [|lia]. apply Hm, Hids. lia. }
        simpl length. rewrite Nat.pow_succ_r'. nia.
  - exists i', o'. split; [done|]. split; [done|]. split; [done|]. intros Hn. destruct H3 as [|H3]; [done|].
    pose proof (Nat.pow_nonzero 2 (length cs)). nia.
Qed.
End half.
