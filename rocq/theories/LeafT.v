(** * LeafT: removal of a cell with one neighbour from a subgraph (C31) *)

From Verif Require Import Lib Spec SpecSub GraphP CoarseT Subgraph SubT.

Section rows.
Context {A : Arith}.
Implicit Types rows : list (list (nat * W)).

(** CSR vectors are those of their rows. *)
Lemma rows_of row col (val : list W) n : csr n row col → row !! 0 = Some 0 → length val = length col →
  ∃ rows, length rows = n ∧ row = ptrs rows ∧ col = (concat rows).*1 ∧ val = (concat rows).*2.
Proof.
  intros Hc H0 Hv. pose (rows := entries row col val <$> seq 0 n).
  assert (length rows = n) as Hlr. { unfold rows. by rewrite fmap_length, seq_length. }
  pose proof (csr_len _ _ _ Hc) as Hl.
  assert (∀ k a, k ≤ n → row !! k = Some a → a ≤ length col ∧ concat (take k rows) = take a (zip col val)) as Ht.
  { induction k as [|k IH]; intros a Hk Ha.
    - simplify_eq. split; [lia|done].
    - destruct (entries_length _ _ val _ k Hc Hv) as (a0 & b0 & Ha0 & Hb0 & Hab & Hbl & Hle); [lia|].
      simplify_eq. destruct (IH a0) as [Hal IHe]; [lia|done|]. split; [done|].
      rewrite (take_S_r _ _ (entries row col val k)).
      2:{ unfold rows. rewrite list_lookup_fmap, lookup_seq_lt by lia. done. }
      rewrite concat_app, IHe. simpl. rewrite app_nil_r. unfold entries. rewrite Ha0, Ha.
      rewrite take_take_drop. f_equal. lia. }
  assert (concat rows = zip col val) as Hcat.
  { pose proof (csr_last _ _ _ Hc) as Hla. destruct (Ht n _ ltac:(lia) Hla) as [_ E].
    rewrite take_ge in E by lia. rewrite E. apply take_ge. rewrite zip_with_length. lia. }
  exists rows. split_and!; [done| | |].
  - apply list_eq. intros k. destruct (decide (k ≤ n)) as [Hk|Hk].
    + rewrite ptrs_lookup by lia. destruct (lookup_lt_is_Some_2 row k) as [a Ha]; [lia|]. rewrite Ha. f_equal.
      destruct (Ht k a Hk Ha) as [Hal E]. unfold row_ptr. rewrite E, take_length, zip_with_length. lia.
    + rewrite !lookup_ge_None_2; [done|rewrite ptrs_length; lia|lia].
  - rewrite Hcat. symmetry. apply fst_zip. lia.
  - rewrite Hcat. symmetry. apply snd_zip. lia.
Qed.

Lemma del_mid {B} (l k : list B) x : del_at (l ++ x :: k) (length l) = Ok (l ++ k).
Proof.
  rewrite del_ok by (rewrite app_length; simpl; lia). rewrite take_app. f_equal. f_equal.
  rewrite drop_app_ge by lia. replace (S (length l) - length l) with 1 by lia. done.
Qed.

(** Taking one face away from a row. *)
Section cut.
Context rows (k : nat) (r1 r2 : list (nat * W)) (z : nat * W) (Hr : rows !! k = Some (r1 ++ z :: r2)).
Notation rows' := (<[k := r1 ++ r2]> rows).
Lemma cut_len : length rows' = length rows.
Proof using. apply insert_length. Qed.
Lemma cut_at : rows' !! k = Some (r1 ++ r2).
Proof using Hr. apply list_lookup_insert. by eapply lookup_lt_Some. Qed.
Lemma cut_take : take k rows' = take k rows.
Proof using. by rewrite take_insert. Qed.
Lemma cut_drop : drop (S k) rows' = drop (S k) rows.
Proof using. rewrite drop_insert_gt; [done|lia]. Qed.
Lemma cut_concat {B} (f : nat * W → B) :
  del_at (f <$> concat rows) (row_ptr rows k + length r1) = Ok (f <$> concat rows').
Proof using Hr.
  pose proof (concat_at _ _ _ Hr) as E. pose proof (concat_at _ _ _ cut_at) as E'.
  rewrite cut_take, cut_drop in E'. rewrite E, E'. unfold row_ptr.
  set (P := concat (take k rows)). set (Q := concat (drop (S k) rows)).
  replace (f <$> P ++ (r1 ++ z :: r2) ++ Q) with ((f <$> P ++ r1) ++ f z :: (f <$> r2 ++ Q)).
  2:{ rewrite <- (app_assoc r1), (app_assoc P), (fmap_app f (P ++ r1)). done. }
  replace (f <$> P ++ (r1 ++ r2) ++ Q) with ((f <$> P ++ r1) ++ (f <$> r2 ++ Q)).
  2:{ rewrite <- (app_assoc r1), (app_assoc P), (fmap_app f (P ++ r1)). done. }
  rewrite <- app_length, <- (fmap_length f (P ++ r1)). apply del_mid.
Qed.
Lemma cut_ptr_le a : a ≤ k → row_ptr rows' a = row_ptr rows a.
Proof using. intros Ha. unfold row_ptr. rewrite take_insert by lia. done. Qed.
Lemma cut_ptr_gt a : k < a → row_ptr rows' a = row_ptr rows a - 1.
Proof using Hr.
  intros Ha. apply lookup_lt_Some in Hr as Hlt. unfold row_ptr.
  assert (take a rows !! k = Some (r1 ++ z :: r2)) as Hr1 by (rewrite lookup_take; done).
  rewrite take_insert_lt by done.
  assert (<[k:=r1 ++ r2]> (take a rows) !! k = Some (r1 ++ r2)) as Hr2.
  { apply list_lookup_insert. rewrite take_length. lia. }
  rewrite (concat_at _ _ _ Hr1), (concat_at _ _ _ Hr2). rewrite take_insert, drop_insert_gt by lia.
  rewrite !app_length. simpl. lia.
Qed.
Lemma cut_row : decr_from (S k) (ptrs rows) = ptrs rows'.
Proof using Hr.
  apply lookup_lt_Some in Hr as Hlt.
  apply list_eq. intros a. unfold decr_from. destruct (decide (a ≤ length rows)) as [Ha|Ha].
  - rewrite (ptrs_lookup rows') by (rewrite cut_len; lia). destruct (decide (a ≤ k)).
    + rewrite lookup_app_l by (rewrite take_length, ptrs_length; lia). rewrite lookup_take by lia.
      rewrite ptrs_lookup by lia. by rewrite cut_ptr_le.
    + rewrite lookup_app_r by (rewrite take_length, ptrs_length; lia). rewrite take_length, ptrs_length.
      change (map pred ?l) with (pred <$> l). rewrite list_lookup_fmap, lookup_drop.
      replace (S k + (a - min (S k) (S (length rows)))) with a by lia.
      rewrite ptrs_lookup by lia. simpl. rewrite cut_ptr_gt by lia. f_equal. lia.
  - rewrite !lookup_ge_None_2; [done|rewrite ptrs_length, cut_len; lia|].
    rewrite app_length, map_length, take_length, drop_length, ptrs_length. lia.
Qed.
End cut.

(** ** The scan of the row of the neighbour *)
Lemma scan_skip i e k m pos row col (val : list W) :
  (∀ q, pos ≤ q < pos + k → ∃ c, col !! q = Some c ∧ c ≠ i) →
  rm_scan i e (k + m) pos row col val = rm_scan i e m (pos + k) row col val.
Proof.
  revert pos. induction k as [|k IH]; intros pos Hq; [by rewrite Nat.add_0_r|].
  simpl. destruct (Hq pos) as (c & Hc & Hne); [lia|]. unfold vget. rewrite Hc. simpl.
  rewrite bool_decide_false by done. rewrite IH; [f_equal; lia|]. intros q Hq'. apply Hq. lia.
Qed.
Lemma scan_past i e m pos row col (val : list W) : length col ≤ pos → rm_scan i e (S m) pos row col val = Err EUB.
Proof. intros Hl. simpl. unfold vget. by rewrite lookup_ge_None_2. Qed.

Lemma leaf_scan rows e i u r1 r2 : rows !! e = Some (r1 ++ (i, u) :: r2) →
  (∀ c, c ∈ r1 → c.1 ≠ i) → (∀ c, c ∈ r2 → c.1 ≠ i) →
  (∀ c, c ∈ concat (drop (S e) rows) → c.1 ≠ i) →
  let rows' := <[e := r1 ++ r2]> rows in
  rm_scan i e (length (r1 ++ (i, u) :: r2)) (row_ptr rows e) (ptrs rows) (concat rows).*1 (concat rows).*2 =
  if decide (r2 = [] ∨ concat (drop (S e) rows) ≠ []) then Ok (ptrs rows', (concat rows').*1, (concat rows').*2)
  else Err EUB.
Proof.
  intros Hr H1 H2 H3 rows'. rewrite app_length. simpl. remember (length r2) as m eqn:Hm.
  pose proof (concat_at _ _ _ Hr) as E.
  pose proof (cut_at _ _ _ _ _ Hr) as Hr'. fold rows' in Hr'.
  pose proof (concat_at _ _ _ Hr') as E'. unfold rows' in E'. rewrite cut_take, cut_drop in E'. fold rows' in E'.
  set (P := concat (take e rows)) in *. set (Q := concat (drop (S e) rows)) in *.
  assert (row_ptr rows e = length P) as HP by done.
  rewrite scan_skip.
  2:{ intros q Hq. rewrite HP in Hq. destruct (lookup_lt_is_Some_2 r1 (q - length P)) as [c Hc]; [lia|].
      exists c.1. split; [|apply H1; by eapply elem_of_list_lookup_2].
      rewrite list_lookup_fmap, E, lookup_app_r, <- app_assoc, lookup_app_l by lia. by rewrite Hc. }
  simpl. unfold vget. rewrite list_lookup_fmap.
  assert (concat rows !! (row_ptr rows e + length r1) = Some (i, u)) as ->.
  { rewrite HP, E, lookup_app_r by lia. rewrite <- app_assoc, lookup_app_r by lia.
    replace (length P + length r1 - length P - length r1) with 0 by lia. done. }
  simpl. rewrite bool_decide_true by done.
  rewrite !(cut_concat _ _ _ _ _ Hr). simpl. rewrite (cut_row _ _ _ _ _ Hr). fold rows'.
  destruct r2 as [|c2 r2].
  { subst m. rewrite decide_True by auto. done. }
  simpl in Hm. subst m.
  assert (∀ q, S (row_ptr rows e + length r1) ≤ q < S (row_ptr rows e + length r1) + length r2 →
    ∃ c, (concat rows').*1 !! q = Some c ∧ c ≠ i) as Hskip.
  { intros q Hq. rewrite HP in Hq. destruct (lookup_lt_is_Some_2 r2 (q - S (length P + length r1))) as [c Hc]; [lia|].
    exists c.1. split; [|apply H2; right; by eapply elem_of_list_lookup_2].
    rewrite list_lookup_fmap, E', lookup_app_r by lia. rewrite <- app_assoc, lookup_app_r by lia. simpl.
    rewrite lookup_cons_ne_0 by lia. rewrite lookup_app_l by lia.
    replace (pred (q - length P - length r1)) with (q - S (length P + length r1)) by lia. by rewrite Hc. }
  destruct Q as [|c3 Q'] eqn:HQ.
  - rewrite decide_False by naive_solver.
    replace (S (length r2)) with (length r2 + 1) by lia.
    rewrite scan_skip by done. apply scan_past. rewrite fmap_length, E', !app_length. simpl. lia.
  - rewrite decide_True by (right; done).
    replace (S (length r2)) with (S (length r2) + 0) by lia. rewrite scan_skip; [done|].
    intros q Hq. destruct (decide (q < S (row_ptr rows e + length r1) + length r2)); [apply Hskip; lia|].
    assert (q = length P + length r1 + S (length r2)) as -> by lia.
    exists c3.1. split; [|apply H3; left]. rewrite list_lookup_fmap, E'.
    rewrite lookup_app_r by lia. rewrite lookup_app_r by (rewrite app_length; simpl; lia).
    rewrite app_length. simpl. replace (_ + _ - _ - _) with 0 by lia. done.
Qed.
End rows.

Section leaf.
Context {A : Arith} (g : graph) (WF : wfg g).
Notation sub_induced := (sub_induced g).
Notation gents := (entries (g_row g) (g_col g) (g_val g)).

(** The last part of the removal, once no face of the cell is left. *)
Lemma finish s row col val vol mp i x a cpt card : NoDup mp → (∀ z, z ∈ mp ↔ z ∈ s) → row !! 0 = Some 0 →
  csr (length mp) row col → length val = length col → length vol = length mp →
  (∀ k z, mp !! k = Some z → vol !! k = g_vol g !! z) → mp !! i = Some x →
  row !! i = Some a → row !! S i = Some a → (∀ k c, col !! k = Some c → c ≠ i) →
  (∀ k z, k ≠ i → mp !! k = Some z →
    (prod_map (λ j, mp !! j) id <$> entries row col val k) ≡ₚ
    (prod_map Some id <$> filter (λ e, e.1 ∈ s ∖ {[x]}) (gents z))) →
  wp (vol' ← del_at vol i;
      row' ← del_at row i;
      mp' ← del_at mp i;
      col' ← foldM (λ acc c,
          if bool_decide (c < length row' + 1) then
            _ ← massert (negb (bool_decide (c = i)));
            Ok (acc ++ [if bool_decide (i < c) then c - 1 else c])
          else Err EUB) col [];
      Ok (SubG row' col' val vol' mp' cpt card)) (sub_induced (s ∖ {[x]})).
Proof using.
  clear WF. intros Hnd I2 I0 Hc I4 I6 I7 Hi Ha Hb Hci I5.
  pose proof (csr_len _ _ _ Hc) as Hl. pose proof (csr_last _ _ _ Hc) as Hla.
  set (n := length mp) in *. apply lookup_lt_Some in Hi as Hin. fold n in Hin.
  rewrite !del_ok by (fold n; lia). simpl.
  set (row' := take i row ++ drop (S i) row).
  set (mp' := take i mp ++ drop (S i) mp).
  assert (length row' = n) as Hlr'. { unfold row'. rewrite length_del; lia. }
  assert (length mp' = n - 1) as Hlm'. { unfold mp'. rewrite length_del; [done|]. by fold n. }
  pose (f := λ c, if bool_decide (i < c) then c - 1 else c).
  wstep. eapply wp_mono; [apply (wp_foldM _ (λ pre acc, acc = f <$> pre)); [done|]|].
  { intros pre c post acc Heq ->.
    assert (∃ k, col !! k = Some c) as [k Hk].
    { exists (length pre). rewrite Heq. by apply list_lookup_middle. }
    rewrite bool_decide_true by (apply (csr_col _ _ _ Hc) in Hk; lia).
    rewrite (bool_decide_false (c = i)) by by eapply Hci. simpl. by rewrite fmap_app. }
  intros col' ->. apply wp_ok.
  assert (∀ k, row' !! k = row !! (if decide (k < i) then k else S k)) as Hr' by apply lookup_del.
  assert (∀ k, mp' !! k = mp !! (if decide (k < i) then k else S k)) as Hm' by apply lookup_del.
  assert (∀ k, mp' !! f k = if decide (k = i) then mp' !! i else mp !! k) as Hmf.
  { intros k. unfold f. rewrite Hm'. case_bool_decide; repeat case_decide; try lia; try done.
    - f_equal. lia.
    - subst. by rewrite Hm', decide_False by lia. }
  assert (∀ k, k < n - 1 → row' !! k = row !! (if decide (k < i) then k else S k) ∧
    row' !! S k = row !! S (if decide (k < i) then k else S k)) as Hrr.
  { intros k Hk. split; [done|]. rewrite Hr'. repeat case_decide; try lia; try done.
    assert (S k = i) as -> by lia. congruence. }
  split; simpl.
  - assert (mp ≡ₚ x :: mp') as Hp.
    { rewrite <- (take_drop_middle _ _ _ Hi) at 1. symmetry. apply Permutation_middle. }
    rewrite Hp in Hnd. by apply NoDup_cons in Hnd as [_ ?].
  - intros z. fold mp'. rewrite elem_of_difference, not_elem_of_singleton, <- I2. split.
    + intros [k Hk]%elem_of_list_lookup. rewrite Hm' in Hk. split; [by eapply elem_of_list_lookup_2|].
      intros ->. pose proof (NoDup_lookup _ _ _ _ Hnd Hk Hi). case_decide; lia.
    + intros [[k Hk]%elem_of_list_lookup Hne]. apply elem_of_list_lookup. exists (f k). rewrite Hmf.
      case_decide; [|done]. congruence.
  - fold row'. rewrite Hr'. case_decide; [done|]. assert (i = 0) as -> by lia. congruence.
  - fold row' mp'. rewrite Hlm'. split.
    + rewrite Hlr'. lia.
    + intros k a' b' Ha' Hb'. apply lookup_lt_Some in Hb' as Hk.
      destruct (Hrr k) as [E1 E2]; [lia|]. rewrite E1 in Ha'. rewrite E2 in Hb'. by eapply (csr_mono _ _ _ Hc).
    + rewrite Hr', fmap_length. case_decide; [lia|]. by replace (S (n - 1)) with n by lia.
    + intros k j Hk. rewrite list_lookup_fmap in Hk. destruct (col !! k) as [c|] eqn:Hck; [|done].
      simpl in Hk. injection Hk as <-. pose proof (csr_col _ _ _ Hc _ _ Hck) as Hcn. apply Hci in Hck. unfold f.
      case_bool_decide; lia.
  - by rewrite fmap_length.
  - fold row' mp'. intros k z Hk. apply lookup_lt_Some in Hk as Hkn. rewrite Hlm' in Hkn.
    rewrite Hm' in Hk.
    assert ((if decide (k < i) then k else S k) ≠ i) as Hki by (case_decide; lia).
    set (k' := if decide (k < i) then k else S k) in *.
    assert (entries row' (f <$> col) val k = prod_map f id <$> entries row col val k') as ->.
    { unfold entries. destruct (Hrr k Hkn) as [-> ->]. fold k'. destruct (row !! k'); [|done].
      destruct (row !! S k'); [|done]. rewrite fmap_take, fmap_drop. do 2 f_equal.
      apply list_eq. intros q. rewrite list_lookup_fmap, !lookup_zip_with, list_lookup_fmap.
      destruct (col !! q); simpl; [|done]. by destruct (val !! q). }
    rewrite <- list_fmap_compose.
    assert (prod_map (λ j, mp' !! j) id ∘ prod_map f id <$> entries row col val k' =
      prod_map (λ j, mp !! j) id <$> entries row col val k') as ->.
    { apply list_fmap_ext. intros q [j u] Hq. simpl. unfold prod_map. simpl. f_equal. rewrite Hmf.
      apply elem_of_list_lookup_2, elem_entries in Hq as (p & ? & ? & _ & _ & _ & Hp & _). apply Hci in Hp. by rewrite decide_False. }
    by apply I5.
  - fold mp'. rewrite Hlm'. rewrite length_del; fold n in I6; lia.
  - fold mp'. intros k z Hk. rewrite Hm' in Hk. rewrite lookup_del. by apply I7.
Qed.

Lemma NoDup_filter_fst (P : nat * W → Prop) `{∀ x, Decision (P x)} (l : list (nat * W)) :
  NoDup l.*1 → NoDup (filter P l).*1.
Proof using.
  induction l as [|c l IH]; [done|]. simpl. intros [Hn Hd]%NoDup_cons. rewrite filter_cons.
  case_decide; [|auto]. simpl. constructor; [|auto]. intros (c' & Hc' & [_ Hin]%elem_of_list_filter)%elem_of_list_fmap.
  apply Hn. rewrite Hc'. by apply elem_of_list_fmap_1.
Qed.

Lemma filter_same (P : nat * W → Prop) `{∀ x, Decision (P x)} (l : list (nat * W)) :
  (∀ c, c ∈ l → P c) → filter P l = l.
Proof using.
  induction l as [|c l IH]; [done|]. intros Hl. rewrite filter_cons_True by (apply Hl; left). f_equal.
  apply IH. intros c' Hc'. apply Hl. by right.
Qed.

Lemma remove_leaf s sg x y i e : simple_csr (g_row g) (g_col g) → sub_induced s sg → x ∈ s → y ∈ s →
  edge (g_row g) (g_col g) x y → (∀ z, z ∈ s → edge (g_row g) (g_col g) x z → z = y) →
  sg_map sg !! i = Some x → sg_map sg !! e = Some y →
  if decide (last (nb_list (sg_row sg) (sg_col sg) e) = Some i ∨
             drop (default 0 (sg_row sg !! S e)) (sg_col sg) ≠ [])
  then wp (remove_node sg x) (sub_induced (s ∖ {[x]}))
  else remove_node sg x = Err EUB.
Proof using WF.
  intros Hsi HI Hx Hy Hxy Huniq Hi He.
  pose proof (ind_nd _ _ _ _ _ _ _ _ _ _ HI) as Hnd.
  pose proof (ind_csr _ _ _ _ _ _ _ _ _ _ HI) as Hc.
  destruct HI as [_ I2 I0 _ I4 I5 I6 I7].
  destruct sg as [row col val vol mp cpt card]. cbn [sg_row sg_col sg_val sg_vol sg_map] in *.
  destruct (rows_of _ _ _ _ Hc I0 I4) as (rows & Hlr & -> & -> & ->).
  assert (x ≠ y) as Hne. { intros ->. by destruct (Hsi y) as [_ ?]. }
  assert (i ≠ e) as Hie by congruence.
  apply lookup_lt_Some in Hi as Hil. apply lookup_lt_Some in He as Hel.
  assert (∀ k z r, mp !! k = Some z → rows !! k = Some r →
    (prod_map (λ j, mp !! j) id <$> r) ≡ₚ (prod_map Some id <$> filter (λ e, e.1 ∈ s) (gents z))) as Hrow.
  { intros k z r Hk Hr. rewrite <- (I5 _ _ Hk). by rewrite (entries_rows _ _ _ Hr). }
  assert (∀ z u, (x, u) ∈ gents z → z ∈ s → z = y) as Hnox.
  { intros z u Hin Hz. rewrite entries_adj in Hin. apply elem_of_zip_l in Hin. apply (adj_sym g WF), elem_of_adj in Hin.
    by apply Huniq. }
  assert (∀ z, NoDup (gents z).*1) as Hndg.
  { intros z. rewrite entries_adj. rewrite fst_zip.
    - apply Hsi.
    - by rewrite (adjw_length g WF). }
  assert (∀ k r j u, rows !! k = Some r → (j, u) ∈ r → ∃ z w, mp !! k = Some z ∧ mp !! j = Some w ∧ (w, u) ∈ gents z ∧ w ∈ s) as Hent.
  { intros k r j u Hr Hin. apply lookup_lt_Some in Hr as Hkl. rewrite Hlr in Hkl.
    destruct (lookup_lt_is_Some_2 _ _ Hkl) as [z Hz].
    assert ((mp !! j, u) ∈ prod_map (λ j, mp !! j) id <$> r) as Hin'.
    { apply elem_of_list_fmap. by exists (j, u). }
    rewrite (Hrow _ _ _ Hz Hr) in Hin'. apply elem_of_list_fmap in Hin' as ([w u'] & Heq & [Hw Hin']%elem_of_list_filter).
    unfold prod_map in Heq. simpl in Heq. injection Heq as Hj ->. exists z, w. done. }
  destruct (lookup_lt_is_Some_2 rows i) as [ri Hri]; [lia|].
  destruct (lookup_lt_is_Some_2 rows e) as [re Hre]; [lia|].
  assert (∀ k r, rows !! k = Some r → NoDup r.*1) as Hndr.
  { intros k r Hr. apply lookup_lt_Some in Hr as Hkl. rewrite Hlr in Hkl.
    destruct (lookup_lt_is_Some_2 _ _ Hkl) as [z Hz]. pose proof (Hrow _ _ _ Hz Hr) as Hp.
    apply (fmap_Permutation fst) in Hp. rewrite <- !list_fmap_compose in Hp.
    assert (NoDup ((fst ∘ prod_map (λ j, mp !! j) id) <$> r)) as Hn1.
    { rewrite Hp. change (NoDup ((Some ∘ fst) <$> filter (λ e0 : nat * W, e0.1 ∈ s) (gents z))).
      rewrite list_fmap_compose. apply NoDup_fmap_2; [apply _|].
      apply NoDup_filter_fst, Hndg. }
    change (NoDup (((λ j, mp !! j) ∘ fst) <$> r)) in Hn1. rewrite list_fmap_compose in Hn1.
    by apply NoDup_fmap_1 in Hn1. }
  assert (∃ v, ri = [(e, v)]) as [v ->].
  { assert (∀ j u, (j, u) ∈ ri → j = e) as Hall.
    { intros j u Hin. destruct (Hent _ _ _ _ Hri Hin) as (z & w & Hz & Hw & Hwe & Hws). simplify_eq.
      assert (w = y) as ->. { apply Huniq; [done|]. rewrite entries_adj in Hwe. by apply elem_of_zip_l, elem_of_adj in Hwe. }
      by eapply NoDup_lookup. }
    assert (ri ≠ []) as Hnn.
    { intros ->. apply elem_of_adj in Hxy. rewrite <- (fst_zip _ (adjw g x)) in Hxy by by rewrite (adjw_length g WF).
      rewrite <- entries_adj in Hxy. apply elem_of_list_fmap in Hxy as ([y' u] & Hy' & Hin). simpl in Hy'. subst y'.
      pose proof (Hrow _ _ _ Hi Hri) as Hp. simpl in Hp. symmetry in Hp. apply Permutation_nil_r, fmap_nil_inv in Hp.
      assert ((y, u) ∈ filter (λ e0 : nat * W, e0.1 ∈ s) (gents x)) as Hf by by apply elem_of_list_filter.
      rewrite Hp in Hf. by apply elem_of_nil in Hf. }
    destruct ri as [|[j1 u1] [|[j2 u2] ri]]; [done| |].
    - exists u1. by rewrite (Hall j1 u1) by left.
    - exfalso. pose proof (Hndr _ _ Hri) as Hn. simpl in Hn. apply NoDup_cons in Hn as [Hn _]. apply Hn.
      rewrite (Hall j1 u1), (Hall j2 u2) by set_solver. left. }
  assert (∃ u r1 r2, re = r1 ++ (i, u) :: r2) as (u & r1 & r2 & ->).
  { apply elem_of_adj, (adj_sym g WF) in Hxy. rewrite <- (fst_zip _ (adjw g y)) in Hxy by by rewrite (adjw_length g WF).
    rewrite <- entries_adj in Hxy. apply elem_of_list_fmap in Hxy as ([x' u] & Hx' & Hin). simpl in Hx'. subst x'.
    assert ((Some x, u) ∈ prod_map (λ j, mp !! j) id <$> re) as Hin'.
    { rewrite (Hrow _ _ _ He Hre). apply elem_of_list_fmap. exists (x, u). split; [done|]. by apply elem_of_list_filter. }
    apply elem_of_list_fmap in Hin' as ([j u'] & Heq & Hin'). unfold prod_map in Heq. simpl in Heq. injection Heq as Hj ->.
    symmetry in Hj. rewrite (NoDup_lookup _ _ _ _ Hnd Hj Hi) in Hin'.
    apply elem_of_list_split in Hin' as (r1 & r2 & ->). by eauto. }
  pose proof (Hndr _ _ Hre) as Hn. rewrite fmap_app in Hn. simpl in Hn.
  apply NoDup_app in Hn as (Hn1 & Hn2 & Hn3%NoDup_cons). destruct Hn3 as [Hn3 Hn4].
  assert (∀ c, c ∈ r1 → c.1 ≠ i) as H1.
  { intros c Hc1 Hci. apply (Hn2 c.1); [by apply elem_of_list_fmap_1|]. rewrite Hci. left. }
  assert (∀ c, c ∈ r2 → c.1 ≠ i) as H2.
  { intros c Hc1 Hci. apply Hn3. rewrite <- Hci. by apply elem_of_list_fmap_1. }
  assert (∀ k r w, k ≠ e → rows !! k = Some r → (i, w) ∉ r) as Hk3.
  { intros k r w Hke Hr Hin. destruct (Hent _ _ _ _ Hr Hin) as (z & x' & Hz & Hx' & Hg & _). simplify_eq.
    apply Hnox in Hg as ->; [by apply Hke, (NoDup_lookup _ _ _ _ Hnd Hz He)|]. apply I2. by eapply elem_of_list_lookup_2. }
  assert (∀ c, c ∈ concat (drop (S e) rows) → c.1 ≠ i) as H3.
  { intros [c w] Hin Heq. simpl in Heq. subst c.
    apply elem_of_list_In, in_concat in Hin as (r & Hr%elem_of_list_In & Hin%elem_of_list_In).
    apply elem_of_list_lookup in Hr as [k Hk]. rewrite lookup_drop in Hk. eapply (Hk3 (S e + k)); [lia|done|done]. }
  assert (last (nb_list (ptrs rows) (concat rows).*1 e) = Some i ∨
          drop (default 0 (ptrs rows !! S e)) (concat rows).*1 ≠ [] ↔ r2 = [] ∨ concat (drop (S e) rows) ≠ []) as Hiff.
  { rewrite ptrs_lookup by lia. simpl.
    assert (drop (row_ptr rows (S e)) (concat rows).*1 = (concat (drop (S e) rows)).*1) as ->.
    { rewrite <- fmap_drop. f_equal. rewrite (row_ptr_S _ _ _ Hre), (concat_at _ _ _ Hre). unfold row_ptr.
      rewrite drop_app_ge by lia. replace (_ + _ - _) with (length (r1 ++ (i, u) :: r2)) by lia. by rewrite drop_app. }
    assert (nb_list (ptrs rows) (concat rows).*1 e = (r1 ++ (i, u) :: r2).*1) as ->.
    { unfold nb_list. rewrite !ptrs_lookup by lia. rewrite (row_ptr_S _ _ _ Hre), (concat_at _ _ _ Hre).
      unfold row_ptr. rewrite !fmap_app. rewrite drop_app_alt by by rewrite fmap_length.
      rewrite <- (fmap_app fst). apply take_app_alt. rewrite fmap_length. lia. }
    rewrite fmap_app, fmap_cons, last_app_cons. cbn [fst].
    assert (concat (drop (S e) rows) ≠ [] ↔ (concat (drop (S e) rows)).*1 ≠ []) as <-.
    { by destruct (concat (drop (S e) rows)). }
    destruct r2 as [|c2 r2]; [split; intros _; by left|].
    split; [|intros [?|?]; [done|by right]]. intros [Hla|?]; [|by right]. exfalso.
    rewrite fmap_cons, last_cons_cons, <- fmap_cons in Hla. apply Hn3. by apply last_Some_elem_of in Hla. }
  set (rows1 := <[e := r1 ++ r2]> rows).
  pose proof (leaf_scan _ _ _ _ _ _ Hre H1 H2 H3) as Hscan. cbv zeta in Hscan. fold rows1 in Hscan.
  assert (rows1 !! i = Some [(e, v)]) as Hri1 by by (unfold rows1; rewrite list_lookup_insert_ne by done).
  assert (length rows1 = length rows) as Hl1 by apply insert_length.
  assert (remove_node (SubG (ptrs rows) (concat rows).*1 (concat rows).*2 vol mp cpt card) x =
    r ← (if decide (r2 = [] ∨ concat (drop (S e) rows) ≠ []) then Ok (ptrs rows1, (concat rows1).*1, (concat rows1).*2) else Err EUB);
    let '(row, col, val) := r in
    a ← vget row i;
    b ← vget row (S i);
    r ← (if bool_decide (a ≤ b) then rm_own i (b - a) a row col val else Err EUB);
    let '(row, col, val) := r in
    vol ← del_at vol i;
    row ← del_at row i;
    mp ← del_at mp i;
    col ← foldM (λ acc c,
          if bool_decide (c < length row + 1) then
            _ ← massert (negb (bool_decide (c = i)));
            Ok (acc ++ [if bool_decide (i < c) then c - 1 else c])
          else Err EUB) col [];
    Ok (SubG row col val vol mp cpt card)) as Hrem.
  { rewrite <- Hscan. unfold remove_node. cbn [sg_row sg_col sg_val sg_vol sg_map sg_cpt sg_card].
    rewrite (index_of_at _ _ _ Hnd Hi). change (default _ (Some i)) with i.
    rewrite (vget_ok (ptrs rows) i (row_ptr rows i)) by (apply ptrs_lookup; lia). rewrite bind_ok.
    rewrite (vget_ok (ptrs rows) (S i) (row_ptr rows (S i))) by (apply ptrs_lookup; lia). rewrite bind_ok.
    assert (vrange (concat rows).*1 (row_ptr rows i) (row_ptr rows (S i)) = Ok [e]) as ->.
    { pose proof (row_ptr_S _ _ _ Hri) as Hs. simpl in Hs.
      unfold vrange. rewrite Hs. rewrite decide_True.
      2:{ split; [lia|]. rewrite fmap_length, (concat_at _ _ _ Hri), !app_length. unfold row_ptr. simpl. lia. }
      f_equal. unfold slice. rewrite (concat_at _ _ _ Hri). unfold row_ptr. rewrite !fmap_app.
      rewrite drop_app_alt by by rewrite fmap_length. replace (_ + _ - _) with 1 by lia. done. }
    rewrite bind_ok. cbn [foldM].
    rewrite (vget_ok (ptrs rows) e (row_ptr rows e)) by (apply ptrs_lookup; lia). rewrite bind_ok.
    rewrite (vget_ok (ptrs rows) (S e) (row_ptr rows (S e))) by (apply ptrs_lookup; lia). rewrite bind_ok.
    pose proof (row_ptr_S _ _ _ Hre) as Hs. rewrite bool_decide_true by lia.
    replace (row_ptr rows (S e) - row_ptr rows e) with (length (r1 ++ (i, u) :: r2)) by lia.
    by destruct (rm_scan _ _ _ _ _ _ _) as [[[??]?]|]. }
  rewrite Hrem. clear Hrem Hscan.
  destruct (decide (last (nb_list _ _ _) = _ ∨ _)) as [Hd|Hd]; rewrite Hiff in Hd;
    [rewrite (decide_True _ _ Hd)|by rewrite (decide_False _ _ Hd)].
  rewrite bind_ok.
  rewrite (vget_ok (ptrs rows1) i (row_ptr rows1 i)) by (apply ptrs_lookup; lia). rewrite bind_ok.
  rewrite (vget_ok (ptrs rows1) (S i) (row_ptr rows1 (S i))) by (apply ptrs_lookup; lia). rewrite bind_ok.
  rewrite (row_ptr_S _ _ _ Hri1). rewrite bool_decide_true by (simpl; lia).
  replace (row_ptr rows1 i + length [(e, v)] - row_ptr rows1 i) with 1 by (simpl; lia).
  cbn [rm_own].
  change [(e, v)] with ([] ++ (e, v) :: []) in Hri1.
  pose proof (λ B, @cut_concat _ _ _ _ _ _ Hri1 B) as Hcut. cbn [length] in Hcut. rewrite Nat.add_0_r in Hcut.
  rewrite !Hcut, !bind_ok, (cut_row _ _ _ _ _ Hri1).
  set (rows2 := <[i := [] ++ []]> rows1).
  assert (length rows2 = length mp) as Hl2. { unfold rows2. rewrite insert_length. lia. }
  assert (rows2 !! i = Some []) as Hri2. { apply list_lookup_insert. lia. }
  assert (rows2 !! e = Some (r1 ++ r2)) as Hre2.
  { unfold rows2. rewrite list_lookup_insert_ne by done. apply list_lookup_insert. lia. }
  assert (∀ k, k ≠ i → k ≠ e → rows2 !! k = rows !! k) as Hrk2.
  { intros k Hk1 Hk2. unfold rows2, rows1. by rewrite !list_lookup_insert_ne. }
  assert (∀ k r c, rows2 !! k = Some r → c ∈ r → c.1 ≠ i ∧ ∃ r0, rows !! k = Some r0 ∧ c ∈ r0) as Hsub.
  { intros k r c Hr Hcr. destruct (decide (k = i)) as [->|Hki].
    { rewrite Hri2 in Hr. injection Hr as <-. by apply elem_of_nil in Hcr. }
    destruct (decide (k = e)) as [->|Hke].
    - rewrite Hre2 in Hr. injection Hr as <-. split.
      + apply elem_of_app in Hcr as [?|?]; auto.
      + eexists. split; [done|]. apply elem_of_app in Hcr as [?|?]; apply elem_of_app; [by left|right; by right].
    - rewrite Hrk2 in Hr by done. split; [|by eauto]. intros Hci. destruct c as [c w]. simpl in Hci. subst c.
      by eapply Hk3. }
  apply (finish s _ _ _ _ _ _ _ (row_ptr rows2 i)); [done|done|by rewrite ptrs_lookup by lia| |by rewrite !fmap_length|done|done|done| | | |].
  - rewrite <- Hl2. apply csr_rows. intros k r c Hr Hcr. destruct (Hsub _ _ _ Hr Hcr) as (_ & r0 & Hr0 & Hc0).
    destruct c as [j w]. destruct (Hent _ _ _ _ Hr0 Hc0) as (_ & w' & _ & Hj & _). simpl. rewrite Hl2. by eapply lookup_lt_Some.
  - apply ptrs_lookup. lia.
  - rewrite ptrs_lookup by lia. rewrite (row_ptr_S _ _ _ Hri2). simpl. f_equal. lia.
  - intros k c Hk. apply elem_of_list_lookup_2, elem_of_list_fmap in Hk as (c' & -> & Hin).
    apply elem_of_list_In, in_concat in Hin as (r & Hr%elem_of_list_In & Hin%elem_of_list_In).
    apply elem_of_list_lookup in Hr as [q Hq]. by destruct (Hsub _ _ _ Hq Hin).
  - intros k z Hk Hz. apply lookup_lt_Some in Hz as Hkl.
    destruct (lookup_lt_is_Some_2 rows2 k) as [r Hr]; [lia|]. rewrite (entries_rows _ _ _ Hr).
    destruct (decide (k = e)) as [->|Hke].
    + rewrite Hre2 in Hr. injection Hr as <-. simplify_eq. pose proof (Hrow _ _ _ He Hre) as Hp.
      rewrite <- Permutation_middle in Hp. rewrite fmap_cons in Hp. unfold prod_map at 1 in Hp. simpl in Hp. rewrite Hi in Hp.
      assert (∃ l1 l2, filter (λ e0 : nat * W, e0.1 ∈ s) (gents y) = l1 ++ (x, u) :: l2) as (l1 & l2 & Hl).
      { apply elem_of_list_split. assert ((Some x, u) ∈ prod_map Some id <$> filter (λ e0 : nat * W, e0.1 ∈ s) (gents y)) as Hin.
        { rewrite <- Hp. left. }
        apply elem_of_list_fmap in Hin as ([x' u'] & Heq & Hin). unfold prod_map in Heq. simpl in Heq. by simplify_eq. }
      assert (filter (λ e0 : nat * W, e0.1 ∈ s ∖ {[x]}) (gents y) = l1 ++ l2) as ->.
      { transitivity (filter (λ e0 : nat * W, e0.1 ≠ x) (filter (λ e0 : nat * W, e0.1 ∈ s) (gents y))).
        - rewrite list_filter_filter. apply list_filter_iff. intros c. clear. set_solver.
        - assert (NoDup (filter (λ e0 : nat * W, e0.1 ∈ s) (gents y)).*1) as Hnf by apply NoDup_filter_fst, Hndg.
          rewrite Hl in *. rewrite fmap_app, fmap_cons in Hnf. apply NoDup_app in Hnf as (_ & Hf1 & [Hf2 _]%NoDup_cons).
          rewrite filter_app, filter_cons_False by (simpl; tauto). f_equal; apply filter_same.
          + intros c Hq Hcx. apply (Hf1 c.1); [by apply elem_of_list_fmap_1|].
            rewrite Hcx. left.
          + intros c Hq Hcx. apply Hf2. simpl. rewrite <- Hcx. by apply elem_of_list_fmap_1. }
      rewrite Hl, <- Permutation_middle, fmap_cons in Hp. unfold prod_map at 2 in Hp. simpl in Hp.
      by apply Permutation_cons_inv in Hp.
    + rewrite Hrk2 in Hr by done. rewrite (Hrow _ _ _ Hz Hr). match goal with |- ?a ≡ₚ ?b => assert (a = b) as ->; [|done] end. f_equal.
      apply filter_ext_in. intros [q w] Hq. simpl. rewrite elem_of_difference, not_elem_of_singleton. split; [|tauto].
      intros Hqs. split; [done|]. intros ->. apply Hke. apply Hnox in Hq as ->; [by apply (NoDup_lookup _ _ _ _ Hnd Hz He)|].
      apply I2. by eapply elem_of_list_lookup_2.
Qed.
End leaf.

Section thms.
Context {A : Arith}.
Implicit Types (g : graph) (sg : subg).

Lemma C31_leaf g s sg x y i e : csr (g_n g) (g_row g) (g_col g) → csr_sym (g_row g) (g_col g) →
  length (g_val g) = length (g_col g) → simple_csr (g_row g) (g_col g) →
  induced (g_row g) (g_col g) (g_val g) (g_vol g) s
    (sg_row sg) (sg_col sg) (sg_val sg) (sg_vol sg) (sg_map sg) →
  x ∈ s → y ∈ s → edge (g_row g) (g_col g) x y →
  (∀ z, z ∈ s → edge (g_row g) (g_col g) x z → z = y) →
  sg_map sg !! i = Some x → sg_map sg !! e = Some y →
  let safe := last (nb_list (sg_row sg) (sg_col sg) e) = Some i ∨
    ∃ k j, e < k ∧ edge (sg_row sg) (sg_col sg) k j in
  (safe → ∃ sg', remove_node sg x = Ok sg' ∧
    induced (g_row g) (g_col g) (g_val g) (g_vol g) (s ∖ {[x]})
      (sg_row sg') (sg_col sg') (sg_val sg') (sg_vol sg') (sg_map sg')) ∧
  (¬ safe → remove_node sg x = Err EUB).
Proof.
  intros Hc Hs Hv Hsi HI Hx Hy Hxy Hu Hi He safe.
  pose proof (remove_leaf g (Build_wfg _ Hc Hs Hv) s sg x y i e Hsi HI Hx Hy Hxy Hu Hi He) as Hm.
  assert (safe ↔ last (nb_list (sg_row sg) (sg_col sg) e) = Some i ∨
             drop (default 0 (sg_row sg !! S e)) (sg_col sg) ≠ []) as Hiff.
  { unfold safe. apply or_iff_compat_l.
    pose proof (ind_csr _ _ _ _ _ _ _ _ _ _ HI) as Hcs. apply lookup_lt_Some in He as Hel.
    destruct (entries_length _ _ _ _ e Hcs (ind_val _ _ _ _ _ _ _ _ _ _ HI) Hel) as (a & b & Ha & Hb & Hab & Hbl & _).
    rewrite Hb. simpl.
    assert (∀ d p q a' b', p + d = q → q ≤ length (sg_map sg) → sg_row sg !! p = Some a' → sg_row sg !! q = Some b' → a' ≤ b') as Hmono.
    { induction d as [|d IH]; intros p q a' b' Hpq Hq Ha' Hb'; [rewrite Nat.add_0_r in Hpq; simplify_eq; lia|].
      destruct (lookup_lt_is_Some_2 (sg_row sg) (S p)) as [c' Hc']; [rewrite (csr_len _ _ _ Hcs); lia|].
      pose proof (csr_mono _ _ _ Hcs _ _ _ Ha' Hc'). specialize (IH (S p) q c' b' ltac:(lia) Hq Hc' Hb'). lia. }
    split.
    - intros (k & j & Hek & a' & b' & q & Ha' & Hb' & Hq & Hj) Hd.
      assert (b ≤ a') as Hba.
      { apply (Hmono (k - S e) (S e) k); [lia| |done|done]. apply lookup_lt_Some in Hb'. rewrite (csr_len _ _ _ Hcs) in Hb'. lia. }
      apply lookup_lt_Some in Hj. apply (f_equal length) in Hd. rewrite drop_length in Hd. simpl in Hd. lia.
    - intros Hd. assert (b < length (sg_col sg)) as Hlt.
      { destruct (decide (b < length (sg_col sg))); [done|]. destruct Hd. apply drop_ge. lia. }
      destruct (csr_cover _ _ _ _ Hcs (ind_first _ _ _ _ _ _ _ _ _ _ HI) Hlt) as (r & a' & b' & Hr & Ha' & Hb' & Hq).
      destruct (lookup_lt_is_Some_2 (sg_col sg) b Hlt) as [j Hj].
      exists r, j. split; [|by exists a', b', b].
      destruct (decide (e < r)); [done|]. exfalso.
      pose proof (Hmono (S e - S r) (S r) (S e) b' b ltac:(lia) ltac:(lia) Hb' Hb). lia. }
  split.
  - intros Hsafe%Hiff. rewrite decide_True in Hm by done. by apply wp_eq.
  - intros Hns. rewrite decide_False in Hm; [done|]. by rewrite <- Hiff.
Qed.
End thms.
