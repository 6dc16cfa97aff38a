(** * DepU: proofs about the deprecated tree *)

From Verif Require Import Lib Deprec SpecDep DepT.

Section tree.
Context {W : Type}.
Implicit Types (h : gmap nat (tnode W)) (t : tree W) (s : shape W).

(** The nodes of [l] linked through their right pointers. *)
Definition linked h (l : list nat) : Prop :=
  ∀ k x, l !! k = Some x → ∃ n, h !! x = Some n ∧ tn_right n = l !! S k ∧ is_Some (tn_father n).

Lemma brothers_linked h f l : brothers h f l → linked h l.
Proof.
  intros [_ Hl] k x Hk. destruct (Hl _ _ Hk) as (n & Hn & Hf & _ & Hr).
  exists n. split_and!; [done|done|]. by rewrite Hf.
Qed.

Lemma transverse_linked h l fuel k :
  linked h l → k < length l → length l - k ≤ fuel →
  tr_transverse fuel h (l !! k) = Ok (last l).
Proof.
  intros Hl. revert k. induction fuel as [|fuel IH]; intros k Hk Hf; [lia|].
  destruct (lookup_lt_is_Some_2 _ _ Hk) as [x Hx]. rewrite Hx. simpl.
  destruct (Hl _ _ Hx) as (n & Hn & Hr & _). rewrite Hn. simpl. rewrite Hr.
  destruct (l !! S k) as [y|] eqn:Hy.
  - rewrite <- Hy. apply lookup_lt_Some in Hy. apply IH; lia.
  - rewrite last_lookup. apply lookup_ge_None in Hy.
    replace (pred (length l)) with k by lia. by rewrite Hx.
Qed.
Lemma transverse_head h l fuel :
  linked h l → length l < fuel → tr_transverse fuel h (head l) = Ok (last l).
Proof.
  intros Hl Hf. destruct l as [|x l']; [by destruct fuel; [lia|]|].
  apply (transverse_linked h (x :: l') fuel 0); [done|simpl; lia|simpl in *; lia].
Qed.

(** [tr_search] finds the first node with the index. *)
Lemma search_linked h l fuel k f :
  linked h l → k < length l → length l - k ≤ fuel →
  (∃ j x n, k ≤ j ∧ l !! j = Some x ∧ h !! x = Some n ∧ tn_index n = f ∧
     (∀ i y m, k ≤ i → i < j → l !! i = Some y → h !! y = Some m → tn_index m ≠ f) ∧
     tr_search fuel h (l !! k) f = Ok (Some x)) ∨
  ((∀ i y m, k ≤ i → l !! i = Some y → h !! y = Some m → tn_index m ≠ f) ∧
   tr_search fuel h (l !! k) f = Ok None).
Proof.
  intros Hl. revert k. induction fuel as [|fuel IH]; intros k Hk Hf; [lia|].
  destruct (lookup_lt_is_Some_2 _ _ Hk) as [x Hx]. rewrite Hx. simpl.
  destruct (Hl _ _ Hx) as (n & Hn & Hr & Hfa). rewrite Hn. simpl.
  rewrite (bool_decide_eq_true_2 _ Hfa), andb_true_r.
  destruct (decide (tn_index n = f)) as [Hi|Hi].
  { rewrite bool_decide_eq_true_2 by done. left. exists k, x, n.
    split_and!; try done. intros. lia. }
  rewrite bool_decide_eq_false_2 by done. rewrite Hr.
  destruct (l !! S k) as [y|] eqn:Hy.
  - rewrite <- Hy. pose proof (lookup_lt_Some _ _ _ Hy).
    destruct (IH (S k)) as [(j & z & m & Hj & Hz & Hm & Hmi & Hno & Hs)|[Hno Hs]]; [lia..| |].
    + left. exists j, z, m. split; [lia|]. split_and!; try done.
      intros i u w Hi1 Hi2 Hu Hw. destruct (decide (i = k)) as [-> |].
      { rewrite Hx in Hu. injection Hu as <-. rewrite Hn in Hw. by injection Hw as <-. }
      apply (Hno i u w); [lia|done..].
    + right. split; [|done]. intros i u w Hi1 Hu Hw. destruct (decide (i = k)) as [-> |].
      { rewrite Hx in Hu. injection Hu as <-. rewrite Hn in Hw. by injection Hw as <-. }
      apply (Hno i u w); [lia|done..].
  - right. split; [|done]. intros i u w Hi1 Hu Hw.
    apply lookup_ge_None in Hy. pose proof (lookup_lt_Some _ _ _ Hu).
    assert (i = k) as -> by lia.
    rewrite Hx in Hu. injection Hu as <-. rewrite Hn in Hw. by injection Hw as <-.
Qed.

#[local] Arguments tr_transverse : simpl never.
#[local] Arguments tr_search : simpl never.

(** What changes of the nodes when the list of sons of [f], whose last is
    [y], changes. *)
Definition kept (f : nat) (y : option nat) h h' : Prop :=
  ∀ x n, h !! x = Some n → ∃ n', h' !! x = Some n' ∧
    tn_index n' = tn_index n ∧ tn_volume n' = tn_volume n ∧
    tn_father n' = tn_father n ∧ tn_left n' = tn_left n ∧
    (x ≠ f → tn_son n' = tn_son n ∧ tn_sonc n' = tn_sonc n) ∧
    (y ≠ Some x → tn_right n' = tn_right n).

Lemma kept_carries f y h h' x v : kept f y h h' → carries h x v → carries h' x v.
Proof.
  intros HK (n & Hn & H1 & H2). destruct (HK _ _ Hn) as (n' & Hn' & E1 & E2 & _).
  exists n'. split_and!; [done|congruence..].
Qed.
Lemma kept_brothers f y h h' g l :
  kept f y h h' → brothers h g l → g ≠ f → (∀ x, x ∈ l → y ≠ Some x) → brothers h' g l.
Proof.
  intros HK [(n & Hn & H1 & H2) Hl] Hg Hy. split.
  - destruct (HK _ _ Hn) as (n' & Hn' & _ & _ & _ & _ & E & _).
    destruct (E Hg) as [E1 E2]. exists n'. split_and!; [done|congruence..].
  - intros k x Hx. destruct (Hl _ _ Hx) as (m & Hm & E1 & E2 & E3).
    destruct (HK _ _ Hm) as (m' & Hm' & _ & _ & F1 & F2 & _ & F3).
    exists m'. split_and!; [done|congruence..|]. rewrite F3; [done|].
    apply Hy. by eapply elem_of_list_lookup_2.
Qed.

(** Adding a son. *)
Definition add_son h (f k : nat) : res (gmap nat (tnode W)) :=
  h ← update h (Some k) (λ n, TNode (tn_index n) (tn_volume n) (tn_sonc n) (Some f) (tn_left n) (tn_right n) (tn_son n));
  fn ← deref h (Some f);
  left ← tr_transverse (S k) h (tn_son fn);
  h ← match left with
      | None => update h (Some f) (set_son (Some k))
      | Some _ => h ← update h (Some k) (set_left left);
                  update h left (set_right (Some k))
      end;
  update h (Some f) (set_sonc (λ z, z + 1)%Z).

Lemma add_son_ok h f l k i v :
  brothers h f l → NoDup (f :: l) → k ∉ f :: l → length l ≤ k → h !! k = None →
  ∃ h', add_son (<[k := tn_new i v]> h) f k = Ok h' ∧
    brothers h' f (l ++ [k]) ∧ carries h' k (i, v) ∧ brothers h' k [] ∧ kept f (last l) h h' ∧
    (∀ x, is_Some (h' !! x) → x = k ∨ is_Some (h !! x)).
Proof.
  intros HB Hnd Hk Hlen Hhk. pose proof HB as [(fn & Hfn & Hson & Hsonc) Hsons].
  apply not_elem_of_cons in Hk as [Hkf Hkl]. apply NoDup_cons in Hnd as [Hfl Hnd].
  unfold add_son. cbn [update]. rewrite lookup_insert. simpl.
  rewrite insert_insert.
  set (h1 := <[k := _]> h).
  assert (H1 : ∀ x, x ≠ k → h1 !! x = h !! x) by (intros; unfold h1; by rewrite lookup_insert_ne).
  assert (Hfk : f ≠ k) by congruence. rewrite (H1 f), Hfn by done. simpl. rewrite Hson.
  assert (HL : linked h1 l).
  { intros j x Hx. destruct (brothers_linked _ _ _ HB _ _ Hx) as (n & Hn & R).
    exists n. rewrite H1; [exact (conj Hn R)|]. intros ->. apply Hkl. by eapply elem_of_list_lookup_2. }
  rewrite (transverse_head h1 l) by (done || lia). simpl.
  destruct (last l) as [y|] eqn:Hlast.
  - (* there are sons *)
    apply last_Some in Hlast as [l0 ->].
    destruct (Hsons (length l0) y) as (yn & Hyn & Y1 & Y2 & Y3).
    { by rewrite lookup_app_r, Nat.sub_diag by lia. }
    assert (Hyk : y ≠ k). { intros ->. apply Hkl. set_solver. }
    assert (Hyf : y ≠ f). { intros ->. apply Hfl. set_solver. }
    cbn [update]. unfold h1 at 1. rewrite lookup_insert. simpl.
    rewrite (lookup_insert_ne h1) by done. rewrite (H1 y), Hyn by done. simpl.
    rewrite lookup_insert_ne by done. rewrite (lookup_insert_ne h1) by done.
    rewrite (H1 f), Hfn by done. simpl. unfold h1. rewrite insert_insert.
    eexists. split; [done|]. split_and!.
    + split.
      * eexists. rewrite lookup_insert. split_and!; [done|simpl|simpl].
        -- rewrite Hson. by destruct l0.
        -- rewrite Hsonc, !app_length. simpl. lia.
      * intros j x Hx. destruct (decide (j = length (l0 ++ [y]))) as [-> |Hj].
        { rewrite lookup_app_r, Nat.sub_diag in Hx by lia. injection Hx as <-.
          eexists. rewrite lookup_insert_ne by done. rewrite lookup_insert_ne by done.
          rewrite lookup_insert. split_and!; [done|done|simpl|simpl].
          - rewrite app_length, Nat.add_1_r. rewrite lookup_app_l by (rewrite app_length; simpl; lia).
            by rewrite lookup_app_r, Nat.sub_diag by lia.
          - symmetry. apply lookup_ge_None_2. rewrite !app_length. simpl. lia. }
        assert (Hjl : j < length (l0 ++ [y])).
        { apply lookup_lt_Some in Hx. rewrite app_length in Hx. simpl in Hx. lia. }
        rewrite lookup_app_l in Hx by done.
        destruct (Hsons _ _ Hx) as (n & Hn & N1 & N2 & N3).
        assert (x ≠ f) by (intros ->; apply Hfl; by eapply elem_of_list_lookup_2).
        assert (x ≠ k) by (intros ->; apply Hkl; by eapply elem_of_list_lookup_2).
        assert (Hl : match j with 0 => None | S i => (l0 ++ [y]) !! i end =
                     match j with 0 => None | S i => ((l0 ++ [y]) ++ [k]) !! i end).
        { destruct j as [|j]; [done|]. by rewrite (lookup_app_l (l0 ++ [y])) by lia. }
        rewrite lookup_insert_ne by done.
        destruct (decide (x = y)) as [-> |Hxy].
        -- assert (j = length l0) as ->.
           { eapply (NoDup_lookup _ _ _ y Hnd); [done|].
             by rewrite lookup_app_r, Nat.sub_diag by lia. }
           eexists. rewrite lookup_insert. split_and!; [done|simpl; congruence|simpl; congruence|simpl].
           rewrite lookup_app_r by (rewrite app_length; simpl; lia).
           rewrite app_length. simpl. by replace (S (length l0) - (length l0 + 1)) with 0 by lia.
        -- assert (S j < length (l0 ++ [y])).
           { destruct (decide (S j = length (l0 ++ [y]))) as [E|]; [|lia].
             rewrite app_length, Nat.add_1_r in E. injection E as ->.
             rewrite lookup_app_r, Nat.sub_diag in Hx by lia. by injection Hx as <-. }
           rewrite lookup_insert_ne by done. rewrite lookup_insert_ne by done.
           exists n. split_and!; [done|done|congruence|].
           by rewrite (lookup_app_l (l0 ++ [y])) by lia.
    + eexists. rewrite lookup_insert_ne by done. rewrite lookup_insert_ne by done.
      by rewrite lookup_insert.
    + split; [|by intros ? ? ?%elem_of_list_lookup_2%elem_of_nil].
      eexists. rewrite lookup_insert_ne by done. rewrite lookup_insert_ne by done.
      by rewrite lookup_insert.
    + intros x n Hn. assert (x ≠ k) by congruence.
      destruct (decide (x = f)) as [-> |Hxf].
      { rewrite Hfn in Hn. injection Hn as <-. eexists. rewrite lookup_insert. by split_and!. }
      rewrite lookup_insert_ne by done.
      destruct (decide (x = y)) as [-> |Hxy].
      { rewrite Hyn in Hn. injection Hn as <-. eexists. rewrite lookup_insert. by split_and!. }
      rewrite lookup_insert_ne by done. rewrite lookup_insert_ne by done. by exists n.
    + intros x [n Hx]. rewrite !lookup_insert_Some in Hx.
      destruct Hx as [[<- _]|[_ [[<- _]|[_ [[<- _]|[_ Hx]]]]]]; [by right; eexists..|by left|by right; eexists].
  - (* the first son *)
    apply last_None in Hlast as ->. simpl.
    rewrite lookup_insert. simpl. rewrite insert_insert.
    eexists. split; [done|]. split_and!.
    + split.
      * eexists. rewrite lookup_insert. split_and!; [done|done|simpl]. rewrite Hsonc. done.
      * intros j x Hx. destruct j as [|j]; [|done]. injection Hx as <-.
        eexists. rewrite lookup_insert_ne by done. unfold h1. by rewrite lookup_insert.
    + eexists. rewrite lookup_insert_ne by done. unfold h1. by rewrite lookup_insert.
    + split; [|done].
      eexists. rewrite lookup_insert_ne by done. unfold h1. by rewrite lookup_insert.
    + intros x n Hn. assert (x ≠ k) by congruence.
      destruct (decide (x = f)) as [-> |Hxf].
      { rewrite Hfn in Hn. injection Hn as <-. eexists. rewrite lookup_insert. by split_and!. }
      rewrite lookup_insert_ne by done. unfold h1. rewrite lookup_insert_ne by done. by exists n.
    + intros x [n Hx]. unfold h1 in Hx. rewrite !lookup_insert_Some in Hx.
      destruct Hx as [[<- _]|[_ [[<- _]|[_ Hx]]]]; [by right; eexists|by left|by right; eexists].
Qed.

(** Deleting a son: the pointers through which the nodes are reached. *)
Definition loc (f : nat) (l : list nat) (i : nat) : ptr_loc :=
  match i with 0 => LSon f | S j => match l !! j with Some x => LRight x | None => LSon f end end.
Lemma read_loc h f l i : brothers h f l → i ≤ length l → read h (loc f l i) = Ok (l !! i).
Proof.
  intros [(fn & Hfn & Hson & _) Hl] Hi. destruct i as [|j]; simpl.
  - rewrite Hfn. simpl. rewrite Hson. by destruct l.
  - destruct (lookup_lt_is_Some_2 l j) as [x Hx]; [lia|]. rewrite Hx. simpl.
    destruct (Hl _ _ Hx) as (n & Hn & _ & _ & Hr). rewrite Hn. simpl. by rewrite Hr.
Qed.
#[local] Opaque read.

Lemma delete_walk h f l v k fuel i :
  brothers h f l → i ≤ k → k ≤ length l →
  (∀ j y n, i ≤ j → j < k → l !! j = Some y → h !! y = Some n → tn_index n ≠ v) →
  tr_delete_node (k - i + fuel) h (loc f l i) v = tr_delete_node fuel h (loc f l k) v.
Proof.
  intros HB. remember (k - i) as d eqn:Hd. revert i Hd.
  induction d as [|d IH]; intros i Hd Hi Hk Hno.
  { by assert (i = k) as -> by lia. }
  simpl. rewrite (read_loc h f l i) by (done || lia). simpl.
  destruct (lookup_lt_is_Some_2 l i) as [x Hx]; [lia|]. rewrite Hx. simpl.
  destruct HB as [HB1 HB2]. destruct (HB2 _ _ Hx) as (n & Hn & _). rewrite Hn. simpl.
  rewrite bool_decide_eq_false_2 by (by apply (Hno i x n); [lia|lia|..]).
  rewrite <- (IH (S i)); [|lia..|].
  - simpl. by rewrite Hx.
  - intros j y m Hj. apply Hno. lia.
Qed.

(** The first node with the index. *)
Definition first_idx h (l : list nat) (v k : nat) : Prop :=
  (∃ x n, l !! k = Some x ∧ h !! x = Some n ∧ tn_index n = v) ∧
  ∀ j y n, j < k → l !! j = Some y → h !! y = Some n → tn_index n ≠ v.

Lemma first_idx_dec h f l v :
  brothers h f l →
  (∃ k, first_idx h l v k) ∨ (∀ j y n, l !! j = Some y → h !! y = Some n → tn_index n ≠ v).
Proof.
  intros [_ HB].
  assert (HH : ∀ m, m ≤ length l → (∃ k, first_idx h l v k) ∨
     (∀ j y n, j < m → l !! j = Some y → h !! y = Some n → tn_index n ≠ v)).
  { induction m as [|m IH]; intros Hm; [by right; intros; lia|].
    destruct IH as [?|Hno]; [lia|by left|].
    destruct (lookup_lt_is_Some_2 l m) as [x Hx]; [lia|].
    destruct (HB _ _ Hx) as (n & Hn & _).
    destruct (decide (tn_index n = v)) as [Hv|Hv].
    - left. exists m. split; [by exists x, n|]. intros j y n' Hj. by apply Hno.
    - right. intros j y n' Hj Hy Hn'. destruct (decide (j = m)) as [-> |].
      { rewrite Hx in Hy. injection Hy as <-. rewrite Hn in Hn'. by injection Hn' as <-. }
      apply (Hno j y n'); [lia|done..]. }
  destruct (HH (length l)) as [?|Hno]; [lia|by left|]. right.
  intros j y n Hy. apply (Hno j y n); [|done]. by eapply lookup_lt_Some.
Qed.

Lemma delete_absent h f l v fuel :
  brothers h f l → (∀ j y n, l !! j = Some y → h !! y = Some n → tn_index n ≠ v) →
  length l < fuel → tr_delete_node fuel h (LSon f) v = Ok h.
Proof.
  intros HB Hno Hf.
  pose proof (delete_walk h f l v (length l) (fuel - length l) 0 HB) as HW.
  rewrite Nat.sub_0_r in HW. replace (length l + (fuel - length l)) with fuel in HW by lia.
  simpl in HW. rewrite HW; [|lia..|by eauto].
  destruct (fuel - length l) as [|g] eqn:Hg; [lia|]. simpl.
  rewrite (read_loc h f l (length l)) by done. simpl.
  by rewrite lookup_ge_None_2 by lia.
Qed.

(** Through the node itself the pointers are read again. *)
Lemma delete_at h f l v k fuel :
  brothers h f l → first_idx h l v k → length l < fuel →
  tr_delete_node fuel h (LSon f) v = tr_delete_node (S (fuel - k - 1)) h (loc f l k) v.
Proof.
  intros HB [(x & n & Hx & Hn & Hv) Hno] Hf. pose proof (lookup_lt_Some _ _ _ Hx) as Hk.
  rewrite <- (delete_walk h f l v k _ 0); [|done|lia|lia|].
  - rewrite Nat.sub_0_r. simpl. f_equal. lia.
  - intros j y m _ Hj. by apply Hno.
Qed.

Lemma delete_last h f l v k fuel y :
  brothers h f (l ++ [y]) → NoDup (f :: l ++ [y]) → l ≠ [] →
  first_idx h (l ++ [y]) v k → k = length l → length (l ++ [y]) < fuel →
  ∃ h', tr_delete_node fuel h (LSon f) v = Ok h' ∧ brothers h' f l ∧ kept f (last l) h h' ∧
    (∀ x, is_Some (h' !! x) → is_Some (h !! x)).
Proof.
  intros HB Hnd Hne HF -> Hlen. rewrite (delete_at h f _ v _ fuel HB HF Hlen). simpl.
  rewrite (read_loc h f (l ++ [y])) by (done || rewrite app_length; simpl; lia). simpl.
  destruct HF as [(y' & n & Hy & Hn & Hv) _].
  rewrite Hy. pose proof Hy as Hy'. rewrite lookup_app_r, Nat.sub_diag in Hy' by lia.
  injection Hy' as <-. simpl. rewrite Hn. simpl. rewrite bool_decide_eq_true_2 by done.
  destruct HB as [(fn & Hfn & Hson & Hsonc) HB].
  destruct (HB _ _ Hy) as (n' & Hn' & N1 & N2 & N3). rewrite Hn in Hn'. injection Hn' as <-.
  apply NoDup_cons in Hnd as [Hfl Hnd].
  destruct (exists_last Hne) as (l0 & z & ->).
  rewrite app_length, Nat.add_1_r in N2.
  rewrite lookup_app_l in N2 by (rewrite app_length; simpl; lia).
  rewrite lookup_app_r, Nat.sub_diag in N2 by lia. simpl in N2. rewrite N2.
  rewrite (lookup_ge_None_2 _ (S (length (l0 ++ [z])))) in N3
    by (rewrite (app_length (l0 ++ [z])); simpl; lia). rewrite N3, N1. simpl.
  rewrite Hfn. simpl. rewrite lookup_insert_ne by (intros ->; apply Hfl; set_solver).
  rewrite Hn. simpl. rewrite N2. simpl.
  assert (Hz : (((l0 ++ [z]) ++ [y]) !! length l0) = Some z).
  { rewrite lookup_app_l by (rewrite app_length; simpl; lia). by rewrite lookup_app_r, Nat.sub_diag by lia. }
  destruct (HB _ _ Hz) as (zn & Hzn & Z1 & Z2 & Z3).
  assert (Hzf : f ≠ z) by (intros ->; apply Hfl; set_solver).
  rewrite lookup_insert_ne by done. rewrite Hzn.
  eexists. split; [done|]. split_and!.
  - split.
    + eexists. rewrite lookup_insert_ne by done. rewrite lookup_insert.
      split_and!; [done|simpl|simpl].
      * rewrite Hson. by destruct l0.
      * rewrite Hsonc, !app_length. simpl. lia.
    + intros j x Hx. pose proof (lookup_lt_Some _ _ _ Hx) as Hj.
      destruct (HB j x) as (m & Hm & M1 & M2 & M3); [by rewrite lookup_app_l|].
      assert (Hxf : f ≠ x).
      { intros ->. apply Hfl. apply elem_of_app. left. by eapply elem_of_list_lookup_2. }
      assert (Hl : tn_left m = match j with 0 => None | S i => (l0 ++ [z]) !! i end).
      { rewrite M2. destruct j as [|j]; [done|]. by rewrite lookup_app_l by lia. }
      destruct (decide (x = z)) as [-> |Hxz].
      * assert (j = length l0) as ->.
        { eapply (NoDup_lookup _ _ _ z Hnd); [by rewrite lookup_app_l|done]. }
        rewrite Hzn in Hm. injection Hm as <-. eexists. rewrite lookup_insert.
        split_and!; [done|simpl; done|simpl; done|simpl].
        symmetry. apply lookup_ge_None_2. rewrite app_length. simpl. lia.
      * rewrite lookup_insert_ne by done. rewrite lookup_insert_ne by done.
        exists m. split_and!; [done..|]. rewrite M3. apply lookup_app_l.
        destruct (decide (S j = length (l0 ++ [z]))) as [E|]; [|lia].
        rewrite app_length, Nat.add_1_r in E. injection E as ->.
        rewrite lookup_app_r, Nat.sub_diag in Hx by lia. by injection Hx as <-.
  - rewrite last_snoc. intros x m Hm. destruct (decide (x = z)) as [-> |Hxz].
    { rewrite Hzn in Hm. injection Hm as <-. eexists. rewrite lookup_insert. by split_and!. }
    rewrite lookup_insert_ne by done.
    destruct (decide (x = f)) as [-> |Hxf].
    { rewrite Hfn in Hm. injection Hm as <-. eexists. rewrite lookup_insert. by split_and!. }
    rewrite lookup_insert_ne by done. by exists m.
  - intros x [m Hx]. rewrite !lookup_insert_Some in Hx.
    destruct Hx as [[<- _]|[_ [[<- _]|[_ Hx]]]]; by eexists.
Qed.

(** Deleting another son. *)
Lemma delete_other h f l v k fuel :
  brothers h f l → NoDup (f :: l) → first_idx h l v k →
  ¬ (0 < k ∧ S k = length l) → length l < fuel →
  (length l ≤ k + 2 ∧ tr_delete_node fuel h (LSon f) v = Err EUB) ∨
  (k + 2 < length l ∧ ∃ h', tr_delete_node fuel h (LSon f) v = Ok h' ∧ ∀ l', ¬ brothers h' f l').
Proof.
  intros HB Hnd HF Hnl Hlen. rewrite (delete_at h f _ v _ fuel HB HF Hlen).
  destruct HF as [(x & n & Hx & Hn & Hv) _]. pose proof (lookup_lt_Some _ _ _ Hx) as Hk.
  apply NoDup_cons in Hnd as [Hfl Hnd].
  assert (Hin : ∀ j y, l !! j = Some y → y ≠ f).
  { intros j y Hy ->. apply Hfl. by eapply elem_of_list_lookup_2. }
  assert (Hinj : ∀ i j y z, l !! i = Some y → l !! j = Some z → i ≠ j → y ≠ z).
  { intros i j y z Hy Hz Hij ->. apply Hij. by eapply (NoDup_lookup _ _ _ z). }
  simpl. rewrite (read_loc h f l) by (done || lia). simpl. rewrite Hx. simpl. rewrite Hn. simpl.
  rewrite bool_decide_eq_true_2 by done.
  pose proof HB as [(fn & Hfn & Hson & Hsonc) HS].
  destruct (HS _ _ Hx) as (n' & Hn' & N1 & N2 & N3). rewrite Hn in Hn'. injection Hn' as <-.
  rewrite N1, N2, N3.
  pose proof (Hin _ _ Hx) as Hxf.
  destruct k as [|j].
  - simpl. rewrite Hfn. simpl. rewrite lookup_insert_ne by done. rewrite Hn. simpl.
    rewrite N1. simpl. rewrite lookup_insert. simpl. rewrite insert_insert, N3.
    Transparent read. simpl. rewrite lookup_insert. simpl.
    destruct (l !! 1) as [y|] eqn:Hy; cycle 1.
    { left. split; [|done]. apply lookup_ge_None in Hy. lia. }
    simpl. rewrite lookup_insert_ne by (apply not_eq_sym; by eapply Hin).
    destruct (HS _ _ Hy) as (yn & Hyn & Y1 & Y2 & Y3). rewrite Hyn. simpl. rewrite Y3.
    destruct (l !! 2) as [z|] eqn:Hz; cycle 1.
    { left. split; [|done]. apply lookup_ge_None in Hz. lia. }
    right. split; [by apply lookup_lt_Some in Hz|]. simpl.
    rewrite lookup_insert_ne by (apply not_eq_sym; by eapply Hin).
    destruct (HS _ _ Hz) as (zn & Hzn & Z1 & Z2 & Z3). rewrite Hzn.
    eexists. split; [done|]. intros l' [(fn' & Hfn' & Hs' & _) HB'].
    rewrite lookup_insert_ne in Hfn' by (by eapply Hin). rewrite lookup_insert in Hfn'.
    injection Hfn' as <-. simpl in Hs'.
    destruct (HB' 0 y) as (yn' & Hyn' & _ & Hl & _); [by destruct l'|].
    rewrite lookup_insert_ne in Hyn' by (eapply (Hinj 2 1); done).
    rewrite lookup_insert_ne in Hyn' by (apply not_eq_sym; by eapply Hin).
    rewrite Hyn in Hyn'. injection Hyn' as <-. rewrite Y2, Hx in Hl. done.
  - destruct (lookup_lt_is_Some_2 l j) as [w Hw]; [lia|].
    unfold loc. rewrite Hw.
    destruct (l !! S (S j)) as [y|] eqn:Hy; cycle 1.
    { apply lookup_ge_None in Hy. lia. }
    destruct (HS _ _ Hw) as (wn & Hwn & W1 & W2 & W3).
    destruct (HS _ _ Hy) as (yn & Hyn & Y1 & Y2 & Y3).
    pose proof (Hin _ _ Hw) as Hwf. pose proof (Hin _ _ Hy) as Hyf.
    assert (Hwy : w ≠ y) by (eapply (Hinj j (S (S j))); done || lia).
    assert (Hwx : w ≠ x) by (eapply (Hinj j (S j)); done || lia).
    simpl. rewrite Hfn. simpl. rewrite lookup_insert_ne by done. rewrite Hn. simpl.
    rewrite N2, N3, Hw. simpl. rewrite lookup_insert_ne by done. rewrite Hwn. simpl.
    rewrite lookup_insert. simpl. rewrite lookup_insert_ne by done.
    rewrite lookup_insert_ne by done. rewrite Hyn. simpl. rewrite Y3.
    destruct (l !! S (S (S j))) as [z|] eqn:Hz; cycle 1.
    { left. split; [|done]. apply lookup_ge_None in Hz. lia. }
    right. split; [apply lookup_lt_Some in Hz; lia|]. simpl.
    assert (Hzw : w ≠ z) by (eapply (Hinj j (S (S (S j)))); done || lia).
    assert (Hzy : z ≠ y) by (eapply (Hinj (S (S (S j))) (S (S j))); done || lia).
    rewrite lookup_insert_ne by done. rewrite lookup_insert_ne by (apply not_eq_sym; by eapply Hin).
    destruct (HS _ _ Hz) as (zn & Hzn & Z1 & Z2 & Z3). rewrite Hzn.
    eexists. split; [done|]. intros l' [(fn' & Hfn' & Hs' & _) HB'].
    rewrite lookup_insert_ne in Hfn' by (by eapply Hin).
    rewrite lookup_insert_ne in Hfn' by done. rewrite lookup_insert in Hfn'.
    injection Hfn' as <-. simpl in Hs'. rewrite Hson in Hs'.
    assert (Hpre : ∀ i, i ≤ j → l' !! i = l !! i).
    { induction i as [|i IHi]; intros Hi.
      { by destruct l, l'. }
      destruct (lookup_lt_is_Some_2 l i) as [u Hu]; [lia|].
      rewrite Hu in IHi. destruct (HB' i u) as (un & Hun & _ & _ & Hr); [apply IHi; lia|].
      destruct (HS _ _ Hu) as (un' & Hun' & _ & _ & Hr').
      destruct (decide (u = z)) as [-> |Huz].
      { exfalso. eapply (Hinj i (S (S (S j)))); [done..|lia|done]. }
      rewrite lookup_insert_ne in Hun by done.
      rewrite lookup_insert_ne in Hun by (eapply (Hinj j i); done || lia).
      rewrite lookup_insert_ne in Hun by (apply not_eq_sym; by eapply Hin).
      congruence. }
    destruct (HB' j w) as (wn' & Hwn' & _ & _ & Hr); [by rewrite Hpre by lia|].
    rewrite lookup_insert_ne in Hwn' by done. rewrite lookup_insert in Hwn'.
    injection Hwn' as <-. simpl in Hr.
    destruct (HB' (S j) y) as (yn' & Hyn' & _ & Hl & _); [done|].
    rewrite lookup_insert_ne in Hyn' by done. rewrite lookup_insert_ne in Hyn' by done.
    rewrite lookup_insert_ne in Hyn' by done.
    rewrite Hyn in Hyn'. injection Hyn' as <-. rewrite Y2, Hx, Hpre, Hw in Hl by lia. congruence.
Qed.

(** ** The whole tree *)
Notation ids := (list (nat * list nat)).
Definition nodes (l : ids) : list nat := concat (map (λ p, p.1 :: p.2) l).

Lemma nodes_app l k : nodes (l ++ k) = nodes l ++ nodes k.
Proof. unfold nodes. by rewrite map_app, concat_app. Qed.
Lemma in_nodes l x : x ∈ nodes l ↔ ∃ p, p ∈ l ∧ x ∈ p.1 :: p.2.
Proof.
  unfold nodes. rewrite elem_of_list_In, in_concat. split.
  - intros (k & Hk & Hx). apply in_map_iff in Hk as (p & <- & Hp).
    exists p. by rewrite !elem_of_list_In.
  - intros (p & Hp & Hx). exists (p.1 :: p.2). split; [|by apply elem_of_list_In].
    apply in_map_iff. exists p. by rewrite <- elem_of_list_In.
Qed.
Lemma in_nodes_l l i p x : l !! i = Some p → x ∈ p.1 :: p.2 → x ∈ nodes l.
Proof. intros Hi Hx. apply in_nodes. exists p. split; [by eapply elem_of_list_lookup_2|done]. Qed.
Lemma nodes_nd l i p : NoDup (nodes l) → l !! i = Some p → NoDup (p.1 :: p.2).
Proof.
  revert i. induction l as [|q l IH]; intros i Hnd Hi; [done|].
  change (nodes (q :: l)) with ((q.1 :: q.2) ++ nodes l) in Hnd.
  apply NoDup_app in Hnd as (H1 & H2 & H3). destruct i as [|i]; [by injection Hi as <-|].
  by apply (IH i).
Qed.
Lemma nodes_disj l i j p q x :
  NoDup (nodes l) → l !! i = Some p → l !! j = Some q → x ∈ p.1 :: p.2 → x ∈ q.1 :: q.2 → i = j.
Proof.
  revert i j. induction l as [|r l IH]; intros i j Hnd Hi Hj Hp Hq; [done|].
  change (nodes (r :: l)) with ((r.1 :: r.2) ++ nodes l) in Hnd.
  apply NoDup_app in Hnd as (H1 & H2 & H3).
  destruct i as [|i], j as [|j]; [done| | |f_equal; by apply (IH i j)]; simpl in *.
  - injection Hi as <-. exfalso. apply (H2 x); [done|]. by eapply in_nodes_l.
  - injection Hj as <-. exfalso. apply (H2 x); [done|]. by eapply in_nodes_l.
Qed.
Lemma fst_nd l : NoDup (nodes l) → NoDup l.*1.
Proof.
  intros Hnd. apply NoDup_alt. intros i j x Hi Hj.
  rewrite list_lookup_fmap in Hi, Hj.
  destruct (l !! i) as [p|] eqn:Ep; [|done]. destruct (l !! j) as [q|] eqn:Eq; [|done].
  injection Hi as <-. injection Hj as E.
  eapply (nodes_disj l i j p q p.1); try done; [left|]. rewrite <- E. left.
Qed.
Lemma fst_in_nodes l x : x ∈ l.*1 → x ∈ nodes l.
Proof.
  intros Hx. apply elem_of_list_fmap in Hx as (p & -> & Hp). apply in_nodes. exists p.
  split; [done|left].
Qed.
(** The sons of a son are not sons of the root. *)
Lemma snd_not_fst l i p x : NoDup (nodes l) → l !! i = Some p → x ∈ p.2 → x ∉ l.*1.
Proof.
  intros Hnd Hi Hx Hf. apply elem_of_list_fmap in Hf as (q & -> & Hq).
  apply elem_of_list_lookup in Hq as [j Hj].
  assert (i = j) as -> by (eapply (nodes_disj l i j p q q.1); try done; [by right|left]).
  rewrite Hi in Hj. injection Hj as ->. pose proof (nodes_nd _ _ _ Hnd Hi) as Hn.
  by apply NoDup_cons in Hn as [? _].
Qed.

Definition son_is h (p : nat * list nat) (v : (nat * W) * list (nat * W)) : Prop :=
  carries h p.1 v.1 ∧ brothers h p.1 p.2 ∧
  Forall2 (λ y w, carries h y w ∧ brothers h y []) p.2 v.2.

Lemma kept_son f y h h' p v :
  kept f y h h' → son_is h p v → f ∉ p.1 :: p.2 → (∀ x, x ∈ p.2 → y ≠ Some x) → son_is h' p v.
Proof.
  intros HK (H1 & H2 & H3) Hf Hy. apply not_elem_of_cons in Hf as [Hf1 Hf2]. split_and!.
  - by eapply kept_carries.
  - by eapply kept_brothers.
  - apply Forall2_same_length_lookup. split; [by eapply Forall2_length|].
    intros i z w Hz Hw. destruct (Forall2_lookup_lr _ _ _ _ _ _ H3 Hz Hw) as [E1 E2].
    split; [by eapply kept_carries|]. eapply kept_brothers; try done.
    + intros ->. apply Hf2. by eapply elem_of_list_lookup_2.
    + by intros ? ?%elem_of_nil.
Qed.

Lemma tree_is_eq t s :
  tree_is t s ↔ ∃ l : ids, NoDup (tr_root t :: nodes l) ∧
    (∀ x, x ∈ tr_root t :: nodes l → x < tr_next t) ∧
    (∀ x, is_Some (tr_heap t !! x) → x < tr_next t) ∧
    brothers (tr_heap t) (tr_root t) l.*1 ∧ Forall2 (son_is (tr_heap t)) l s.
Proof. done. Qed.

Lemma nodes_short l n : NoDup l → (∀ x, x ∈ l → x < n) → length l ≤ n.
Proof.
  intros Hnd Hl. rewrite <- (seq_length n 0).
  apply submseteq_length, NoDup_submseteq; [done|].
  intros x Hx. apply elem_of_seq. specialize (Hl _ Hx). lia.
Qed.

Lemma first_son_idx h (l : ids) s v k :
  Forall2 (son_is h) l s → first_son s v k ↔ first_idx h l.*1 v k.
Proof.
  intros HF.
  assert (HI : ∀ i x n, l.*1 !! i = Some x → h !! x = Some n → ∃ w ws, s !! i = Some (w, ws) ∧ w.1 = tn_index n).
  { intros i x n Hx Hn. rewrite list_lookup_fmap in Hx.
    destruct (l !! i) as [p|] eqn:Hp; [|done]. injection Hx as <-.
    destruct (Forall2_lookup_l _ _ _ _ _ HF Hp) as ([w ws] & Hw & (n' & Hn' & E & _) & _).
    rewrite Hn in Hn'. injection Hn' as <-. by exists w, ws. }
  assert (HJ : ∀ i w ws, s !! i = Some (w, ws) → ∃ x n, l.*1 !! i = Some x ∧ h !! x = Some n ∧ tn_index n = w.1).
  { intros i w ws Hw. destruct (Forall2_lookup_r _ _ _ _ _ HF Hw) as (p & Hp & (n & Hn & E & _) & _).
    exists p.1, n. rewrite list_lookup_fmap, Hp. done. }
  split.
  - intros [(w & ws & Hw & Hv) Hno]. split.
    + destruct (HJ _ _ _ Hw) as (x & n & Hx & Hn & E). exists x, n. split_and!; congruence.
    + intros j y n Hj Hy Hn. destruct (HI _ _ _ Hy Hn) as (w' & ws' & Hw' & <-). by eapply Hno.
  - intros [(x & n & Hx & Hn & Hv) Hno]. split.
    + destruct (HI _ _ _ Hx Hn) as (w & ws & Hw & E). exists w, ws. split; congruence.
    + intros j w ws Hj Hw. destruct (HJ _ _ _ Hw) as (y & n' & Hy & Hn' & <-). by eapply Hno.
Qed.

Lemma tr_new_is i (v : W) : tree_is (tr_new i v) [].
Proof.
  apply tree_is_eq. exists []. simpl. split_and!.
  - apply NoDup_singleton.
  - intros x Hx. apply elem_of_list_singleton in Hx. lia.
  - intros x [n Hx]. apply lookup_singleton_Some in Hx as [<- _]. lia.
  - split; [|done]. eexists. by rewrite lookup_singleton.
  - constructor.
Qed.

Lemma insert_root t s i (v : W) :
  tree_is t s → ∃ t', tr_insert t 0 i v 1 = Ok t' ∧ tree_is t' (s ++ [((i, v), [])]).
Proof.
  rewrite tree_is_eq. intros (l & Hnd & Hlt & Hh & HB & HF).
  pose proof Hnd as [Hrn Hnn]%NoDup_cons.
  assert (Hk : tr_next t ∉ tr_root t :: nodes l) by (intros H; apply Hlt in H; lia).
  assert (Hfresh : tr_heap t !! tr_next t = None).
  { destruct (tr_heap t !! tr_next t) eqn:E; [|done]. assert (tr_next t < tr_next t); [apply Hh; eauto|lia]. }
  destruct (add_son_ok (tr_heap t) (tr_root t) l.*1 (tr_next t) i v) as (h' & Hh' & B1 & B2 & B3 & B4 & B5).
  - done.
  - constructor; [|by apply fst_nd]. intros ?. by apply Hrn, fst_in_nodes.
  - apply not_elem_of_cons in Hk as [Hk1 Hk2]. apply not_elem_of_cons. split; [done|].
    intros ?. by apply Hk2, fst_in_nodes.
  - apply nodes_short; [by apply fst_nd|]. intros x Hx. apply Hlt. right. by apply fst_in_nodes.
  - done.
  - exists (Tree h' (S (tr_next t)) (tr_root t)). split.
    { unfold tr_insert. rewrite bool_decide_eq_true_2 by done.
      destruct HB as [(rn & Hrn' & _) _].
      assert (tr_root t ≠ tr_next t) by (intros E; rewrite E in Hrn'; congruence).
      cbn [deref]. rewrite lookup_insert_ne by done. rewrite Hrn'. cbn [mbind res_bind].
      unfold add_son in Hh'. destruct (update _ (Some (tr_next t)) _) as [h1|]; [|done].
      simpl in *. destruct (match h1 !! tr_root t with Some n => Ok n | None => Err EUB end) as [fn|]; [|done].
      simpl in *. destruct (tr_transverse _ _ _) as [left|]; [|done]. simpl in *.
      destruct (match left with None => _ | Some _ => _ end) as [h2|]; [|done]. simpl in *.
      by rewrite Hh'. }
    apply tree_is_eq. exists (l ++ [(tr_next t, [])]). simpl. rewrite nodes_app. simpl.
    assert (Hrl : ∀ j p, l !! j = Some p → tr_root t ∉ p.1 :: p.2).
    { intros j p Hp Hin. apply Hrn. by eapply in_nodes_l. }
    split_and!.
    + change (NoDup ((tr_root t :: nodes l) ++ [tr_next t])). apply NoDup_app. split_and!; [done| |apply NoDup_singleton].
      intros x Hx ->%elem_of_list_singleton. done.
    + intros x Hx. change (x ∈ (tr_root t :: nodes l) ++ [tr_next t]) in Hx.
      apply elem_of_app in Hx as [Hx|Hx]; [apply Hlt in Hx; lia|].
      apply elem_of_list_singleton in Hx. lia.
    + intros x Hx. destruct (B5 _ Hx) as [-> |Hx']; [lia|]. apply Hh in Hx'. lia.
    + by rewrite fmap_app.
    + apply Forall2_app.
      * apply Forall2_same_length_lookup. split; [by eapply Forall2_length|].
        intros j p w Hp Hw. pose proof (Forall2_lookup_lr _ _ _ _ _ _ HF Hp Hw) as HS.
        eapply kept_son; [done|done|by eapply Hrl|].
        intros x Hx Hlast. eapply (snd_not_fst l j p x); [done|done|done|].
        apply last_Some in Hlast as [l0 ->]. set_solver.
      * repeat constructor; try done; apply B3.
Qed.

Lemma insert_son t s f i v k x ws :
  tree_is t s → first_son s f k → s !! k = Some (x, ws) →
  ∃ t', tr_insert t f i v 0 = Ok t' ∧ tree_is t' (<[k := (x, ws ++ [(i, v)])]> s).
Proof.
  rewrite tree_is_eq. intros (l & Hnd & Hlt & Hh & HB & HF) Hfirst Hsk.
  pose proof Hnd as [Hrn Hnn]%NoDup_cons.
  assert (Hk : tr_next t ∉ tr_root t :: nodes l) by (intros H; apply Hlt in H; lia).
  assert (Hfresh : tr_heap t !! tr_next t = None).
  { destruct (tr_heap t !! tr_next t) eqn:E; [|done]. assert (tr_next t < tr_next t); [apply Hh; eauto|lia]. }
  destruct (Forall2_lookup_r _ _ _ _ _ HF Hsk) as (p & Hp & HS). destruct p as [g gs].
  apply (first_son_idx (tr_heap t) l) in Hfirst; [|done].
  assert (Hgn : g ∈ nodes l) by (eapply in_nodes_l; [done|left]).
  pose proof (nodes_nd _ _ _ Hnn Hp) as Hgnd. simpl in Hgnd.
  assert (Hgl : ∀ y, y ∈ g :: gs → y ∈ nodes l) by (intros y Hy; eapply in_nodes_l; [exact Hp|done]).
  destruct HS as (HS1 & HS2 & HS3). simpl in HS1, HS2, HS3.
  apply not_elem_of_cons in Hk as [Hk1 Hk2].
  destruct (add_son_ok (tr_heap t) g gs (tr_next t) i v) as (h' & Hh' & B1 & B2 & B3 & B4 & B5).
  - done.
  - done.
  - intros Hin. by apply Hk2, Hgl.
  - apply nodes_short; [by apply NoDup_cons in Hgnd as [_ ?]|]. intros y Hy. apply Hlt. right. apply Hgl. by right.
  - done.
  - exists (Tree h' (S (tr_next t)) (tr_root t)). split.
    { unfold tr_insert. rewrite bool_decide_eq_false_2 by done.
      pose proof HB as [(rn & Hrn' & Hson & _) HBl].
      assert (tr_root t ≠ tr_next t) by (intros E; rewrite E in Hrn'; congruence).
      cbn [deref]. rewrite lookup_insert_ne by done. rewrite Hrn'. cbn [mbind res_bind].
      assert (Hkl : k < length l.*1).
      { rewrite fmap_length. by eapply lookup_lt_Some. }
      assert (HL : linked (<[tr_next t := tn_new i v]> (tr_heap t)) l.*1).
      { intros j y Hy. destruct (brothers_linked _ _ _ HB _ _ Hy) as (n & Hn & R).
        exists n. rewrite lookup_insert_ne; [exact (conj Hn R)|]. intros E. rewrite E, Hn in Hfresh. done. }
      assert (Hsearch : tr_search (S (tr_next t)) (<[tr_next t := tn_new i v]> (tr_heap t)) (tn_son rn) f = Ok (Some g)).
      { rewrite Hson. replace (head l.*1) with (l.*1 !! 0) by by destruct l.
        destruct (search_linked _ _ (S (tr_next t)) 0 f HL) as [(j & y & n & _ & Hy & Hn & Hi & Hno & ->)|[Hno _]].
        - lia.
        - rewrite Nat.sub_0_r. transitivity (tr_next t); [|lia]. apply nodes_short; [by apply fst_nd|].
          intros z Hz. apply Hlt. right. by apply fst_in_nodes.
        - assert (Hyh : ∀ y n, <[tr_next t:=tn_new i v]> (tr_heap t) !! y = Some n → y ≠ tr_next t → tr_heap t !! y = Some n).
          { intros y' n' Hy' Hne. by rewrite lookup_insert_ne in Hy'. }
          assert (Hne : ∀ j y, l.*1 !! j = Some y → y ≠ tr_next t).
          { intros j' y' Hy' ->. destruct (HBl _ _ Hy') as (? & ? & _). congruence. }
          destruct Hfirst as [(x' & n' & Hx' & Hn' & Hv') Hno'].
          assert (j = k) as ->.
          { destruct (lt_eq_lt_dec j k) as [[Hjk|Hjk]|Hjk]; [|done|].
            - exfalso. apply (Hno' j y n Hjk Hy); [|done]. apply Hyh; [done|by eapply Hne].
            - exfalso. apply (Hno k x' n'); [lia|done|done| |done].
              rewrite lookup_insert_ne; [done|]. apply not_eq_sym. by eapply Hne. }
          rewrite list_lookup_fmap, Hp in Hy. by injection Hy as <-.
        - exfalso. destruct Hfirst as [(x' & n' & Hx' & Hn' & Hv') _].
          apply (Hno k x' n'); [lia|done| |done]. rewrite lookup_insert_ne; [done|].
          intros E. rewrite E, Hn' in Hfresh. done. }
      rewrite Hsearch. cbn [mbind res_bind].
      unfold add_son in Hh'. destruct (update _ (Some (tr_next t)) _) as [h1|]; [|done].
      simpl in *. destruct (match h1 !! g with Some n => Ok n | None => Err EUB end) as [fn|]; [|done].
      simpl in *. destruct (tr_transverse _ _ _) as [left|]; [|done]. simpl in *.
      destruct (match left with None => _ | Some _ => _ end) as [h2|]; [|done]. simpl in *.
      by rewrite Hh'. }
    apply tree_is_eq. exists (<[k := (g, gs ++ [tr_next t])]> l). simpl.
    assert (Hperm : nodes (<[k := (g, gs ++ [tr_next t])]> l) ≡ₚ tr_next t :: nodes l).
    { rewrite <- (take_drop_middle l k _ Hp) at 2.
      rewrite insert_take_drop by (by eapply lookup_lt_Some). rewrite !nodes_app.
      change (nodes ((g, gs ++ [tr_next t]) :: drop (S k) l)) with (((g :: gs ++ [tr_next t])) ++ nodes (drop (S k) l)).
      change (nodes ((g, gs) :: drop (S k) l)) with (((g :: gs)) ++ nodes (drop (S k) l)).
      change (g :: gs ++ [tr_next t]) with ((g :: gs) ++ [tr_next t]).
      solve_Permutation. }
    assert (Hfst : (<[k := (g, gs ++ [tr_next t])]> l).*1 = l.*1).
    { rewrite list_fmap_insert. apply list_insert_id. rewrite list_lookup_fmap, Hp. done. }
    split_and!.
    + rewrite Hperm. constructor.
      { apply not_elem_of_cons. split; [|done]. intros E. by apply Hk1. }
      constructor; [done|done].
    + intros y Hy. rewrite Hperm in Hy. apply elem_of_cons in Hy as [-> |Hy]; [assert (tr_root t < tr_next t); [apply Hlt; left|lia]|].
      apply elem_of_cons in Hy as [-> |Hy]; [lia|]. assert (y < tr_next t); [apply Hlt; by right|lia].
    + intros y Hy. destruct (B5 _ Hy) as [-> |Hy']; [lia|]. apply Hh in Hy'. lia.
    + rewrite Hfst. eapply kept_brothers; [done|done| |].
      * intros E. apply Hrn. by rewrite E.
      * intros y Hy Hlast. eapply (snd_not_fst l k (g, gs) y); [done|done| |done].
        apply last_Some in Hlast as [l0 ->]. simpl. set_solver.
    + apply Forall2_same_length_lookup. unfold shape in *. rewrite !insert_length. split; [exact (Forall2_length _ _ _ HF)|].
      intros j q w Hq Hw. destruct (decide (j = k)) as [-> |Hjk].
      * rewrite list_lookup_insert in Hq by (by eapply lookup_lt_Some). injection Hq as <-.
        rewrite list_lookup_insert in Hw by (by eapply lookup_lt_Some). injection Hw as <-.
        split_and!; simpl.
        -- by eapply kept_carries.
        -- done.
        -- apply Forall2_app; [|by repeat constructor; try done; apply B3].
           apply Forall2_same_length_lookup. split; [by eapply Forall2_length|].
           intros j z w Hz Hw. destruct (Forall2_lookup_lr _ _ _ _ _ _ HS3 Hz Hw) as [E1 E2].
           split; [by eapply kept_carries|]. eapply kept_brothers; [done|done| |].
           ++ intros ->. apply NoDup_cons in Hgnd as [Hg _]. apply Hg. by eapply elem_of_list_lookup_2.
           ++ by intros ? ?%elem_of_nil.
      * rewrite list_lookup_insert_ne in Hq by done. rewrite list_lookup_insert_ne in Hw by done.
        pose proof (Forall2_lookup_lr _ _ _ _ _ _ HF Hq Hw) as HS.
        eapply kept_son; [done|done| |].
        -- intros Hg. apply Hjk. eapply (nodes_disj l j k q (g, gs) g); try done. left.
        -- intros y Hy Hlast. apply Hjk. eapply (nodes_disj l j k q (g, gs) y); try done; [by right|].
           right. apply last_Some in Hlast as [l0 ->]. simpl. set_solver.
Qed.

(** Where the father is not found. *)
Lemma insert_lost t s f i v :
  tree_is t s → (∀ k, ¬ first_son s f k) →
  tr_insert t f i v 0 = Err (if decide (s = []) then EUB else EAssert).
Proof.
  rewrite tree_is_eq. intros (l & Hnd & Hlt & Hh & HB & HF) Hfirst.
  pose proof Hnd as [Hrn Hnn]%NoDup_cons.
  assert (Hfresh : tr_heap t !! tr_next t = None).
  { destruct (tr_heap t !! tr_next t) eqn:E; [|done]. assert (tr_next t < tr_next t); [apply Hh; eauto|lia]. }
  unfold tr_insert. rewrite bool_decide_eq_false_2 by done.
  pose proof HB as [(rn & Hrn' & Hson & _) HBl].
  assert (tr_root t ≠ tr_next t) by (intros E; rewrite E in Hrn'; congruence).
  cbn [deref]. rewrite lookup_insert_ne by done. rewrite Hrn'. cbn [mbind res_bind]. rewrite Hson.
  destruct l as [|p l'].
  { apply Forall2_nil_inv_l in HF as ->. by rewrite decide_True by done. }
  rewrite decide_False by (intros ->; by apply Forall2_nil_inv_r in HF).
  set (l := p :: l') in *.
  assert (HL : linked (<[tr_next t := tn_new i v]> (tr_heap t)) l.*1).
  { intros j y Hy. destruct (brothers_linked _ _ _ HB _ _ Hy) as (n & Hn & R).
    exists n. rewrite lookup_insert_ne; [exact (conj Hn R)|]. intros E. rewrite E, Hn in Hfresh. done. }
  replace (head l.*1) with (l.*1 !! 0) by done.
  destruct (search_linked _ _ (S (tr_next t)) 0 f HL) as [(j & y & n & _ & Hy & Hn & Hi & Hno & _)|[_ ->]].
  - simpl. lia.
  - rewrite Nat.sub_0_r. transitivity (tr_next t); [|lia]. apply nodes_short; [by apply fst_nd|].
    intros z Hz. apply Hlt. right. by apply fst_in_nodes.
  - exfalso.
    destruct (HBl _ _ Hy) as (n' & Hn' & _).
    rewrite lookup_insert_ne in Hn by (intros E; rewrite <- E in Hn'; congruence).
    destruct (first_idx_dec (tr_heap t) (tr_root t) l.*1 f HB) as [[k Hk]|Hk].
    + apply (Hfirst k). by apply (first_son_idx (tr_heap t) l s f k HF).
    + by apply (Hk j y n).
  - done.
Qed.

Lemma delete_ok t s v :
  tree_is t s → deletes_last s (TDelete v) →
  ∃ t' s', tr_delete t v = Ok t' ∧ tree_is t' s' ∧ top_spec s (TDelete v) s'.
Proof.
  rewrite tree_is_eq. intros (l & Hnd & Hlt & Hh & HB & HF) Hdl. simpl in Hdl.
  pose proof Hnd as [Hrn Hnn]%NoDup_cons.
  assert (Hlen : length l.*1 < S (tr_next t)).
  { apply Nat.lt_succ_r, nodes_short; [by apply fst_nd|].
    intros z Hz. apply Hlt. right. by apply fst_in_nodes. }
  unfold tr_delete.
  destruct (first_idx_dec (tr_heap t) (tr_root t) l.*1 v HB) as [[k Hk]|Hk]; cycle 1.
  { rewrite (delete_absent _ _ _ v _ HB Hk Hlen). simpl.
    eexists _, s. split; [done|]. split; [by apply tree_is_eq; exists l|].
    constructor. intros k Hfs. apply (first_son_idx (tr_heap t) l s v k HF) in Hfs.
    destruct Hfs as [(x & n & Hx & Hn & E) _]. by apply (Hk k x n). }
  pose proof Hk as Hfs. apply (first_son_idx (tr_heap t) l s v k HF) in Hfs.
  destruct (Hdl _ Hfs) as [Hk0 Hkl]. pose proof (Forall2_length _ _ _ HF) as Hls.
  destruct l as [|p0 l0] using rev_ind; [simpl in Hls; lia|]. clear IHl0.
  rewrite app_length in Hls. simpl in Hls.
  assert (Hkl0 : k = length l0) by lia.
  apply Forall2_app_inv_l in HF as (s0 & s1 & HF0 & HF1 & ->).
  pose proof (Forall2_length _ _ _ HF0) as Hls0.
  rewrite fmap_app in HB, Hk, Hlen. simpl in HB, Hk, Hlen.
  rewrite nodes_app in Hnd, Hlt, Hrn, Hnn.
  destruct (delete_last (tr_heap t) (tr_root t) l0.*1 v k (S (tr_next t)) p0.1 HB)
    as (h' & Hh' & B1 & B2 & B3).
  - constructor.
    + intros E. apply Hrn. apply elem_of_app in E as [E|E].
      * apply elem_of_app. left. by apply fst_in_nodes.
      * apply elem_of_list_singleton in E. apply elem_of_app. right. rewrite E. left.
    + rewrite <- nodes_app in Hnn. apply fst_nd in Hnn. by rewrite fmap_app in Hnn.
  - intros E. apply (f_equal length) in E. rewrite fmap_length in E. simpl in E. lia.
  - done.
  - by rewrite fmap_length.
  - done.
  - rewrite Hh'. simpl. eexists _, s0. split; [done|]. split; cycle 1.
    { replace s0 with (take k (s0 ++ s1) ++ drop (S k) (s0 ++ s1)) at 2; [by constructor|].
      rewrite (drop_ge (s0 ++ s1)) by lia. rewrite app_nil_r.
      rewrite take_app_le by lia. apply take_ge. lia. }
    apply tree_is_eq. exists l0. simpl. split_and!.
    + apply NoDup_cons. split; [intros E; apply Hrn, elem_of_app; by left|].
      by apply NoDup_app in Hnn as [? _].
    + intros x Hx. apply Hlt. apply elem_of_cons in Hx as [-> |Hx]; [left|].
      right. apply elem_of_app. by left.
    + intros x Hx. by apply Hh, B3.
    + done.
    + apply NoDup_app in Hnn as (Hnn & _ & _).
      apply Forall2_same_length_lookup. split; [by eapply Forall2_length|].
      intros j p w Hp Hw. pose proof (Forall2_lookup_lr _ _ _ _ _ _ HF0 Hp Hw) as HS.
      eapply kept_son; [done|done| |].
      * intros E. apply Hrn, elem_of_app. left. by eapply in_nodes_l.
      * intros x Hx Hlast. eapply (snd_not_fst l0 j p x); [done|done|done|].
        apply last_Some in Hlast as [l1 ->]. set_solver.
Qed.

Lemma C50_tree_lem i (v : W) (ops : list (top W)) s :
  tops_fit ops s → ∃ t, foldM top_run ops (tr_new i v) = Ok t ∧ tree_is t s.
Proof.
  induction 1 as [|l s o s' Hl (t & Ht & HT) Hs Hd].
  { eexists. split; [done|]. apply tr_new_is. }
  rewrite foldM_snoc, Ht. simpl.
  destruct Hs as [s i' v'|s f i' v' k x ws Hf Hk|s x k Hf|s x Hf]; simpl.
  - by apply insert_root.
  - by eapply insert_son.
  - destruct (delete_ok t s x HT Hd) as (t' & s' & Ht' & HT' & Hs').
    exists t'. split; [done|]. inversion Hs' as [| | ? ? k' Hf' |? ? Hno]; subst.
    + assert (k' = k) as ->; [|done].
      destruct (Hd _ Hf), (Hd _ Hf'). lia.
    + by destruct (Hno k).
  - destruct (delete_ok t s x HT Hd) as (t' & s' & Ht' & HT' & Hs').
    exists t'. split; [done|]. inversion Hs' as [| | ? ? k' Hf' |? ? Hno]; subst; [|done].
    by destruct (Hf k').
Qed.

(** Which deletions are right. *)
Lemma C50_delete_lem t s (v : nat) :
  tree_is t s →
  ((∃ t' s', tr_delete t v = Ok t' ∧ tree_is t' s') ↔ deletes_last s (TDelete v)) ∧
  (tr_delete t v = Err EUB ↔ ∃ k, first_son s v k ∧ length s ≤ k + 2 ∧ ¬ (0 < k ∧ S k = length s)).
Proof.
  intros HT.
  assert (Hother : ∀ k, first_son s v k → ¬ (0 < k ∧ S k = length s) →
    (length s ≤ k + 2 ∧ tr_delete t v = Err EUB) ∨
    (k + 2 < length s ∧ ∃ t', tr_delete t v = Ok t' ∧ ∀ s', ¬ tree_is t' s')).
  { intros k Hfs Hnl. pose proof HT as (l & Hnd & Hlt & Hh & HB & HF)%tree_is_eq.
    pose proof Hnd as [Hrn Hnn]%NoDup_cons.
    assert (Hlen : length l.*1 < S (tr_next t)).
    { apply Nat.lt_succ_r, nodes_short; [by apply fst_nd|].
      intros z Hz. apply Hlt. right. by apply fst_in_nodes. }
    pose proof (Forall2_length _ _ _ HF) as Hls.
    apply (first_son_idx (tr_heap t) l s v k HF) in Hfs.
    destruct (delete_other (tr_heap t) (tr_root t) l.*1 v k (S (tr_next t)) HB)
      as [[H1 H2]|(H1 & h' & H2 & H3)]; try done.
    - constructor; [|by apply fst_nd]. intros ?. by apply Hrn, fst_in_nodes.
    - by rewrite fmap_length, Hls.
    - left. rewrite fmap_length, Hls in H1. split; [done|]. unfold tr_delete. by rewrite H2.
    - right. rewrite fmap_length, Hls in H1. split; [done|]. unfold tr_delete. rewrite H2. simpl.
      eexists. split; [done|]. intros s' (l' & _ & _ & _ & HB' & _)%tree_is_eq. by eapply H3. }
  assert (Hdec : ∀ k, (0 < k ∧ S k = length s) ∨ ¬ (0 < k ∧ S k = length s)) by (intros k; lia).
  split.
  - split.
    + intros (t' & s' & Ht' & HT'). intros k Hk.
      destruct (Hdec k) as [?|Hn]; [done|]. exfalso.
      destruct (Hother k Hk Hn) as [[_ H1]|(_ & t'' & H1 & H2)]; [congruence|].
      rewrite Ht' in H1. injection H1 as <-. by eapply H2.
    + intros Hd. destruct (delete_ok t s v HT Hd) as (t' & s' & ? & ? & _). by exists t', s'.
  - split.
    + intros HE. pose proof HT as (l & _ & _ & _ & HB & HF)%tree_is_eq.
      destruct (first_idx_dec (tr_heap t) (tr_root t) l.*1 v HB) as [[k Hk]|Hk].
      * apply (first_son_idx (tr_heap t) l s v k HF) in Hk. exists k.
        destruct (Hdec k) as [Hy|Hn].
        -- destruct (delete_ok t s v HT) as (t' & s' & E & _); [|congruence].
           intros k' Hk'. destruct (lt_eq_lt_dec k k') as [[Hl| <-]|Hl]; [|done|].
           ++ exfalso. destruct Hk as [(w & ws & Hw & E) _], Hk' as [_ Hno]. by apply (Hno k w ws).
           ++ exfalso. destruct Hk' as [(w & ws & Hw & E) _], Hk as [_ Hno]. by apply (Hno k' w ws).
        -- destruct (Hother k Hk Hn) as [[H1 _]|(_ & t'' & H1 & _)]; [done|congruence].
      * destruct (delete_ok t s v HT) as (t' & s' & E & _); [|congruence].
        intros k Hfs. apply (first_son_idx (tr_heap t) l s v k HF) in Hfs.
        destruct Hfs as [(x & n & Hx & Hn & E) _]. by destruct (Hk k x n).
    + intros (k & Hk & Hlen & Hn). destruct (Hother k Hk Hn) as [[_ H1]|(H1 & _)]; [done|lia].
Qed.

Lemma C50_lost_lem t s f i v :
  tree_is t s → (∀ k, ¬ first_son s f k) →
  tr_insert t f i v 0 = Err (if decide (s = []) then EUB else EAssert).
Proof. apply insert_lost. Qed.
End tree.
