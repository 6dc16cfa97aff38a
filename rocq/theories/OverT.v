(** * OverT: bounded integers in the tools of Util.h (C54) *)

From Verif Require Import Lib Spec SpecCoarse NbhP WallT UtilM UtilC.

Section wall.
Context (n : nat) (idx col wall : list nat).
Context (Hcsr : csr n idx col) (Hwall : ∀ c, c ∈ wall → c < n).
Notation E := (edge idx col).
Notation dist_is := (at_dist E (λ _, True) (λ c, c ∈ wall)).

Lemma dist_pred k y : dist_is (S k) y → ∃ x, dist_is k x.
Proof using.
  intros [Hw Hm]. inversion Hw as [|k' x ? Hx He _]; subst. exists x. split; [done|]. intros j Hj.
  assert (S k ≤ S j); [|lia]. apply Hm. by eapply walk_S.
Qed.
Lemma dist_below j k y : dist_is k y → j ≤ k → ∃ x, dist_is j x.
Proof using.
  revert y. induction k as [|k IH]; intros y Hy Hj.
  - assert (j = 0) as -> by lia. eauto.
  - destruct (decide (j = S k)) as [->|]; [eauto|]. destruct (dist_pred k y Hy) as [x Hx]. apply (IH x Hx). lia.
Qed.
Lemma dist_lt k y : dist_is k y → k < n.
Proof using Hcsr Hwall.
  intros Hy. assert (∃ l, length l = S k ∧ ∀ j c, l !! j = Some c → dist_is j c) as (l & Hl & Hd).
  { revert y Hy. induction k as [|k IH]; intros y Hy.
    - exists [y]. split; [done|]. intros [|j] c Hc; simplify_eq/=; done.
    - destruct (dist_pred k y Hy) as [x Hx]. destruct (IH x Hx) as (l & Hl & Hd). exists (l ++ [y]).
      split; [rewrite app_length; simpl; lia|]. intros j c Hc. apply lookup_app_Some in Hc as [Hc|[Hj Hc]]; [by apply Hd|].
      apply list_lookup_singleton_Some in Hc as [Hc <-]. replace j with (S k) by lia. done. }
  assert (NoDup l) as Hnd.
  { apply NoDup_alt. intros a b c Ha Hb. by eapply at_dist_inj; apply Hd. }
  assert (l ⊆+ seq 0 n) as Hs.
  { apply NoDup_submseteq; [done|]. intros c [j Hc]%elem_of_list_lookup. apply elem_of_seq.
    destruct (Hd j c Hc) as [Hw _]. split; [lia|]. simpl. by eapply wall_walk_lt. }
  apply submseteq_length in Hs. rewrite seq_length in Hs. lia.
Qed.

Section loop.
Context (top : nat).

Lemma loop_same fuel k d q1 q2 : (∀ x, ¬ dist_is top x) → wd_inv n idx col wall k d q1 q2 →
  wd_loop_c (Z.of_nat top) fuel idx col d (q1 ++ q2) = wd_loop fuel idx col d (q1 ++ q2).
Proof using Hcsr Hwall.
  intros Hno. revert k d q1 q2. induction fuel as [|fuel IH]; intros k d q1 q2 HI; [by destruct (q1 ++ q2)|].
  assert (∀ k d c q1 q2, wd_inv n idx col wall k d (c :: q1) q2 →
    wd_loop_c (Z.of_nat top) (S fuel) idx col d ((c :: q1) ++ q2) = wd_loop (S fuel) idx col d ((c :: q1) ++ q2)) as Hstep.
  { clear k d q1 q2 HI. intros k d c q1 q2 HI. simpl.
    assert (d !! c = Some (Z.of_nat k)) as Hc by (apply (wi_q1 _ _ _ _ _ _ _ _ HI); by left).
    destruct (wi_val _ _ _ _ _ _ _ _ HI _ _ Hc) as [?|(j & ? & Hw & _)]; [lia|].
    assert (j = k) as -> by lia.
    unfold vget. rewrite Hc. simpl.
    assert (k < top) as Hk.
    { destruct (decide (top ≤ k)) as [Hle|]; [|lia]. destruct (dist_below _ _ _ Hw Hle) as [x Hx]. by destruct (Hno x). }
    rewrite bool_decide_true by lia. simpl.
    pose proof (wd_nbrs_ok n idx col Hcsr c (wall_walk_lt n idx col wall Hcsr Hwall k c (proj1 Hw))) as Hn.
    destruct (wd_nbrs idx col c) as [l|]; [|done]. simpl in Hn |- *.
    pose proof (wd_visit_ok n idx col wall Hcsr Hwall k c q1 l d q2 Hn (proj1 Hw) HI) as Hv.
    destruct (foldM _ l _) as [[d' q']|]; [|done]. simpl in Hv |- *. destruct Hv as (q2' & -> & HI' & _).
    by eapply IH. }
  destruct q1 as [|c q1]; [|by eapply Hstep]. destruct q2 as [|c q2]; [done|].
  apply (wi_shift n idx col wall) in HI; [|done..]. pose proof (Hstep (S k) d c q2 [] HI) as Hs. by rewrite app_nil_r in Hs.
Qed.

(** If the increment never fails, all the distances are below the bound. *)
Definition low (d : list Z) (q : list nat) : Prop :=
  ∀ x v, d !! x = Some v → (0 <= v)%Z → x ∈ q ∨ (v + 1 <= Z.of_nat top)%Z.
Lemma visit_low cur st m st' : (0 <= cur)%Z → low st.1 st.2 → wd_visit cur st m = Ok st' → low st'.1 st'.2.
Proof using.
  clear Hcsr Hwall. intros Hcur HL. destruct st as [d q], st' as [d' q']. simpl in *. intros He.
  apply bind_Ok_inv in He as (v & Hv & He). unfold vget in Hv. destruct (d !! m) as [v'|] eqn:Hm; [|done]. simplify_eq.
  case_bool_decide as H1.
  - apply bind_Ok_inv in He as (d1 & Hd & He). unfold vset in Hd. case_decide; [|done]. simplify_eq.
    intros x u Hx Hu. destruct (decide (x = m)) as [->|Hne]; [left; set_solver|].
    rewrite list_lookup_insert_ne in Hx by done. destruct (HL x u Hx Hu) as [?|?]; [left; set_solver|by right].
  - case_bool_decide as H2; [|by simplify_eq].
    apply bind_Ok_inv in He as (d1 & Hd & He). unfold vset in Hd. case_decide; [|done]. simplify_eq.
    intros x u Hx Hu. destruct (decide (x = m)) as [->|Hne].
    + rewrite list_lookup_insert in Hx by done. simplify_eq. destruct (HL m v Hm ltac:(lia)) as [?|?]; [by left|right; lia].
    + rewrite list_lookup_insert_ne in Hx by done. by apply HL.
Qed.
Lemma loop_low fuel d q d' : low d q → (∀ x, x ∈ q → ∃ v, d !! x = Some v ∧ (0 <= v)%Z) →
  wd_loop_c (Z.of_nat top) fuel idx col d q = Ok d' → low d' [].
Proof using.
  clear Hcsr Hwall. revert d q. induction fuel as [|fuel IH]; intros d q HL Hq He; (destruct q as [|c q]; [simpl in He; by simplify_eq|]); [done|].
  simpl in He. apply bind_Ok_inv in He as (v & Hv & He). unfold vget in Hv. destruct (d !! c) as [v'|] eqn:Hc; [|done]. simplify_eq.
  assert (0 <= v)%Z as Hv0. { destruct (Hq c ltac:(left)) as (u & Hu & ?). by simplify_eq. }
  case_bool_decide as Ht; [|done]. simpl in He.
  apply bind_Ok_inv in He as (l & _ & He). apply bind_Ok_inv in He as ([d1 q1] & Hf & He). simpl in He.
  assert (low d1 q1 ∧ ∀ x, x ∈ q1 → ∃ v, d1 !! x = Some v ∧ (0 <= v)%Z) as [L1 Q1]; [|by apply (IH d1 q1)].
  assert (low d q) as HL0.
  { intros x u Hx Hu. destruct (HL x u Hx Hu) as [Hin|?]; [|by right]. apply elem_of_cons in Hin as [->|?]; [|by left].
    simplify_eq. by right. }
  assert (∀ x, x ∈ q → ∃ v, d !! x = Some v ∧ (0 <= v)%Z) as HQ0 by (intros x Hx; apply Hq; by right).
  clear He IH HL Hq Hc. revert d q HL0 HQ0 Hf. induction l as [|m l IHl]; intros d q HL0 HQ0 Hf; simpl in Hf; [by simplify_eq|].
  apply bind_Ok_inv in Hf as ([d2 q2] & Hm & Hf). apply (IHl d2 q2); [..|done].
  - apply (visit_low (v + 1)%Z (d, q) m (d2, q2)); [lia|done|done].
  - intros x Hx. unfold wd_visit in Hm. apply bind_Ok_inv in Hm as (u & Hu & Hm).
    unfold vget in Hu. destruct (d !! m) as [u'|] eqn:Hdm; [|done]. simplify_eq.
    case_bool_decide; [|case_bool_decide].
    + apply bind_Ok_inv in Hm as (d3 & Hd & Hm). unfold vset in Hd. case_decide; [|done]. simplify_eq.
      destruct (decide (x = m)) as [->|Hne]; [rewrite list_lookup_insert by done; eexists; split; [done|lia]|].
      rewrite list_lookup_insert_ne by done. apply HQ0. set_solver.
    + apply bind_Ok_inv in Hm as (d3 & Hd & Hm). unfold vset in Hd. case_decide; [|done]. simplify_eq.
      destruct (decide (x = m)) as [->|Hne]; [rewrite list_lookup_insert by done; eexists; split; [done|lia]|].
      rewrite list_lookup_insert_ne by done. by apply HQ0.
    + simplify_eq. by apply HQ0.
Qed.
Lemma loop_either fuel d q : wd_loop_c (Z.of_nat top) fuel idx col d q = wd_loop fuel idx col d q ∨
  wd_loop_c (Z.of_nat top) fuel idx col d q = Err EUB.
Proof using.
  clear Hcsr Hwall. revert d q. induction fuel as [|fuel IH]; intros d q; (destruct q as [|c q]; [by left|]); [by left|]. simpl.
  destruct (vget d c) as [v|]; simpl; [|by left]. case_bool_decide; simpl; [|by right].
  destruct (wd_nbrs idx col c); simpl; [|by left]. destruct (foldM _ _ _); simpl; [|by left]. apply IH.
Qed.

(** The state at the beginning. *)
Lemma start_inv dist0 : wp (foldM (λ d c, vset d c 0%Z) wall (map (λ _, (-1)%Z) (resize n 0%Z dist0))) (λ d,
  wd_inv n idx col wall 0 d wall [] ∧ low d wall ∧ ∀ x, x ∈ wall → ∃ v, d !! x = Some v ∧ (0 <= v)%Z).
Proof using Hwall. clear Hcsr.
  eapply wp_mono; [apply (wp_foldM _ (λ pre d, length d = n ∧
    ∀ x, x < n → d !! x = Some (if decide (x ∈ pre) then 0 else -1)%Z))|].
  - rewrite map_length, resize_length. split; [done|]. intros x Hx. rewrite decide_False by apply not_elem_of_nil.
    change (((λ _ : Z, (-1)%Z) <$> resize n 0%Z dist0) !! x = Some (-1)%Z). rewrite list_lookup_fmap.
    destruct (lookup_lt_is_Some_2 (resize n 0%Z dist0) x) as [u ->]; [by rewrite resize_length|done].
  - intros pre c post d Heq [Hd Hx]. assert (c < n). { apply Hwall. rewrite Heq. set_solver. }
    apply wp_vset; [lia|]. rewrite insert_length. split; [done|]. intros x Hlt.
    destruct (decide (x = c)) as [->|Hne].
    + rewrite list_lookup_insert by lia. by rewrite decide_True by set_solver.
    + rewrite list_lookup_insert_ne by done. rewrite Hx by done.
      destruct (decide (x ∈ pre)); [rewrite decide_True by set_solver|rewrite decide_False by set_solver]; done.
  - intros d [Hd Hx].
    assert (∀ x v, d !! x = Some v → v = (if decide (x ∈ wall) then 0 else -1)%Z) as Hx'.
    { intros x v Hv. rewrite Hx in Hv; [by simplify_eq|]. rewrite <- Hd. by eapply lookup_lt_Some. }
    split; [split; [done|..]|split].
    + intros x v Hv%Hx'. subst v. destruct (decide (x ∈ wall)) as [Hw|]; [|by left]. right. exists 0.
      split_and!; [done| |lia]. split; [by constructor|lia].
    + intros x Hxw. rewrite Hx by by apply Hwall. by rewrite decide_True.
    + intros x. split; [intros Hn; by apply elem_of_nil in Hn|]. intros Hv%Hx'. destruct (decide _); lia.
    + intros x j Hw Hj. assert (j = 0) as -> by lia. inversion Hw; subst. exists 0%Z. split; [|lia].
      rewrite Hx by by apply Hwall. by rewrite decide_True.
    + intros x Hw. right. inversion Hw as [|k y ? Hy He _]; subst. inversion Hy; subst. eauto.
    + intros x v Hv%Hx' H0. left. destruct (decide (x ∈ wall)); [done|lia].
    + intros x Hxw. exists 0%Z. split; [|lia]. rewrite Hx by by apply Hwall. by rewrite decide_True.
Qed.
End loop.
End wall.

Lemma C54_wall_lem n idx col wall dist0 top : csr n idx col → (∀ c, c ∈ wall → c < n) →
  ((∃ x, at_dist (edge idx col) (λ _, True) (λ c, c ∈ wall) top x) →
     wall_distance_c (Z.of_nat top) idx col wall dist0 = Err EUB) ∧
  ((∀ x, ¬ at_dist (edge idx col) (λ _, True) (λ c, c ∈ wall) top x) →
     wall_distance_c (Z.of_nat top) idx col wall dist0 = wall_distance idx col wall dist0) ∧
  (n ≤ top → wall_distance_c (Z.of_nat top) idx col wall dist0 = wall_distance idx col wall dist0).
Proof.
  intros HC HW. destruct (C19_lem n idx col wall dist0 HC HW) as (d & He & Hl & Hd).
  pose proof (csr_len _ _ _ HC) as Hlen.
  assert ((∀ x, ¬ at_dist (edge idx col) (λ _, True) (λ c, c ∈ wall) top x) →
     wall_distance_c (Z.of_nat top) idx col wall dist0 = wall_distance idx col wall dist0) as Hsame.
  { intros Hno. clear He Hl Hd. pose proof (start_inv n idx col wall HW top dist0) as HS.
    unfold wall_distance_c, wall_distance. destruct idx as [|z idx'] eqn:Hidx; [done|]. rewrite <- Hidx in *.
    replace (length idx') with n by (rewrite Hidx in Hlen; simpl in Hlen; lia).
    destruct (foldM _ _ _) as [d0|]; [|done]. simpl in HS |- *. destruct HS as [HI _].
    pose proof (loop_same n idx col wall HC HW top (n + length wall) 0 d0 wall [] Hno HI) as HL. by rewrite app_nil_r in HL. }
  split; [|split; [done|]].
  - intros [x Hx].
    assert (d !! x = Some (Z.of_nat top)) as Hxt.
    { destruct (lookup_lt_is_Some_2 d x) as [v Hv]; [rewrite Hl; by eapply wall_walk_lt, (proj1 Hx)|].
      rewrite Hv. destruct (Hd x v Hv) as [[_ Hn]|(k & -> & Hk)]; [by destruct (Hn _ (proj1 Hx))|].
      by rewrite (at_dist_inj _ _ _ _ _ _ Hk Hx). }
    pose proof (start_inv n idx col wall HW top dist0) as HS.
    unfold wall_distance_c, wall_distance in *. destruct idx as [|z idx'] eqn:Hidx; [done|]. rewrite <- Hidx in *.
    replace (length idx') with n in * by (rewrite Hidx in Hlen; simpl in Hlen; lia).
    destruct (foldM _ _ _) as [d0|]; [|done]. simpl in HS, He |- *. destruct HS as (_ & HL & HQ).
    destruct (loop_either idx col top (n + length wall) d0 wall) as [E|E]; [|done].
    rewrite He in E. pose proof (loop_low idx col top _ _ _ _ HL HQ E x _ Hxt ltac:(lia)) as [Hin|Hin]; [by apply elem_of_nil in Hin|lia].
  - intros Hn. apply Hsame. intros x Hx. pose proof (dist_lt n idx col wall HC HW _ _ Hx). lia.
Qed.

Lemma to_int_fits z : (-2147483648 <= z <= 2147483647)%Z → to_int z = z.
Proof. intros Hz. unfold to_int. rewrite Z.mod_small by lia. lia. Qed.
Lemma C54_filter_lem idx bnd allowed :
  (∀ c v, n_edges idx bnd c v → (-2147483648 <= v <= 2147483647)%Z) →
  filter_cells_c idx bnd allowed = filter_cells idx bnd allowed.
Proof.
  intros Hf. unfold filter_cells_c, filter_cells. destruct (filter _ allowed) as [|w0 l0]; [done|].
  apply foldM_ext. intros c acc Hc. unfold vget.
  destruct (idx !! S c) as [z|] eqn:Hz; simpl; [|done]. destruct (idx !! c) as [a|] eqn:Ha; simpl; [|done].
  destruct (bnd !! c) as [b|] eqn:Hb; simpl; [|done]. rewrite to_int_fits; [done|]. apply (Hf c). by exists a, z, b.
Qed.
