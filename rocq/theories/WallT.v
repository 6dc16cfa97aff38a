(** * WallT: the wall distance (C19) *)

From Verif Require Import Lib Spec NbhP UtilM.

Section wall.
Context (n : nat) (idx col wall : list nat).
Context (Hcsr : csr n idx col) (Hwall : ∀ c, c ∈ wall → c < n).

Notation E := (edge idx col).
Notation wk := (walk E (λ _, True) (λ c, c ∈ wall)).
Notation dist_is := (at_dist E (λ _, True) (λ c, c ∈ wall)).

Lemma wd_nbrs_ok c : c < n → wp (wd_nbrs idx col c) (λ l, ∀ x, x ∈ l ↔ E c x).
Proof.
  intros Hc. unfold wd_nbrs.
  wstep. apply wp_vget; [rewrite (csr_len _ _ _ Hcsr); lia|]. intros a Ha.
  wstep. apply wp_vget; [rewrite (csr_len _ _ _ Hcsr); lia|]. intros b Hb.
  assert (a ≤ b) as Hab by by eapply (csr_mono _ _ _ Hcsr).
  rewrite bool_decide_false by lia.
  assert (∀ k i z, k = n - i → i ≤ n → idx !! i = Some z → z ≤ length col) as Hle.
  { induction k as [|k IH]; intros i z Hk Hi Hz.
    - assert (i = n) as -> by lia. rewrite (csr_last _ _ _ Hcsr) in Hz. by simplify_eq.
    - destruct (lookup_lt_is_Some_2 idx (S i)) as [y Hy]; [rewrite (csr_len _ _ _ Hcsr); lia|].
      pose proof (csr_mono _ _ _ Hcsr _ _ _ Hz Hy). specialize (IH (S i) y). lia || (transitivity y; [done|]; apply IH; [lia|lia|done]). }
  assert (b ≤ length col) as Hbl by (eapply (Hle _ (S c)); [done|lia|done]).
  unfold vrange. rewrite decide_True by done. simpl. intros x. rewrite elem_of_slice. split.
  - intros (k & Hk & Hx). exists a, b, k. done.
  - intros (a' & b' & k & Ha' & Hb' & Hk & Hx). simplify_eq. eauto.
Qed.
Lemma wall_edge_lt x y : E x y → y < n.
Proof. intros (a & b & k & _ & _ & _ & Hk). by eapply (csr_col _ _ _ Hcsr). Qed.
Lemma wall_walk_lt k x : wk k x → x < n.
Proof. inversion 1; subst; [by apply Hwall|by eapply wall_edge_lt]. Qed.

Notation asg d x := (∃ v, d !! x = Some v ∧ (0 <= v)%Z).
Record wd_inv (k : nat) (d : list Z) (q1 q2 : list nat) : Prop := {
  wi_len : length d = n;
  wi_val : ∀ x v, d !! x = Some v → v = (-1)%Z ∨ ∃ j, v = Z.of_nat j ∧ dist_is j x ∧ j ≤ S k;
  wi_q1 : ∀ x, x ∈ q1 → d !! x = Some (Z.of_nat k);
  wi_q2 : ∀ x, x ∈ q2 ↔ d !! x = Some (Z.of_nat (S k));
  wi_lo : ∀ x j, wk j x → j ≤ k → asg d x;
  wi_hi : ∀ x, wk (S k) x → asg d x ∨ ∃ y, y ∈ q1 ∧ E y x;
}.
(** Cells not reached yet. *)
Definition unreached (d : list Z) : nat := length (filter (λ v, v < 0)%Z d).
Lemma unreached_insert d x v : d !! x = Some (-1)%Z → (0 <= v)%Z →
  unreached d = S (unreached (<[x := v]> d)).
Proof.
  intros Hx Hv. unfold unreached. revert x Hx. induction d as [|u d IH]; intros [|x] Hx; simpl in *; [done..| |].
  - simplify_eq. rewrite !filter_cons. rewrite decide_True by lia. rewrite decide_False by lia. done.
  - rewrite !filter_cons. destruct (decide _); simpl; by rewrite (IH x Hx).
Qed.

Lemma wi_shift k d q2 : wd_inv k d [] q2 → wd_inv (S k) d q2 [].
Proof.
  intros [Hl Hv H1 H2 Hlo Hhi].
  assert (∀ x j, wk j x → j ≤ S k → asg d x) as Hlo'.
  { intros x j Hw Hj. destruct (decide (j = S k)) as [->|]; [|eapply Hlo; [done|lia]].
    destruct (Hhi x Hw) as [?|(y & Hy & _)]; [done|]. by apply elem_of_nil in Hy. }
  split; [done|..].
  - intros x v Hx. destruct (Hv x v Hx) as [?|(j & ? & ? & ?)]; [by left|]. right. exists j. split_and!; [done..|lia].
  - intros x. apply H2.
  - intros x. split; [intros Hx; by apply elem_of_nil in Hx|]. intros Hx.
    destruct (Hv _ _ Hx) as [?|(j & ? & _ & ?)]; lia.
  - done.
  - intros x Hw. inversion Hw as [|k' y ? Hy He _]; subst.
    destruct (Hlo' y (S k) Hy ltac:(lia)) as (v & Hyv & Hv0).
    destruct (Hv _ _ Hyv) as [?|(j & -> & [Hj _] & Hjk)]; [lia|].
    destruct (decide (j = S k)) as [->|].
    + right. exists y. split; [by apply H2|done].
    + left. apply (Hlo' x (S j)); [by eapply walk_S|lia].
Qed.

Lemma wd_visit_ok k c q1 l d q2 : (∀ x, x ∈ l ↔ E c x) → wk k c →
  wd_inv k d (c :: q1) q2 →
  wp (foldM (wd_visit (Z.of_nat k + 1)) l (d, q1 ++ q2)) (λ r, ∃ q2',
    r.2 = q1 ++ q2' ∧ wd_inv k r.1 q1 q2' ∧ length q2' + unreached r.1 = length q2 + unreached d).
Proof.
  intros Hl Hc HI.
  eapply wp_mono; [apply (wp_foldM _ (λ pre r, ∃ q2', r.2 = q1 ++ q2' ∧ wd_inv k r.1 (c :: q1) q2' ∧
    (∀ x, x ∈ pre → asg r.1 x) ∧ length q2' + unreached r.1 = length q2 + unreached d))|].
  - exists q2. split_and!; [done..| |done]. intros x Hx. by apply elem_of_nil in Hx.
  - intros pre y post [d' q'] Heq (q2' & Hq & HI' & Hpre & Hm). simpl in *. subst q'.
    assert (E c y) as Hcy. { apply Hl. rewrite Heq. set_solver. }
    assert (wk (S k) y) as Hwy by by eapply walk_S.
    unfold wd_visit. wstep. apply wp_vget; [rewrite (wi_len _ _ _ _ HI'); by eapply wall_edge_lt|].
    intros v Hy. case_bool_decide as Hv.
    + destruct (wi_val _ _ _ _ HI' _ _ Hy) as [->|(j & -> & _)]; [|lia].
      wstep. apply wp_vset; [by eapply lookup_lt_Some|].
      replace (Z.of_nat k + 1)%Z with (Z.of_nat (S k)) by lia.
      assert (∀ x, d' !! x ≠ Some (-1)%Z → <[y := Z.of_nat (S k)]> d' !! x = d' !! x) as Hold.
      { intros x Hx. destruct (decide (x = y)) as [->|]; [done|]. by rewrite list_lookup_insert_ne. }
      assert (∀ x, asg d' x → asg (<[y := Z.of_nat (S k)]> d') x) as Hasg.
      { intros x (u & Hu & ?). exists u. rewrite Hold; [done|]. rewrite Hu. intros [= ->]. lia. }
      assert (<[y := Z.of_nat (S k)]> d' !! y = Some (Z.of_nat (S k))) as Hnew.
      { apply list_lookup_insert. by eapply lookup_lt_Some. }
      exists (q2' ++ [y]). simpl. split_and!.
      * by rewrite app_assoc.
      * split.
        -- rewrite insert_length. apply HI'.
        -- intros x u Hx. destruct (decide (x = y)) as [->|Hne].
           ++ rewrite Hnew in Hx. simplify_eq. right. exists (S k). split_and!; [done| |done].
              split; [done|]. intros k' Hk'. destruct (decide (S k ≤ k')); [done|].
              destruct (wi_lo _ _ _ _ HI' y k' Hk' ltac:(lia)) as (u & Hu & ?). simplify_eq. lia.
           ++ rewrite list_lookup_insert_ne in Hx by done. by apply (wi_val _ _ _ _ HI').
        -- intros x Hx. apply (wi_q1 _ _ _ _ HI') in Hx. rewrite Hold; [done|]. rewrite Hx. intros [= ?]. lia.
        -- intros x. rewrite elem_of_app, elem_of_list_singleton, (wi_q2 _ _ _ _ HI').
           destruct (decide (x = y)) as [->|Hne].
           ++ rewrite Hnew. naive_solver.
           ++ rewrite list_lookup_insert_ne by done. naive_solver.
        -- intros x j Hx Hj. apply Hasg. by eapply (wi_lo _ _ _ _ HI').
        -- intros x Hx. destruct (wi_hi _ _ _ _ HI' x Hx) as [?|?]; [left; by apply Hasg|by right].
      * intros x Hx. apply elem_of_app in Hx as [Hx|Hx%elem_of_list_singleton]; [by apply Hasg, Hpre|].
        subst x. eexists. split; [done|lia].
      * rewrite app_length. simpl. rewrite (unreached_insert d' y (Z.of_nat (S k))) in Hm by (done || lia). lia.
    + destruct (wi_val _ _ _ _ HI' _ _ Hy) as [->|(j & -> & [_ Hj] & _)]; [lia|].
      specialize (Hj _ Hwy). rewrite bool_decide_false by lia. simpl.
      exists q2'. split_and!; [done..| |done]. intros x Hx.
      apply elem_of_app in Hx as [Hx|Hx%elem_of_list_singleton]; [by apply Hpre|]. subst x. eexists. split; [done|lia].
  - intros [d' q'] (q2' & Hq & HI' & Hpre & Hm). simpl in *. subst q'. exists q2'. split_and!; [done| |done]. simpl in *.
    split; try apply HI'.
    + intros x Hx. apply (wi_q1 _ _ _ _ HI'). by right.
    + intros x Hx. destruct (wi_hi _ _ _ _ HI' x Hx) as [?|(y & Hy & He)]; [by left|].
      apply elem_of_cons in Hy as [->|Hy]; [left; by apply Hpre, Hl|right; eauto].
Qed.

Definition wd_post (d : list Z) : Prop := length d = n ∧
  ∀ x v, d !! x = Some v →
    (v = (-1)%Z ∧ ∀ k, ¬ wk k x) ∨ ∃ k, v = Z.of_nat k ∧ dist_is k x.

Lemma wd_end k d : wd_inv k d [] [] → wd_post d.
Proof.
  intros [Hl Hv H1 H2 Hlo Hhi]. split; [done|].
  assert (∀ j x, wk j x → asg d x) as Hall.
  { induction j as [|j IH]; intros x Hw; [by apply (Hlo x 0 Hw); lia|].
    inversion Hw as [|k' y ? Hy He _]; subst. destruct (IH _ Hy) as (v & Hyv & ?).
    destruct (Hv _ _ Hyv) as [?|(i & -> & [Hi _] & Hik)]; [lia|].
    destruct (decide (i = S k)) as [->|]; [by apply H2, elem_of_nil in Hyv|].
    assert (wk (S i) x) as Hwx by by eapply walk_S.
    destruct (decide (i = k)) as [->|]; [|apply (Hlo x (S i)); [done|lia]].
    destruct (Hhi x Hwx) as [?|(z & Hz & _)]; [done|]. by apply elem_of_nil in Hz. }
  intros x v Hx. destruct (Hv _ _ Hx) as [->|(j & -> & ? & _)]; [|right; eauto].
  left. split; [done|]. intros j Hj. destruct (Hall _ _ Hj) as (u & Hu & ?). simplify_eq. lia.
Qed.

Lemma wd_loop_ok fuel k d q1 q2 : wd_inv k d q1 q2 →
  length q1 + length q2 + unreached d ≤ fuel →
  wp (wd_loop fuel idx col d (q1 ++ q2)) wd_post.
Proof.
  revert k d q1 q2. induction fuel as [|fuel IH]; intros k d q1 q2 HI Hf.
  - destruct q1, q2; simpl in Hf; try lia. simpl. by eapply wd_end.
  - assert (∀ k d c q1 q2, wd_inv k d (c :: q1) q2 → length (c :: q1) + length q2 + unreached d ≤ S fuel →
      wp (wd_loop (S fuel) idx col d ((c :: q1) ++ q2)) wd_post) as Hstep.
    { clear k d q1 q2 HI Hf. intros k d c q1 q2 HI Hf. simpl.
      assert (d !! c = Some (Z.of_nat k)) as Hc by (apply (wi_q1 _ _ _ _ HI); by left).
      destruct (wi_val _ _ _ _ HI _ _ Hc) as [?|(j & ? & [Hw _] & _)]; [lia|].
      assert (j = k) as -> by lia.
      wstep. unfold vget. rewrite Hc. simpl.
      wstep. eapply wp_mono; [apply wd_nbrs_ok; by eapply wall_walk_lt|]. intros l Hl.
      wstep. eapply wp_mono; [by eapply wd_visit_ok|]. intros [d' q'] (q2' & Hq & HI' & Hm). simpl in *. subst q'.
      eapply IH; [done|]. lia. }
    destruct q1 as [|c q1]; [|by eapply Hstep].
    destruct q2 as [|c q2]; [by eapply wd_end|].
    apply wi_shift in HI. pose proof (Hstep (S k) d c q2 [] HI) as Hs. rewrite app_nil_r in Hs. apply Hs. simpl in *. lia.
Qed.

Lemma wall_distance_ok dist0 : wp (wall_distance idx col wall dist0) wd_post.
Proof.
  unfold wall_distance. pose proof (csr_len _ _ _ Hcsr) as Hlen.
  destruct idx as [|z idx'] eqn:Hidx; [done|]. rewrite <- Hidx in *.
  replace (length idx') with n by (rewrite Hidx in Hlen; simpl in Hlen; lia). wstep.
  eapply wp_mono; [apply (wp_foldM _ (λ pre d, length d = n ∧
    ∀ x, x < n → d !! x = Some (if decide (x ∈ pre) then 0 else -1)%Z))|].
  - rewrite map_length, resize_length. split; [done|]. intros x Hx. rewrite decide_False by apply not_elem_of_nil.
    change (((λ _ : Z, (-1)%Z) <$> resize n 0%Z dist0) !! x = Some (-1)%Z). rewrite list_lookup_fmap.
    destruct (lookup_lt_is_Some_2 (resize n 0%Z dist0) x) as [u ->]; [by rewrite resize_length|done].
  - intros pre c post d Heq [Hd Hx]. assert (c < n). { apply Hwall. rewrite Heq. set_solver. }
    apply wp_vset; [lia|]. rewrite insert_length. split; [done|]. intros x Hlt.
    destruct (decide (x = c)) as [->|Hne].
    + rewrite list_lookup_insert by lia. by rewrite decide_True by set_solver.
    + rewrite list_lookup_insert_ne by done. rewrite Hx by done.
      destruct (decide (x ∈ pre)); [rewrite decide_True by set_solver|rewrite decide_False by set_solver]; done.
  - intros d [Hd Hx]. rewrite <- (app_nil_r wall) at 2.
    assert (∀ x v, d !! x = Some v → v = (if decide (x ∈ wall) then 0 else -1)%Z) as Hx'.
    { intros x v Hv. rewrite Hx in Hv; [by simplify_eq|]. rewrite <- Hd. by eapply lookup_lt_Some. }
    apply (wd_loop_ok _ 0).
    + split; [done|..].
      * intros x v Hv%Hx'. subst v. destruct (decide (x ∈ wall)) as [Hw|]; [|by left]. right. exists 0.
        split_and!; [done| |lia]. split; [by constructor|lia].
      * intros x Hxw. rewrite Hx by by apply Hwall. by rewrite decide_True.
      * intros x. split; [intros Hn; by apply elem_of_nil in Hn|]. intros Hv%Hx'. destruct (decide _); lia.
      * intros x j Hw Hj. assert (j = 0) as -> by lia. inversion Hw; subst. exists 0%Z. split; [|lia].
        rewrite Hx by by apply Hwall. by rewrite decide_True.
      * intros x Hw. right. inversion Hw as [|k y ? Hy He _]; subst. inversion Hy; subst. eauto.
    + simpl. unfold unreached. pose proof (filter_length (λ v, v < 0)%Z d). lia.
Qed.

End wall.

(** C19, distances from the wall. *)
Lemma C19_lem n idx col wall dist0 : csr n idx col → (∀ c, c ∈ wall → c < n) →
  ∃ d, wall_distance idx col wall dist0 = Ok d ∧ length d = n ∧
    ∀ x v, d !! x = Some v →
      (v = (-1)%Z ∧ ∀ k, ¬ walk (edge idx col) (λ _, True) (λ c, c ∈ wall) k x) ∨
      ∃ k, v = Z.of_nat k ∧ at_dist (edge idx col) (λ _, True) (λ c, c ∈ wall) k x.
Proof.
  intros HC HW. pose proof (wall_distance_ok n idx col wall HC HW dist0) as Hw.
  apply wp_eq in Hw as (d & He & Hl & Hd). eauto.
Qed.

(** Paths to the wall: there is a walk of [k] steps from [x] to [y]. *)
Lemma walk_sym (E : nat → nat → Prop) (P : nat → Prop) k x :
  (∀ a b, E a b → E b a) →
  walk E (λ _, True) P k x → ∃ w, P w ∧ walk E (λ _, True) (λ z, z = x) k w.
Proof.
  intros Hs. assert (∀ k a b c j, walk E (λ _, True) (λ z, z = a) k b → walk E (λ _, True) (λ z, z = c) j a →
    walk E (λ _, True) (λ z, z = c) (k + j) b) as Hcat.
  { clear k x. induction k as [|k IH]; intros a b c j Hw Hj; inversion Hw as [? Hb|? y ? Hy He _]; subst; [done|].
    simpl. eapply walk_S; [by eapply IH|done..]. }
  revert x. induction k as [|k IH]; intros x Hw; inversion Hw as [? Hb|? y ? Hy He _]; subst.
  - exists x. split; [done|by constructor].
  - destruct (IH y Hy) as (w & Hw' & Hk). exists w. split; [done|].
    replace (S k) with (k + 1) by lia. eapply Hcat; [done|]. eapply walk_S; [by constructor|by apply Hs|done].
Qed.
Lemma C19_sym_lem n idx col wall dist0 : csr n idx col → csr_sym idx col → (∀ c, c ∈ wall → c < n) →
  ∃ d, wall_distance idx col wall dist0 = Ok d ∧ length d = n ∧
    ∀ x v, d !! x = Some v →
      let path_to_wall k := ∃ w, w ∈ wall ∧ walk (edge idx col) (λ _, True) (λ z, z = x) k w in
      (v = (-1)%Z ∧ ∀ k, ¬ path_to_wall k) ∨
      ∃ k, v = Z.of_nat k ∧ path_to_wall k ∧ ∀ k', path_to_wall k' → k ≤ k'.
Proof.
  intros HC HS HW. destruct (C19_lem n idx col wall dist0 HC HW) as (d & He & Hl & Hd).
  exists d. split_and!; [done..|]. intros x v Hv p.
  assert (∀ k, p k ↔ walk (edge idx col) (λ _, True) (λ c, c ∈ wall) k x) as Hp.
  { intros k. split; [|by apply walk_sym]. intros (w & Hw & Hk).
    apply walk_sym in Hk as (x' & -> & Hk); [|done]. clear -Hw Hk. revert x Hk.
    induction k as [|k IH]; intros x Hk; inversion Hk as [? Hb|? y ? Hy Hey _]; subst; [by constructor|].
    eapply walk_S; [by apply IH|done..]. }
  destruct (Hd x v Hv) as [[-> Hn]|(k & -> & Hk & Hm)].
  - left. split; [done|]. intros k Hk%Hp. by apply (Hn k).
  - right. exists k. split_and!; [done|by apply Hp|]. intros k' Hk'%Hp. by apply Hm.
Qed.
