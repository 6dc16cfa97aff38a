(** * ToolsT: the Python helpers, wall distance, lines and data for drawing (C72, C74, C75) *)

From Verif Require Import Lib Spec NbhP SpecCoarse UtilM WallT ToolsM SpecTools.


(** ** Python sequences *)

Lemma pidx_nat n k : k < n → pidx n (Z.of_nat k) = Some k.
Proof. intros Hk. unfold pidx. rewrite bool_decide_true by lia. by rewrite Nat2Z.id. Qed.
Lemma pget_nat {T} (l : list T) k x : l !! k = Some x → pget l (Z.of_nat k) = POk x.
Proof. intros Hx. unfold pget. rewrite pidx_nat by (by eapply lookup_lt_Some). simpl. by rewrite Hx. Qed.
Lemma pget_out {T} (l : list T) k : l !! k = None → pget l (Z.of_nat k) = PRaise IndexError.
Proof.
  intros Hx. apply lookup_ge_None in Hx. unfold pget, pidx. rewrite !bool_decide_false by lia. done.
Qed.
Lemma pget_zs (l : list nat) k x : l !! k = Some x → pget (zs l) (Z.of_nat k) = POk (Z.of_nat x).
Proof. intros Hx. apply pget_nat. by rewrite list_lookup_fmap, Hx. Qed.
Lemma pget_zs_S (l : list nat) k x : l !! S k = Some x → pget (zs l) (Z.of_nat k + 1)%Z = POk (Z.of_nat x).
Proof. intros Hx. replace (Z.of_nat k + 1)%Z with (Z.of_nat (S k)) by lia. by apply pget_zs. Qed.
Lemma pset_nat {T} (l : list T) k x : k < length l → pset l (Z.of_nat k) x = POk (<[k := x]> l).
Proof. intros Hk. unfold pset. by rewrite pidx_nat. Qed.
Lemma pclip_nat n k : pclip n (Z.of_nat k) = min k n.
Proof. unfold pclip. rewrite bool_decide_false by lia. lia. Qed.
Lemma pslice_nat {T} (l : list T) a b : a ≤ length l → b ≤ length l → pslice l (Z.of_nat a) (Z.of_nat b) = slice l a b.
Proof. intros. unfold pslice. by rewrite !pclip_nat, !Nat.min_l by lia. Qed.
Lemma slice_fmap {T U} (h : T → U) l a b : slice (h <$> l) a b = h <$> slice l a b.
Proof. unfold slice. by rewrite fmap_take, fmap_drop. Qed.

(** ** Wall distance *)

Lemma wall_unfold n idx col wall dist0 : length idx = S n →
  wall_distance idx col wall dist0 =
  (dist ← foldM (λ d c, vset d c 0%Z) wall (map (λ _, (-1)%Z) (resize n 0%Z dist0)); wd_loop (n + length wall) idx col dist wall).
Proof. intros Hl. unfold wall_distance. destruct idx as [|i il]; [done|]. by injection Hl as ->. Qed.
Lemma py_wall_unfold n idx col wall : length idx = S n →
  py_wall_distance idx col wall =
  (dist <~ pfold (λ d c, pset d c 0%Z) wall (replicate n (-1)%Z); dist <~ pw_loop (n + length wall) idx col dist wall;
   match dist with [] => PRaise ValueError | _ => POk dist end).
Proof. intros Hl. unfold py_wall_distance. destruct idx as [|i il]; [done|]. by injection Hl as ->. Qed.

Section wall.
Context (n : nat) (idx col wall : list nat).
Context (Hcsr : csr n idx col) (Hwall : ∀ c, c ∈ wall → c < n).
Notation E := (edge idx col).
Notation wk := (walk E (λ _, True) (λ c, c ∈ wall)).

Lemma idx_le i z : i ≤ n → idx !! i = Some z → z ≤ length col.
Proof using Hcsr.
  assert (∀ k i z, k = n - i → i ≤ n → idx !! i = Some z → z ≤ length col) as Hle; [|intros; by eapply Hle].
  induction k as [|k IH]; clear i z; intros i z Hk Hi Hz.
  - assert (i = n) as -> by lia. rewrite (csr_last _ _ _ Hcsr) in Hz. by simplify_eq.
  - destruct (lookup_lt_is_Some_2 idx (S i)) as [y Hy]; [rewrite (csr_len _ _ _ Hcsr); lia|].
    pose proof (csr_mono _ _ _ Hcsr _ _ _ Hz Hy). transitivity y; [done|]. apply (IH (S i)); [lia|lia|done].
Qed.

(** The neighbours, in both programs. *)
Lemma nbrs_both c : c < n → ∃ a b, idx !! c = Some a ∧ idx !! S c = Some b ∧
  wd_nbrs idx col c = Ok (slice col a b) ∧ pslice (zs col) (Z.of_nat a) (Z.of_nat b) = zs (slice col a b) ∧
  ∀ x, x ∈ slice col a b ↔ E c x.
Proof using Hcsr.
  intros Hc. destruct (lookup_lt_is_Some_2 idx c) as [a Ha]; [rewrite (csr_len _ _ _ Hcsr); lia|].
  destruct (lookup_lt_is_Some_2 idx (S c)) as [b Hb]; [rewrite (csr_len _ _ _ Hcsr); lia|].
  pose proof (csr_mono _ _ _ Hcsr _ _ _ Ha Hb) as Hab. pose proof (idx_le (S c) b ltac:(lia) Hb) as Hbl.
  exists a, b. split_and!; [done|done| | |].
  - unfold wd_nbrs, vget. rewrite Ha, Hb, !bind_ok. rewrite bool_decide_false by lia. unfold vrange. by rewrite decide_True.
  - rewrite pslice_nat by (rewrite fmap_length; lia). apply slice_fmap.
  - intros x. rewrite elem_of_slice. split.
    + intros (k & Hk & Hx). by exists a, b, k.
    + intros (a' & b' & k & Ha' & Hb' & Hk & Hx). simplify_eq. eauto.
Qed.

Notation asg d x := (∃ v, d !! x = Some v ∧ (0 <= v)%Z).

Lemma visit_sim t l : (0 <= t)%Z → ∀ dist q, length dist = n → (∀ c, c ∈ l → c < n) →
  ∃ dist' q', foldM (wd_visit t) l (dist, q) = Ok (dist', q') ∧ pfold (pw_visit t) (zs l) (dist, zs q) = POk (dist', zs q') ∧
    length dist' = n ∧ (∀ c, c ∈ q → c ∈ q') ∧ (∀ c, c ∈ q' → c ∈ q ∨ c ∈ l) ∧ (∀ x, asg dist' x → asg dist x ∨ x ∈ q') ∧
    ∀ x v, dist' !! x = Some v → dist !! x = Some v ∨ v = t.
Proof.
  intros Ht. induction l as [|c l IH]; intros dist q Hl Hn.
  - exists dist, q. simpl. split_and!; try done; by left.
  - destruct (lookup_lt_is_Some_2 dist c) as [d Hd]; [rewrite Hl; apply Hn; left|].
    assert (c < length dist) as Hc by (rewrite Hl; apply Hn; left).
    assert (∃ d1 q1, wd_visit t (dist, q) c = Ok (d1, q1) ∧ pw_visit t (dist, zs q) (Z.of_nat c) = POk (d1, zs q1) ∧
      length d1 = n ∧ (∀ c, c ∈ q → c ∈ q1) ∧ (∀ x, x ∈ q1 → x ∈ q ∨ x = c) ∧ (∀ x, asg d1 x → asg dist x ∨ x ∈ q1) ∧
      ∀ x v, d1 !! x = Some v → dist !! x = Some v ∨ v = t)
      as (d1 & q1 & H1 & H2 & H3 & H4 & H5 & H6 & H7).
    { unfold wd_visit, pw_visit, vget. rewrite Hd, bind_ok, (pget_nat _ _ _ Hd). cbn [pbind].
      assert (vset dist c t = Ok (<[c := t]> dist)) as Hvs by (unfold vset; by rewrite decide_True).
      assert (∀ x, asg (<[c := t]> dist) x → asg dist x ∨ x = c) as Hins.
      { intros x (v & Hv & H0). destruct (decide (x = c)) as [->|]; [by right|]. rewrite list_lookup_insert_ne in Hv by done. left. eauto. }
      assert (∀ x v, <[c := t]> dist !! x = Some v → dist !! x = Some v ∨ v = t) as Hin2.
      { intros x v Hv. destruct (decide (x = c)) as [->|].
        - rewrite list_lookup_insert in Hv by done. right. congruence.
        - rewrite list_lookup_insert_ne in Hv by done. by left. }
      case_bool_decide.
      - rewrite Hvs, bind_ok, pset_nat by done. cbn [pbind]. exists (<[c := t]> dist), (q ++ [c]).
        split_and!; [done|by rewrite fmap_app|by rewrite insert_length| | | |done].
        + intros x Hx. apply elem_of_app. by left.
        + intros x [?|?%elem_of_list_singleton]%elem_of_app; [by left|by right].
        + intros x [?| ->]%Hins; [by left|]. right. apply elem_of_app. right. left.
      - case_bool_decide.
        + rewrite Hvs, bind_ok, pset_nat by done. cbn [pbind]. exists (<[c := t]> dist), q.
          split_and!; [done|done|by rewrite insert_length|done|by left| |done].
          intros x [?| ->]%Hins; [by left|]. left. exists d. split; [done|lia].
        + exists dist, q. split_and!; try done; by left. }
    destruct (IH d1 q1 H3) as (d2 & q2 & G1 & G2 & G3 & G4 & G5 & G6 & G7); [intros x Hx; apply Hn; by right|].
    exists d2, q2. cbn [foldM pfold fmap list_fmap]. rewrite H1, bind_ok, H2. cbn [pbind].
    split_and!; [done|done|done|auto| | |].
    + intros x Hx. destruct (G5 x Hx) as [Hq|Hq]; [|right; by right]. destruct (H5 x Hq) as [?| ->]; [by left|right; left].
    + intros x Hx. destruct (G6 x Hx) as [Hq|Hq]; [|by right]. destruct (H6 x Hq) as [?|?]; [by left|right; auto].
    + intros x v Hv. destruct (G7 x v Hv) as [Hq|?]; [auto|by right].
Qed.

Lemma loop_sim fuel : ∀ dist q, length dist = n → (∀ x v, dist !! x = Some v → (-1 <= v)%Z) → (∀ c, c ∈ q → ∃ k, wk k c) →
  (∃ d, pw_loop fuel (zs idx) (zs col) dist (zs q) = POk d ∧ wd_loop fuel idx col dist q = Ok d ∧
     (∀ c, c ∈ q → ∃ y, E c y) ∧ ∀ x, asg d x → asg dist x ∨ ∃ y, E x y) ∨
  (pw_loop fuel (zs idx) (zs col) dist (zs q) = PRaise ValueError ∧ ∃ c k, wk k c ∧ ∀ y, ¬ E c y) ∨
  (pw_loop fuel (zs idx) (zs col) dist (zs q) = PRaise NoFuel ∧ wd_loop fuel idx col dist q = Err EFuel).
Proof using Hcsr Hwall.
  induction fuel as [|fuel IH]; intros dist [|c q] Hl Hv Hq; cbn [pw_loop wd_loop fmap list_fmap].
  - left. exists dist. split_and!; try done; [intros ? H%elem_of_nil; done|by left].
  - right. right. done.
  - left. exists dist. split_and!; try done; [intros ? H%elem_of_nil; done|by left].
  - destruct (Hq c) as [k Hk]; [left|]. pose proof (wall_walk_lt n idx col wall Hcsr Hwall _ _ Hk) as Hc.
    destruct (lookup_lt_is_Some_2 dist c) as [d Hd]; [lia|].
    destruct (nbrs_both c Hc) as (a & b & Ha & Hb & Hn & Hs & HE).
    unfold vget. rewrite Hd, bind_ok, Hn, bind_ok, (pget_nat _ _ _ Hd), (pget_zs _ _ _ Ha), (pget_zs_S _ _ _ Hb). cbn [pbind].
    rewrite Hs. destruct (slice col a b) as [|y l] eqn:Hsl.
    { right. left. split; [done|]. exists c, k. split; [done|]. intros y Hy. apply HE in Hy. by apply elem_of_nil in Hy. }
    pose proof (Hv _ _ Hd) as Hd1.
    destruct (visit_sim (d + 1) (y :: l) ltac:(lia) dist q Hl) as (d' & q' & H1 & H2 & H3 & H4 & H5 & H6 & H7).
    { intros x Hx%HE. by eapply wall_edge_lt. }
    cbn [fmap list_fmap] in H2 |- *. rewrite H1, bind_ok, H2. cbn [pbind fst snd].
    destruct (IH d' q') as [(df & G1 & G2 & G3 & G4)|[G|G]].
    + done.
    + intros x v Hx. destruct (H7 x v Hx) as [?| ->]; [eauto|lia].
    + intros x Hx. destruct (H5 x Hx) as [?|Hy]; [apply Hq; by right|]. apply HE in Hy. exists (S k). by econstructor.
    + left. exists df. split_and!; [done|done| |].
      * intros x [->|Hx]%elem_of_cons; [|by apply G3, H4]. exists y. apply HE. left.
      * intros x Hx. destruct (G4 x Hx) as [Hx'|?]; [|by right]. destruct (H6 x Hx') as [?|?]; [by left|right; auto].
    + right. left. done.
    + right. right. done.
Qed.

Lemma init_sim d0 : length d0 = n → pfold (λ d c, pset d c 0%Z) (zs wall) d0 = POk (foldl (λ d c, <[c := 0%Z]> d) d0 wall) ∧
  foldM (λ d c, vset d c 0%Z) wall d0 = Ok (foldl (λ d c, <[c := 0%Z]> d) d0 wall).
Proof using Hwall.
  clear Hcsr. revert d0. induction wall as [|c w IH]; intros d0 Hl; [done|]. cbn [pfold foldM fmap list_fmap foldl].
  assert (c < length d0) as Hc by (rewrite Hl; apply Hwall; left). rewrite pset_nat by done.
  assert (vset d0 c 0%Z = Ok (<[c := 0%Z]> d0)) as -> by (unfold vset; by rewrite decide_True). cbn [pbind]. rewrite bind_ok. apply IH; [intros x Hx; apply Hwall; by right|by rewrite insert_length].
Qed.
Lemma init_val (d0 : list Z) x v : foldl (λ d c, <[c := 0%Z]> d) d0 wall !! x = Some v → (v = 0%Z ∧ x ∈ wall) ∨ d0 !! x = Some v.
Proof.
  clear Hcsr Hwall. revert d0. induction wall as [|c w IH]; intros d0; simpl; [by right|]. intros Hx.
  destruct (IH _ Hx) as [[-> ?]|Hd]; [left; split; [done|by right]|].
  destruct (decide (x = c)) as [->|Hne].
  - destruct (decide (c < length d0)).
    + rewrite list_lookup_insert in Hd by done. simplify_eq. left. split; [done|left].
    + rewrite list_insert_ge in Hd by lia. by right.
  - rewrite list_lookup_insert_ne in Hd by done. by right.
Qed.
Lemma init_len (d0 : list Z) : length (foldl (λ d c, <[c := 0%Z]> d) d0 wall) = length d0.
Proof. clear. revert d0. induction wall as [|c w IH]; intros d0; simpl; [done|]. by rewrite IH, insert_length. Qed.

Lemma py_wall_sim : 0 < n → ∃ d, wall_distance idx col wall [] = Ok d ∧
  ((py_wall_distance (zs idx) (zs col) (zs wall) = POk d ∧ ∀ x k, wk k x → ∃ y, E x y) ∨
   (py_wall_distance (zs idx) (zs col) (zs wall) = PRaise ValueError ∧ ∃ c k, wk k c ∧ ∀ y, ¬ E c y)).
Proof using Hcsr Hwall.
  intros Hn. destruct (C19_lem n idx col wall [] Hcsr Hwall) as (d & Hd & Hdl & Hdv). exists d. split; [done|].
  pose proof (csr_len _ _ _ Hcsr) as Hil. rewrite (wall_unfold n) in Hd by done.
  rewrite (py_wall_unfold n) by (by rewrite fmap_length). rewrite !fmap_length.
  assert (map (λ _, (-1)%Z) (resize n 0%Z []) = replicate n (-1)%Z) as Hm.
  { rewrite resize_nil. clear. induction n as [|k IH]; [done|]. simpl. by rewrite IH. }
  rewrite Hm in Hd. destruct (init_sim (replicate n (-1)%Z)) as [H1 H2]; [by rewrite replicate_length|].
  rewrite H2, bind_ok in Hd. rewrite H1. cbn [pbind].
  set (d1 := foldl _ _ wall) in *.
  destruct (loop_sim (n + length wall) d1 wall) as [(df & G1 & G2 & G3 & G4)|[[G1 G2]|[G1 G2]]].
  - unfold d1. by rewrite init_len, replicate_length.
  - intros x v Hx. apply init_val in Hx as [[-> _]|Hx]; [lia|]. apply lookup_replicate in Hx as [-> _]. lia.
  - intros c Hc. exists 0. by constructor.
  - left. rewrite G2 in Hd. injection Hd as ->. rewrite G1. cbn [pbind]. split; [destruct d; [simpl in Hdl; lia|done]|].
    intros x k Hk. pose proof (wall_walk_lt n idx col wall Hcsr Hwall _ _ Hk) as Hx.
    destruct (lookup_lt_is_Some_2 d x) as [v Hv]; [lia|].
    assert (asg d x) as Ha.
    { exists v. split; [done|]. destruct (Hdv x v Hv) as [[_ Hno]|(j & -> & _)]; [by destruct (Hno k)|lia]. }
    destruct (G4 x Ha) as [(v' & Hv' & Hp)|?]; [|done]. apply init_val in Hv' as [[_ ?]|Hv']; [by apply G3|].
    apply lookup_replicate in Hv' as [-> _]. lia.
  - right. rewrite G1. done.
  - rewrite G2 in Hd. done.
Qed.
End wall.

(** C72 *)
Lemma C72_lem (n : nat) (idx col wall : list nat) : csr n idx col → (∀ c, c ∈ wall → c < n) → 0 < n →
  (∀ x k, walk (edge idx col) (λ _, True) (λ c, c ∈ wall) k x → ∃ y, edge idx col x y) →
  ∃ d, py_wall_distance (zs idx) (zs col) (zs wall) = POk d ∧ length d = n ∧
    (∀ dist0, wall_distance idx col wall dist0 = Ok d) ∧
    ∀ x v, d !! x = Some v →
      (v = (-1)%Z ∧ ∀ k, ¬ walk (edge idx col) (λ _, True) (λ c, c ∈ wall) k x) ∨
      ∃ k, v = Z.of_nat k ∧ at_dist (edge idx col) (λ _, True) (λ c, c ∈ wall) k x.
Proof.
  intros HC HW Hn Hnb. destruct (py_wall_sim n idx col wall HC HW Hn) as (d & Hd & [[Hp _]|[_ (c & k & Hk & Hno)]]).
  - exists d. destruct (C19_lem n idx col wall [] HC HW) as (d' & Hd' & Hl & Hv). rewrite Hd' in Hd. injection Hd as ->.
    split_and!; [done|done| |done]. intros dist0. rewrite <- Hd'. rewrite !(wall_unfold n) by apply HC.
    assert (∀ l : list Z, map (λ _, (-1)%Z) l = replicate (length l) (-1)%Z) as Hm.
    { induction l as [|x l IH]; [done|]. simpl. by rewrite IH. }
    rewrite !Hm, !resize_length. done.
  - destruct (Hnb c k Hk) as [y Hy]. by destruct (Hno y).
Qed.
Lemma C72_raise_lem (n : nat) (idx col wall : list nat) x k : csr n idx col → (∀ c, c ∈ wall → c < n) →
  walk (edge idx col) (λ _, True) (λ c, c ∈ wall) k x → (∀ y, ¬ edge idx col x y) →
  py_wall_distance (zs idx) (zs col) (zs wall) = PRaise ValueError.
Proof.
  intros HC HW Hk Hno. pose proof (wall_walk_lt n idx col wall HC HW _ _ Hk) as Hx.
  destruct (py_wall_sim n idx col wall HC HW) as (d & Hd & [[_ Hp]|[Hp _]]); [lia| |done].
  destruct (Hp x k Hk) as [y Hy]. by destruct (Hno y).
Qed.
