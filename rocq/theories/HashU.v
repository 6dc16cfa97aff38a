(** * HashU: each function of the call under two iteration orders (C26) *)

From Verif Require Import Lib Spec SpecHash Main HashT.

Ltac ms := repeat first
  [ apply le_refl
  | match goal with
    | |- le_ok (mbind _ _) (mbind _ _) => apply le_bind; [|intros ? _]
    | |- le_ok (if ?b then _ else _) (if ?b then _ else _) => destruct b
    | |- le_ok (match ?x with _ => _ end) (match ?x with _ => _ end) => destruct x
    end ].

Ltac inv1 H := repeat (let x := fresh "u" in let E := fresh "E" in apply bind_Ok_inv in H as (x & E & H));
  try (injection H as H; try subst).

Section hash.
Context {A : Arith} (H1 H2 : HashOrder).
Implicit Types g : graph.

(** ** Graph *)

Lemma fc_compactness_h g s : le_ok (@fc_compactness A H1 g s) (@fc_compactness A H2 g s).
Proof using.
  clear. unfold fc_compactness. case_bool_decide; [apply le_refl|]. case_bool_decide as Hs.
  - rewrite (hset_small H1 H2) by lia. apply le_refl.
  - apply le_hset. intros d x y b1 b2 _ _ Hxy E1 E2. inv1 E1. inv1 E2. eexists. rewrite E0. simpl. split; [done|].
    rewrite E. simpl. f_equal. by apply insert_commute.
Qed.
Lemma map_min_h d : le_ok (@map_min H1 d) (@map_min H2 d).
Proof using.
  clear. unfold map_min. apply le_bind; [|intros; apply le_refl].
  apply le_hkeys. intros b x y b1 b2 _ _ Hxy E1 E2. inv1 E1. inv1 E2. eexists. rewrite E0. simpl. split; [done|].
  rewrite E. simpl. f_equal. destruct b as [b|]; simpl; repeat (case_bool_decide; simpl); try done; try (f_equal; lia); lia.
Qed.
Lemma min_compactness_h g s : le_ok (@min_compactness A H1 g s) (@min_compactness A H2 g s).
Proof using.
  clear. unfold min_compactness. case_bool_decide; [|apply le_refl].
  apply le_bind; [apply fc_compactness_h|]. intros d _. case_bool_decide; [apply le_refl|apply map_min_h].
Qed.

(** A loop which adds to a set. *)
Lemma set_loop {V} (e : nat → res V) (c : V → nat → bool) l (acc r : gset nat) :
  foldM (λ acc n, v ← e n; Ok (if c v n then {[n]} ∪ acc else acc)) l acc = Ok r →
  ∃ S, r = S ∪ acc ∧ ∀ acc', foldM (λ acc n, v ← e n; Ok (if c v n then {[n]} ∪ acc else acc)) l acc' = Ok (S ∪ acc').
Proof using.
  clear. revert acc r. induction l as [|x l IH]; intros acc r Hr.
  - injection Hr as <-. exists ∅. split; [by rewrite (left_id_L ∅ (∪))|]. intros. by rewrite (left_id_L ∅ (∪)).
  - simpl in Hr. destruct (e x) as [v|] eqn:Ev; [|done]. simpl in Hr.
    apply IH in Hr as (S & -> & HS). exists (if c v x then S ∪ {[x]} else S). split.
    + destruct (c v x); [by rewrite union_assoc_L|done].
    + intros acc'. simpl. rewrite Ev. simpl. rewrite HS. destruct (c v x); [by rewrite union_assoc_L|done].
Qed.
Lemma neighbourhood_of_cc_h g s aggl :
  le_ok (@neighbourhood_of_cc A H1 g s aggl) (@neighbourhood_of_cc A H2 g s aggl).
Proof using.
  clear. unfold neighbourhood_of_cc. apply le_hset. intros acc x y b1 b2 _ _ Hxy E1 E2. inv1 E1. inv1 E2.
  pose (e := λ n : nat, vget aggl n). pose (c := λ (b : bool) (n : nat), negb b && bool_decide (n ∉ s)).
  destruct (set_loop e c _ _ _ E1) as (S1 & -> & HS1). destruct (set_loop e c _ _ _ E2) as (S2 & -> & HS2).
  exists (S2 ∪ acc). rewrite E0, E. simpl. split; [apply HS2|]. etransitivity; [apply HS1|].
  f_equal. rewrite !union_assoc_L. by rewrite (union_comm_L S1).
Qed.

Lemma gmap_const (z : Z) (S : gset nat) k : gset_to_gmap z S !! k = if decide (k ∈ S) then Some z else None.
Proof using.
  clear. rewrite lookup_gset_to_gmap. destruct (decide _); [by rewrite option_guard_True|by rewrite option_guard_False].
Qed.
(** A loop which gives the same value to new keys. *)
Definition layer_step (e : nat → res bool) (z : Z) (d : gmap nat Z) (n : nat) : res (gmap nat Z) :=
  b ← e n; Ok (if b : bool then (if bool_decide (d !! n = None) then <[n := z]> d else d) else d).
Lemma layer_loop (e : nat → res bool) (z : Z) l (d r : gmap nat Z) :
  foldM (layer_step e z) l d = Ok r →
  ∃ S : gset nat, r = d ∪ gset_to_gmap z S ∧
    ∀ d', foldM (layer_step e z) l d'
      = Ok (d' ∪ gset_to_gmap z S).
Proof using.
  clear. assert (∀ (d : gmap nat Z) n (S : gset nat), (if bool_decide (d !! n = None) then <[n := z]> d else d) ∪ gset_to_gmap z S
      = d ∪ gset_to_gmap z ({[n]} ∪ S)) as Hstep.
  { intros d' n S. apply map_eq. intros k. rewrite !lookup_union, !gmap_const.
    destruct (decide (k = n)) as [-> |Hk].
    - rewrite (decide_True (P := n ∈ {[n]} ∪ S)) by set_solver. case_bool_decide as Hd.
      + rewrite lookup_insert, Hd. by destruct (decide _).
      + destruct (d' !! n); [|done]. by destruct (decide _).
    - replace ((if bool_decide (d' !! n = None) then <[n:=z]> d' else d') !! k) with (d' !! k)
        by (case_bool_decide; [by rewrite lookup_insert_ne|done]).
      f_equal. destruct (decide (k ∈ S)); destruct (decide (k ∈ {[n]} ∪ S)); try done; set_solver. }
  revert d r. induction l as [|x l IH]; intros d r Hr.
  - injection Hr as <-. exists ∅. rewrite gset_to_gmap_empty. split; [by rewrite (right_id_L ∅ (∪))|]. intros. simpl. by rewrite (right_id_L ∅ (∪)).
  - simpl in Hr. unfold layer_step at 2 in Hr. destruct (e x) as [b|] eqn:Ev; [|done]. simpl in Hr.
    apply IH in Hr as (S & -> & HS). exists (if b then {[x]} ∪ S else S). split.
    + destruct b; [by rewrite Hstep|done].
    + intros d'. simpl. unfold layer_step at 2. rewrite Ev. simpl. rewrite HS. destruct b; [by rewrite Hstep|done].
Qed.
Lemma next_layer_h g aggl dn dm iord :
  le_ok (@next_layer A H1 g aggl dn dm iord) (@next_layer A H2 g aggl dn dm iord).
Proof using.
  clear. unfold next_layer. apply le_hkeys.
  pose (e := λ n : nat, if bool_decide (dn !! n = None) then b ← vget aggl n;
     Ok (negb b && match dm !! n with Some o => bool_decide (iord < o)%Z | None => true end) else Ok false).
  assert (∀ l (d : gmap nat Z), foldM (λ d n,
      if bool_decide (dn !! n = None) then
        b ← vget aggl n;
        if negb b && bool_decide (d !! n = None) then
          match dm !! n with
          | Some o => if bool_decide (iord < o)%Z then Ok (<[n := iord]> d) else Ok d
          | None => Ok (<[n := iord]> d)
          end
        else Ok d
      else Ok d) l d
    = foldM (layer_step e iord) l d) as Heq.
  { intros l d. apply foldM_ext. intros n d' _. unfold layer_step, e. case_bool_decide; [|done].
    destruct (vget aggl n) as [b|]; [|done]. simpl. destruct b; simpl; [done|].
    destruct (dm !! n) as [o|]; [|by case_bool_decide]. destruct (bool_decide (iord < o)%Z), (bool_decide (d' !! n = None)); done. }
  intros d x y b1 b2 _ _ Hxy E1 E2. inv1 E1. inv1 E2. rewrite Heq in E1, E2.
  destruct (layer_loop e _ _ _ _ E1) as (S1 & -> & HS1). destruct (layer_loop e _ _ _ _ E2) as (S2 & -> & HS2).
  eexists. rewrite E0, E. simpl. rewrite !Heq. split; [apply HS2|]. rewrite HS1. f_equal.
  rewrite <- !(assoc_L (∪)). f_equal. apply map_eq. intros k. rewrite !lookup_union, !gmap_const.
  by destruct (decide (k ∈ S1)), (decide (k ∈ S2)).
Qed.
Lemma nbh_loop_h fuel g aggl no mc dn dm iord :
  le_ok (@nbh_loop A H1 fuel g aggl no mc dn dm iord) (@nbh_loop A H2 fuel g aggl no mc dn dm iord).
Proof using.
  clear. revert dn dm iord. induction fuel as [|fuel IH]; intros dn dm iord; [apply le_refl|]. cbn [nbh_loop].
  destruct (_ || _); [|apply le_refl]. apply le_bind; [apply next_layer_h|]. intros d _.
  case_bool_decide; [apply le_refl|apply IH].
Qed.
Lemma foldr_delete_h (m : gmap nat Z) l k : l ≡ₚ k → foldr delete m l = foldr delete m k.
Proof using.
  clear. induction 1 as [|x l k _ IH|x y l|l k j _ IH1 _ IH2]; simpl; [done|by rewrite IH|apply delete_commute|congruence].
Qed.
Lemma compute_neighbourhood_h g s no mc aggl :
  le_ok (@compute_neighbourhood_of_cc A H1 g s no mc aggl) (@compute_neighbourhood_of_cc A H2 g s no mc aggl).
Proof using.
  clear. unfold compute_neighbourhood_of_cc. apply le_bind; [apply le_refl|]. intros _ _.
  apply le_bind; [apply nbh_loop_h|]. intros [[dn dm] io] _.
  rewrite (foldr_delete_h _ _ _ (hset_12 H1 H2 s_seeds s)). apply le_refl.
Qed.

(** ** Features *)

(** The aspect ratios which compare distances. *)
Definition uses_dist (k : ar_kind) : bool :=
  match k with
  | DiamOverRadius _ | DiamOverMinEdge | Diameter | MaxBaryOverRadius _ | MaxOverMinBary => true
  | _ => false
  end.
Definition total : Prop := dist_order A.
Lemma sqd_acc_dist ds a b d : sqd_acc (sq_sum ds) a b = Ok d → ∃ ds', d = sq_sum ds'.
Proof using.
  clear. revert ds b. induction a as [|x a IH]; intros ds b; [intros [= <-]; by eexists|]. destruct b as [|y b]; [done|].
  simpl. intros E. apply (IH (ds ++ [wsub x y]) b). by rewrite <- E; unfold sq_sum; rewrite foldl_app.
Qed.
Lemma sqdist_dist a b d : sqdist a b = Ok d → is_dist d ∧ is_dist (wsqrt d).
Proof using. clear. intros E. destruct (sqd_acc_dist [] a b d E) as [ds ->]. split; exists ds; auto. Qed.

Lemma approx_features_h g i f cc : total → le_ok (@approx_features A H1 g i f cc) (@approx_features A H2 g i f cc).
Proof using.
  intros [IR TR TO]. unfold approx_features. apply le_bind; [apply le_refl|]. intros c _.
  apply le_hset. intros [md me] x y b1 b2 _ _ Hxy E1 E2. inv1 E1. inv1 E2. eexists. rewrite E1, bind_ok, E3, bind_ok. split; [done|]. cbv beta iota.
  rewrite E, bind_ok, E0, bind_ok. do 2 f_equal; [apply (wmax_swap _ IR TR TO)|apply (wmin_swap _ IR TR TO)]; by eapply sqdist_dist.
Qed.
Lemma update_basic_h cw uf g i f cc : le_ok (@update_basic A H1 cw uf g i f cc) (@update_basic A H2 cw uf g i f cc).
Proof using.
  clear. unfold update_basic. apply le_bind; [apply le_refl|]. intros v _. apply le_bind; [apply le_refl|]. intros [sw sf] _.
  apply le_bind; [apply le_refl|]. intros ei _. apply le_bind; [|intros; apply le_refl].
  destruct uf; [|apply le_refl]. apply le_bind; [|intros; apply le_refl].
  apply le_hset. intros m x y b1 b2 _ _ Hxy E1 E2. inv1 E1. inv1 E2. unfold mapat in *.
  rewrite lookup_insert_ne in E0 by done. eexists. rewrite E0. simpl. split; [done|].
  rewrite lookup_insert_ne by done. rewrite E. simpl. f_equal. by apply insert_commute.
Qed.
Lemma max_bary_h g i cc bary : total → le_ok (@max_bary A H1 g i cc bary) (@max_bary A H2 g i cc bary).
Proof using.
  intros [IR TR TO]. unfold max_bary. apply le_bind; [apply le_refl|]. intros c _. apply le_bind; [apply le_refl|]. intros d _.
  apply le_hset. intros m x y b1 b2 _ _ Hxy E1 E2. inv1 E1. inv1 E2. eexists. rewrite E1, bind_ok, E3, bind_ok. split; [done|].
  rewrite E, bind_ok, E0, bind_ok. f_equal. apply (wmax_swap _ IR TR TO); by eapply sqdist_dist.
Qed.
Lemma minmax_bary_h g i cc bary m : total → le_ok (@minmax_bary A H1 g i cc bary m) (@minmax_bary A H2 g i cc bary m).
Proof using.
  intros [IR TR TO]. unfold minmax_bary. destruct (map_idx m i) as [v m']. apply le_bind; [apply le_refl|]. intros init _.
  apply le_hset. intros [mm m0] x y b1 b2 _ _ Hxy E1 E2.
  pose (idx := λ (m : gmap nat Z) k, match m !! k with Some _ => m | None => <[k := 0%Z]> m end).
  pose (val := λ (m : gmap nat Z) k, match m !! k with Some v => v | None => 0%Z end).
  assert (∀ m k, map_idx m k = (val m k, idx m k)) as Hidx.
  { intros m1 k. unfold map_idx, val, idx. by destruct (m1 !! k). }
  assert (∀ m, val (idx m x) y = val m y) as Hxy1.
  { intros m1. unfold val, idx. destruct (m1 !! x); [done|]. by rewrite lookup_insert_ne. }
  assert (∀ m, val (idx m y) x = val m x) as Hyx1.
  { intros m1. unfold val, idx. destruct (m1 !! y); [done|]. by rewrite lookup_insert_ne. }
  assert (∀ m, idx (idx m x) y = idx (idx m y) x) as Hcom.
  { intros m1. unfold idx. destruct (m1 !! x) eqn:Ex, (m1 !! y) eqn:Ey; rewrite ?Ex, ?Ey; try done.
    - by rewrite lookup_insert_ne, Ex.
    - by rewrite lookup_insert_ne, Ey.
    - rewrite !lookup_insert_ne by done. rewrite Ex, Ey. by apply insert_commute. }
  rewrite Hidx in E1. 
  case_bool_decide as Hvx; inv1 E1; rewrite Hidx, Hxy1 in E2; case_bool_decide as Hvy; inv1 E2.
  - exists (minmax_step mm (wsqrt u2), idx m0 y). rewrite !Hidx, (bool_decide_true _ Hvy), E1, bind_ok, E3, bind_ok. split; [done|]. cbv beta iota.
    rewrite Hyx1, (bool_decide_true _ Hvx), E, bind_ok, E0, bind_ok. do 2 f_equal; [apply (minmax_swap _ IR TR TO); by eapply sqdist_dist|done].
  - exists (mm, idx m0 y). rewrite !Hidx, (bool_decide_false _ Hvy). split; [done|]. cbv beta iota.
    rewrite Hyx1, (bool_decide_true _ Hvx), E, bind_ok, E0, bind_ok. by rewrite Hcom.
  - exists (minmax_step mm (wsqrt u0), idx m0 y). rewrite !Hidx, (bool_decide_true _ Hvy), E, bind_ok, E0, bind_ok. split; [done|]. cbv beta iota.
    rewrite Hyx1, (bool_decide_false _ Hvx). by rewrite Hcom.
  - exists (mm, idx m0 y). rewrite !Hidx, (bool_decide_false _ Hvy). split; [done|]. cbv beta iota.
    rewrite Hyx1, (bool_decide_false _ Hvx). by rewrite Hcom.
Qed.
Lemma compute_features_h k g i f cc : (uses_dist k = true → total) →
  le_ok (@compute_features A H1 k g i f cc) (@compute_features A H2 k g i f cc).
Proof using.
  intros HT. destruct k; simpl in HT; unfold compute_features;
    (apply le_bind; [apply update_basic_h|intros ? _]); ms; auto using approx_features_h, max_bary_h, minmax_bary_h.
Qed.
End hash.
