(** * UseT: priorities matter only by their order (C52) *)

From Verif Require Import Lib PairsP Spec Main SpecUse.

(** ** Two runs *)
Inductive both {X Y} (R : X → Y → Prop) : res X → res Y → Prop :=
  | both_ok x y : R x y → both R (Ok x) (Ok y)
  | both_err e : both R (Err e) (Err e).

Lemma both_bind {X X' Y Y'} (R : X → X' → Prop) (S : Y → Y' → Prop) a b f g :
  both R a b → (∀ x y, R x y → both S (f x) (g y)) → both S (x ← a; f x) (y ← b; g y).
Proof. intros [x y Hxy|e] Hfg; simpl; [by apply Hfg|constructor]. Qed.
Lemma both_foldM {X Y Y'} (R : Y → Y' → Prop) (f : Y → X → res Y) (g : Y' → X → res Y') l b c :
  R b c → (∀ b c a, a ∈ l → R b c → both R (f b a) (g c a)) → both R (foldM f l b) (foldM g l c).
Proof.
  revert b c. induction l as [|a l IH]; intros b c Hbc Hfg; [by constructor|]. simpl.
  eapply both_bind; [apply Hfg; [left|done]|]. intros b' c' Hb'. apply IH; [done|]. intros. apply Hfg; [by right|done].
Qed.
Lemma both_foldM2 {X X' Y Y'} (P : X → X' → Prop) (R : Y → Y' → Prop) (f : Y → X → res Y) (g : Y' → X' → res Y') l k b c :
  Forall2 P l k → R b c → (∀ b c x y, P x y → R b c → both R (f b x) (g c y)) → both R (foldM f l b) (foldM g k c).
Proof.
  intros HF. revert b c. induction HF as [|x y l k Hxy HF IH]; intros b c Hbc Hfg; [by constructor|]. simpl.
  eapply both_bind; [by apply Hfg|]. intros b' c' Hb'. by apply IH.
Qed.
Lemma both_eq {X} (a b : res X) : both eq a b → a = b.
Proof. by intros [x y ->|]. Qed.
Lemma both_refl {X} (a : res X) : both eq a a.
Proof. destruct a; by constructor. Qed.
Lemma foldM_ext_eq {X Y} (f g : Y → X → res Y) l b : (∀ b a, f b a = g b a) → foldM f l b = foldM g l b.
Proof.
  intros Hfg. revert b. induction l as [|a l IH]; intros b; [done|]. simpl. rewrite Hfg. destruct (g b a); simpl; [apply IH|done].
Qed.

Section use.
Context {A : Arith} {H : HashOrder}.
Context (prio prio' : list W) (SO : same_order prio prio').

Definition cw (p q : nat * W) : Prop := p.1 = q.1 ∧ prio !! p.1 = Some p.2 ∧ prio' !! q.1 = Some q.2.
Notation rset := (Forall2 cw).

Lemma cw_gt p q p' q' : cw p p' → cw q q' → pair_gt p' q' = pair_gt p q.
Proof using SO.
  intros (E1 & P1 & P1') (E2 & P2 & P2'). unfold pair_gt. rewrite <- E1 in P1'. rewrite <- E2 in P2'.
  destruct (so_cmp _ _ SO _ _ _ _ _ _ P1 P2 P1' P2') as [-> _].
  destruct (so_cmp _ _ SO _ _ _ _ _ _ P2 P1 P2' P1') as [-> _]. by rewrite E1, E2.
Qed.
Lemma cw_insert p p' l l' : cw p p' → rset l l' → rset (pset_insert p l) (pset_insert p' l').
Proof using SO.
  intros Hp HF. induction HF as [|q q' l l' Hq HF IH]; simpl; [by constructor; [|constructor]|].
  rewrite (cw_gt _ _ _ _ Hp Hq), (cw_gt _ _ _ _ Hq Hp). destruct (pair_gt p q); [constructor; [done|by constructor]|].
  destruct (pair_gt q p); by constructor.
Qed.
Lemma cw_insert_all ps ps' l l' : rset ps ps' → rset l l' → rset (pset_insert_all ps l) (pset_insert_all ps' l').
Proof using SO.
  intros HP. unfold pset_insert_all. revert l l'. induction HP as [|p p' ps ps' Hp HP IH]; intros l l' HF; simpl; [done|].
  apply IH. by apply cw_insert.
Qed.
Lemma cw_fst l l' : rset l l' → map fst l' = map fst l.
Proof. induction 1 as [|p p' l l' (E & _) HF IH]; simpl; [done|]. by rewrite E, IH. Qed.
Lemma cw_vget x : both (λ w w', cw (x, w) (x, w')) (vget prio x) (vget prio' x).
Proof using SO.
  unfold vget. destruct (prio !! x) as [w|] eqn:E.
  - destruct (lookup_lt_is_Some_2 prio' x) as [w' E']; [rewrite (so_len _ _ SO); by eapply lookup_lt_Some|].
    rewrite E'. by constructor.
  - apply lookup_ge_None in E. rewrite <- (so_len _ _ SO) in E. apply lookup_ge_None in E. rewrite E. constructor.
Qed.
Lemma cw_put x s s' : rset s s' → both rset (w ← vget prio x; Ok (pset_insert (x, w) s)) (w ← vget prio' x; Ok (pset_insert (x, w) s')).
Proof using SO. intros Hs. eapply both_bind; [apply cw_vget|]. intros w w' Hw. constructor. by apply cw_insert. Qed.

(** ** Seeds *)
Lemma build_queue_use bnd aggl p t : build_queue prio' bnd aggl p t = build_queue prio bnd aggl p t.
Proof using SO.
  symmetry. apply both_eq. unfold build_queue. eapply (both_bind rset).
  - apply both_foldM; [constructor|]. intros b c a _ Hbc. eapply (both_bind eq); [apply both_refl|]. intros bb ? <-.
    destruct bb; [by constructor|]. eapply (both_bind eq); [apply both_refl|]. intros n ? <-.
    case_bool_decide; [by apply cw_put|by constructor].
  - intros s s' Hs. pose proof (cw_fst _ _ Hs) as E. destruct Hs; [apply both_refl|]. rewrite E. apply both_refl.
Qed.
Lemma full_init_use bnd mb : full_init prio' bnd mb = full_init prio bnd mb.
Proof using SO.
  symmetry. apply both_eq. unfold full_init. eapply (both_bind rset).
  - apply both_foldM; [constructor|]. intros b c a _ Hbc. eapply (both_bind eq); [apply both_refl|]. intros n ? <-.
    case_bool_decide; [by apply cw_put|by constructor].
  - intros s s' Hs. rewrite (cw_fst _ _ Hs). apply both_refl.
Qed.
Lemma one_point_use bnd mb : same_floor prio prio' → one_point_init prio' bnd mb = one_point_init prio bnd mb.
Proof using SO.
  intros SF. symmetry. apply both_eq. unfold one_point_init.
  set (R := λ p q : nat * W, cw p q ∨ p = (length bnd, wminv) ∧ q = (length bnd, wminv)).
  eapply (both_bind R).
  - apply both_foldM; [by right|]. intros b c a _ Hbc. eapply both_bind; [apply cw_vget|]. intros w w' Hw.
    eapply (both_bind eq); [apply both_refl|]. intros n ? <-. constructor. case_bool_decide; simpl; [|done].
    assert (pair_gt (a, w') c = pair_gt (a, w) b) as ->.
    { destruct Hbc as [Hbc|[-> ->]]; [by apply cw_gt|]. unfold pair_gt. simpl. destruct Hw as (_ & E & E').
      simpl in *. destruct (SF _ _ _ E E') as [-> ->]. done. }
    destruct (pair_gt (a, w) b); [by left|done].
  - intros s s' [(E & _)|[-> ->]]; [|apply both_refl]. rewrite E. apply both_refl.
Qed.
Lemma pool_initialize_use bnd p : (sp_one p = true → same_floor prio prio') → pool_initialize prio' bnd p = pool_initialize prio bnd p.
Proof using SO.
  intros SF. unfold pool_initialize. destruct (match sp_top p with Some t => Ok t | None => max_bnd bnd end) as [t|]; simpl; [|done].
  destruct (vgetZ (sp_q p) t); simpl; [|done]. rewrite full_init_use. destruct (sp_one p); [|done].
  by rewrite one_point_use by (by apply SF).
Qed.
Lemma choose_rebuild_use bnd aggl p t : choose_rebuild prio' bnd aggl p t = choose_rebuild prio bnd aggl p t.
Proof using SO.
  unfold choose_rebuild. destruct (get_highest bnd aggl t) as [[cq|]|]; simpl; [|done|done].
  destruct (spoil_level _ _ _) as [r|]; simpl; [|done]. destruct (r.1); [done|]. by rewrite build_queue_use.
Qed.
Lemma choose_new_seed_use bnd aggl p : choose_new_seed prio' bnd aggl p = choose_new_seed prio bnd aggl p.
Proof using SO.
  unfold choose_new_seed. destruct (sp_top p) as [t|]; [|done]. destruct (if sp_bp p then _ else _) as [r|]; simpl; [|done].
  destruct (r.1); [done|]. apply choose_rebuild_use.
Qed.
Definition ent (e f : Z * list (nat * W)) : Prop := e.1 = f.1 ∧ rset e.2 f.2.
Lemma bymap_use k p q m m' : cw p q → Forall2 ent m m' → Forall2 ent (bymap_insert k p m) (bymap_insert k q m').
Proof using SO.
  intros Hp HF. assert (rset [p] [q]) as H1 by (constructor; [done|constructor]).
  induction HF as [|[a s] [a' s'] m m' [Ea Es] HF IH]; simpl in *; [by constructor; [|constructor]|]. subst a'.
  assert (Forall2 ent ((a, s) :: m) ((a, s') :: m')) as HF' by (by constructor).
  case_bool_decide; [by constructor|]. case_bool_decide; [by constructor|].
  constructor; [|done]. split; [done|]. by apply cw_insert.
Qed.
Lemma order_new_seeds_use bnd p new : order_new_seeds_and_update prio' bnd p new = order_new_seeds_and_update prio bnd p new.
Proof using SO.
  symmetry. apply both_eq. unfold order_new_seeds_and_update. eapply (both_bind (Forall2 ent)).
  - unfold by_bnd. apply both_foldM; [constructor|]. intros b c a _ Hbc. eapply (both_bind eq); [apply both_refl|]. intros n ? <-.
    eapply both_bind; [apply cw_vget|]. intros w w' Hw. constructor. by apply bymap_use.
  - intros m m' HF.
    assert ((if sp_bp p then match m with [] => p | (mb, _) :: _ => match sp_top p with
               Some t => if bool_decide (t < mb)%Z then set_top p (Some mb) else p | None => set_top p (Some mb) end end else p)
      = if sp_bp p then match m' with [] => p | (mb, _) :: _ => match sp_top p with
               Some t => if bool_decide (t < mb)%Z then set_top p (Some mb) else p | None => set_top p (Some mb) end end else p) as ->.
    { destruct (sp_bp p); [|done]. destruct HF as [|[a s] [a' s'] ? ? [Ea _] _]; [done|]. simpl in Ea. by subst. }
    eapply (both_bind eq); [|intros ? ? <-; apply both_refl].
    eapply (both_foldM2 ent); [exact HF|done|]. intros b ? [a s] [a' s'] [Ea Es] <-. simpl in *. subst a'.
    rewrite (cw_fst _ _ Es). apply both_refl.
Qed.

(** ** Neighbourhoods *)
Definition rnbh (h h' : nbh) : Prop :=
  nb_allowed h = nb_allowed h' ∧ nb_fc h = nb_fc h' ∧ nb_cand h = nb_cand h' ∧ nb_front h = nb_front h' ∧
  Forall2 rset (nb_q h) (nb_q h').
Lemma collect_use keep l : both rset (collect keep prio l) (collect keep prio' l).
Proof using SO.
  unfold collect. apply both_foldM; [constructor|]. intros b c a _ Hbc. destruct (keep a); [by apply cw_put|by constructor].
Qed.
Lemma premove_use x l l' : rset l l' → rset (premove_first x l) (premove_first x l').
Proof.
  induction 1 as [|p q l l' Hp HF IH]; simpl; [constructor|]. destruct Hp as (E & ?). rewrite E. case_bool_decide; [done|].
  constructor; [|done]. by split.
Qed.
Lemma vget_use {X Y} (R : X → Y → Prop) l l' n : Forall2 R l l' → both R (vget l n) (vget l' n).
Proof.
  intros HF. unfold vget. pose proof (Forall2_length _ _ _ HF) as HL. destruct (l !! n) as [x|] eqn:E.
  - destruct (Forall2_lookup_l _ _ _ _ _ HF E) as (y & E' & Hxy). rewrite E'. by constructor.
  - apply lookup_ge_None in E. rewrite HL in E. apply lookup_ge_None in E. rewrite E. constructor.
Qed.
Lemma scan_use fuel q q' fr bk : Forall2 rset q q' → both rset (scan_queues fuel q fr bk) (scan_queues fuel q' fr bk).
Proof.
  intros HF. revert fr bk. induction fuel as [|fuel IH]; intros fr bk; simpl; [constructor|].
  case_bool_decide; [|by constructor; constructor]. eapply both_bind; [by apply (vget_use rset)|]. intros a a' Ha.
  destruct Ha as [|? ? ? ? ? ?]; [|by constructor; constructor]. eapply both_bind; [by apply (vget_use rset)|]. intros b b' Hb.
  destruct Hb as [|? ? ? ? ? ?]; [|by constructor; constructor]. destruct bk; [constructor|apply IH].
Qed.
Lemma nbh_update_use h h' c l : rnbh h h' → both rnbh (nbh_update prio h c l) (nbh_update prio' h' c l).
Proof using SO.
  intros (E1 & E2 & E3 & E4 & HQ). unfold nbh_update. rewrite <- E1, <- E2, <- E3, <- E4. destruct (nb_front h) as [dim|].
  - eapply both_bind; [apply collect_use|]. intros cur cur' Hcur.
    assert (Forall2 rset (map (premove_first c) (nb_q h)) (map (premove_first c) (nb_q h'))) as HQ'.
    { apply Forall2_fmap. eapply Forall2_impl; [exact HQ|]. intros. by apply premove_use. }
    assert (length (cur' :: map (premove_first c) (nb_q h')) = length (cur :: map (premove_first c) (nb_q h))) as ->.
    { symmetry. eapply Forall2_length. constructor; [exact Hcur|exact HQ']. }
    eapply (both_bind rset).
    + case_bool_decide; [|apply scan_use; by constructor]. constructor. clear -SO Hcur HQ'. revert cur cur' Hcur.
      induction HQ' as [|p p' q q' Hp HQ IH]; intros cur cur' Hcur; simpl; [done|]. apply IH. by apply cw_insert_all.
    + intros cand cand' Hc. constructor. unfold rnbh. simpl. rewrite (cw_fst _ _ Hc). do 4 (split; [done|]). by constructor.
  - eapply both_bind; [apply collect_use|]. intros s s' Hs. constructor. unfold rnbh. simpl. by rewrite (cw_fst _ _ Hs).
Qed.

(** ** Growth *)
Lemma best_iterative_use n : ∀ k g h h' dn ft cc arg faces out, rnbh h h' →
  best_iterative n k g prio' h' dn ft cc arg faces out = best_iterative n k g prio h dn ft cc arg faces out.
Proof using SO.
  induction n as [|n IH]; intros k g h h' dn ft cc arg faces out Hh; simpl;
    (rewrite <- (proj1 (proj2 (proj2 Hh))); apply foldM_ext_eq; intros b i;
     destruct (compute_features k g i ft cc) as [[[nf ar] ft']|]; simpl; [|done];
     destruct (nbrs g i) as [l|]; simpl; [|done];
     destruct (nbh_update_use h h' i l Hh) as [h1 h1' Hh1|]; simpl; [|done]).
  - done.
  - by rewrite (IH k g h1 h1').
Qed.
Lemma compute_best_use ip g h h' dn ft cc fi : rnbh h h' → compute_best ip g prio' h' dn ft cc fi = compute_best ip g prio h dn ft cc fi.
Proof using SO.
  intros Hh. unfold compute_best. destruct (ip_it ip); [by apply best_iterative_use|].
  unfold best_biconnected. by rewrite (proj1 (proj2 (proj2 Hh))).
Qed.
Definition rgrow (s s' : grow) : Prop :=
  rnbh (gw_h s) (gw_h s') ∧ gw_next s = gw_next s' ∧ gw_size s = gw_size s' ∧ gw_cc s = gw_cc s' ∧ gw_ft s = gw_ft s' ∧
  gw_dn s = gw_dn s' ∧ gw_ext s = gw_ext s' ∧ gw_cpt s = gw_cpt s' ∧ gw_maxc s = gw_maxc s' ∧ gw_minext s = gw_minext s' ∧
  gw_arg s = gw_arg s' ∧ gw_dict s = gw_dict s'.
Lemma grow_step_use ip g mi s s' : rgrow s s' → both rgrow (grow_step ip g prio mi s) (grow_step ip g prio' mi s').
Proof using SO.
  destruct s as [h nx sz cc ft dn ext cpt mxc mne arg dict], s' as [h' nx' sz' cc' ft' dn' ext' cpt' mxc' mne' arg' dict'].
  unfold rgrow. simpl. intros (Hh & <- & <- & <- & <- & <- & <- & <- & <- & <- & <- & <-). unfold grow_step. simpl.
  destruct (nbrs g nx) as [l|]; simpl; [|constructor].
  eapply both_bind; [by apply nbh_update_use|]. intros h1 h1' Hh1. rewrite (compute_best_use _ _ h1 h1') by done.
  destruct (compute_best _ _ _ h1 _ _ _ _) as [b|]; simpl; [|constructor].
  destruct (nb_nbrs g _) as [nn|]; simpl; [|constructor]. destruct (n_bnd g _) as [nb|]; simpl; [|constructor].
  destruct (nbrs g _) as [lc|]; simpl; [|constructor]. destruct (map_min _) as [cur|]; simpl; [|constructor].
  destruct (if bool_decide (ip_min ip <= _)%Z || _ then _ else _) as [[? ?] ?].
  constructor. unfold rgrow. simpl. tauto.
Qed.
Lemma grow_loop_use k ip g mi s s' : rgrow s s' → both rgrow (grow_loop k ip g prio mi s) (grow_loop k ip g prio' mi s').
Proof using SO.
  revert s s'. induction k as [|k IH]; intros s s' Hs; simpl; [by constructor|].
  eapply both_bind; [by apply grow_step_use|]. intros ? ?. apply IH.
Qed.
Lemma feed_pool_use g p cc dn aggl : feed_pool g prio' p cc dn aggl = feed_pool g prio p cc dn aggl.
Proof using SO.
  unfold feed_pool. destruct (neighbourhood_of_cc g cc aggl) as [ns|]; simpl; [|done].
  destruct (foldl _ _ _) as [by_ord lost].
  rewrite (foldM_ext_eq _ (λ p '(_, s), if bool_decide (s = ∅) then Ok p else order_new_seeds_and_update prio (g_bnd g) p s) by_ord p).
  - destruct (foldM _ by_ord p); simpl; [|done]. case_bool_decide; [done|]. apply order_new_seeds_use.
  - intros q [? s]. case_bool_decide; [done|]. apply order_new_seeds_use.
Qed.
Lemma choose_optimal_use ip g ct p seed : choose_optimal ip g prio' ct p seed = choose_optimal ip g prio ct p seed.
Proof using SO.
  unfold choose_optimal. destruct (massert _); simpl; [|done].
  destruct (compute_neighbourhood_of_cc _ _ _ _ _) as [r|]; simpl; [|done].
  case_bool_decide; [done|]. case_bool_decide; [done|].
  destruct (feats_of_cell g seed) as [ft|]; simpl; [|done]. destruct (nb_nbrs g seed) as [nn|]; simpl; [|done].
  destruct (n_bnd g seed) as [nb|]; simpl; [|done].
  match goal with |- (x ← grow_loop ?k _ _ _ ?mi ?s; _) = _ => destruct (grow_loop_use k ip g mi s s) as [s1 s2 Hs|] end.
  - unfold rgrow, rnbh. simpl. repeat (split; [done || (repeat split; constructor)|]); done.
  - simpl. destruct Hs as (_ & _ & _ & _ & _ & <- & _ & _ & <- & _ & <- & <-). by rewrite feed_pool_use.
  - done.
Qed.
Lemma iso_loop_use fuel ip g ct p : iso_loop fuel ip g prio' ct p = iso_loop fuel ip g prio ct p.
Proof using SO.
  revert ct p. induction fuel as [|fuel IH]; intros ct p; simpl; [done|]. case_bool_decide; [|done].
  rewrite choose_new_seed_use. destruct (choose_new_seed _ _ _ _) as [[o q]|]; simpl; [|done].
  destruct (massert _); simpl; [|done]. destruct (opt_value o) as [seed|]; simpl; [|done].
  rewrite choose_optimal_use. destruct (choose_optimal _ _ _ _ _ _) as [[[cc cpt] q']|]; simpl; [|done].
  destruct (create_cc _ _ _ _ _); simpl; [apply IH|done].
Qed.

(** ** Lines *)
Lemma tag_cell_use ap g thr alt mw aw aw' x : rset aw aw' →
  both (λ s s', s.1 = s'.1 ∧ rset s.2 s'.2) (tag_cell ap g prio thr (alt, mw, aw) x) (tag_cell ap g prio' thr (alt, mw, aw') x).
Proof using SO.
  intros Haw. unfold tag_cell. eapply (both_bind rset).
  - destruct (wlt thr w0); [by apply cw_put|]. destruct (minmax_weight g x) as [mm|]; simpl; [|constructor].
    destruct (wle _ _); [by apply cw_put|by constructor].
  - intros a a' Ha. destruct (ap_mindist ap).
    + destruct (inv_dists g x alt) as [r|]; simpl; [|constructor]. destruct (vset _ _ _); simpl; by constructor.
    + eapply (both_bind eq); [apply both_refl|]. intros m ? <-. destruct (vset _ _ _); simpl; by constructor.
Qed.
Lemma tag_use ap g thr : tag_anisotropic_cells ap g prio' thr = tag_anisotropic_cells ap g prio thr.
Proof using SO.
  symmetry. apply both_eq. unfold tag_anisotropic_cells. eapply both_bind.
  - apply (both_foldM (λ s s' : tag_state, s.1 = s'.1 ∧ rset s.2 s'.2)); [split; [done|constructor]|].
    intros [[alt mw] aw] [[alt' mw'] aw'] x _ [E Haw]. simpl in *. injection E as <- <-. by apply tag_cell_use.
  - intros [[alt mw] aw] [[alt' mw'] aw'] [E Haw]. simpl in *. injection E as <- <-. rewrite (cw_fst _ _ Haw). apply both_refl.
Qed.
Lemma lines_of_use b ap g thr idx cells : lines_of b ap g prio' thr idx cells = lines_of b ap g prio thr idx cells.
Proof using SO. unfold lines_of, build_anisotropic_lines. destruct b; [|done]. by rewrite tag_use. Qed.
Lemma forward_line_use g line : forward_line g prio' line = forward_line g prio line.
Proof using SO.
  unfold forward_line. destruct line as [|fr line]; [done|]. destruct (last _) as [bk|]; [|done].
  destruct (n_bnd g fr) as [bf|]; simpl; [|done]. destruct (n_bnd g bk) as [bb|]; simpl; [|done].
  destruct (cw_vget fr) as [wf wf' Hf|]; simpl; [|done]. destruct (cw_vget bk) as [wb wb' Hb|]; simpl; [|done].
  destruct Hf as (_ & F & F'), Hb as (_ & B & B'). simpl in *.
  destruct (so_cmp _ _ SO _ _ _ _ _ _ B F B' F') as [-> _].
  by destruct (so_cmp _ _ SO _ _ _ _ _ _ F B F' B') as [_ ->].
Qed.
Lemma aniso_agglomerate_use ap g lines ct p : (sp_one p = true → same_floor prio prio') →
  aniso_agglomerate ap g prio' lines ct p = aniso_agglomerate ap g prio lines ct p.
Proof using SO.
  intros SF. unfold aniso_agglomerate. destruct lines as [|l lines]; [by rewrite pool_initialize_use|].
  rewrite (foldM_ext_eq (agglo_line ap g prio') (agglo_line ap g prio)).
  2:{ intros [[ct' nb] out] x. unfold agglo_line. case_bool_decide; [done|]. by rewrite forward_line_use. }
  destruct (foldM (agglo_line ap g prio) (l :: lines) (ct, [], [])) as [[[ct' nb] out]|] eqn:E; cbn [mbind res_bind]; [|done].
  clear E. f_equal. unfold update_seeds_pool. destruct (foldM _ nb []) as [nb'|]; simpl; [|done].
  assert (okp (match nb' with [] => Ok p | i :: _ => b ← n_bnd g i; pool_update (g_bnd g) (set_top p (Some b)) nb' end)
    (λ q, sp_one q = sp_one p)) as Hq.
  { destruct nb' as [|y nb']; [done|]. destruct (n_bnd g y) as [b|]; simpl; [|done]. unfold pool_update. destruct (sp_bp (set_top p (Some b))).
    - match goal with |- okp (r ← ?e; _) _ => destruct e as [[mb q]|] end; simpl; [|done]. by case_bool_decide.
    - match goal with |- okp (r ← ?e; _) _ => destruct e end; simpl; done. }
  destruct (match nb' with [] => Ok p | i :: _ => _ end) as [q|]; simpl; [|done]. simpl in Hq.
  assert (okp (need_initialization (g_bnd g) (ct_aggl ct') q) (λ r, sp_one r.2 = sp_one q)) as Hr.
  { unfold need_initialization. destruct (_ || _); [done|]. destruct (sp_bp q); [|done].
    destruct (get_highest _ _ _) as [o|]; simpl; [|done]. destruct o, (sp_top q); try done. by case_bool_decide. }
  destruct (need_initialization _ _ q) as [[b q']|]; simpl; [|done]. simpl in Hr. destruct b; [|done].
  apply pool_initialize_use. rewrite Hr, Hq. done.
Qed.
End use.

Section main.
Context {A : Arith} {H : HashOrder}.
Lemma C52_lem i o prio' : same_order (in_prio i) prio' →
  (in_order i = 10%Z ∨ in_order i = 11%Z → same_floor (in_prio i) prio') →
  agglomerate_one_level (put_prio i prio') o = agglomerate_one_level i o.
Proof.
  intros SO SF. unfold agglomerate_one_level.
  assert (phase1 (put_prio i prio') o = phase1 i o) as ->.
  { unfold phase1. change (sanity (put_prio i prio') o) with (sanity i o). change (pool_of (put_prio i prio')) with (pool_of i).
    destruct (sanity i o) as [an|]; simpl; [|done]. destruct (pool_of i) as [p|] eqn:Hp; simpl; [|done].
    change (graph_of (put_prio i prio')) with (graph_of i). change (sing_thresh (put_prio i prio')) with (sing_thresh i).
    change (aniso_params_of (put_prio i prio')) with (aniso_params_of i).
    assert (sp_one p = true → same_floor (in_prio i) prio') as SF'.
    { intros H1. apply SF. unfold pool_of in Hp. clear -Hp H1.
      repeat match type of Hp with context [match ?z with _ => _ end] => destruct z eqn:?; try done; simplify_eq end;
      first [done | by left | by right]. }
    destruct an.
    - rewrite (lines_of_use _ _ SO). destruct (lines_of _ _ _ _ _ _ _); simpl; [|done]. by rewrite (aniso_agglomerate_use _ _ SO).
    - by rewrite (pool_initialize_use _ _ SO). }
  destruct (phase1 i o) as [[[ct p] l]|]; [|done].
  assert (phase2 (put_prio i prio') ct p = phase2 i ct p) as ->; [|done].
  unfold phase2. change (iso_params_of (put_prio i prio')) with (iso_params_of i). destruct (iso_params_of i) as [ip|]; simpl; [|done].
  change (graph_of (put_prio i prio')) with (graph_of i). unfold iso_agglomerate. by rewrite (iso_loop_use _ _ SO).
Qed.
End main.
