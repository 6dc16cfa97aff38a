(** * HashV: containers, agglomerators and the call under two iteration orders (C26) *)

From Verif Require Import Lib Spec GraphP Main MainP HashT HashU.

Section hash.
Context {A : Arith} (H1 H2 : HashOrder).
Implicit Types (g : graph) (ct : container).

(** ** Container *)

Lemma mark_cells_h ct l k : NoDup l → l ≡ₚ k → le_ok (mark_cells ct l) (mark_cells ct k).
Proof using.
  clear. intros Hn Hp. unfold mark_cells. apply le_foldM_perm; [|done..].
  intros [ag n] x y b1 b2 _ _ Hxy E1 E2.
  destruct b1 as [ag1 n1]. cbv beta iota in E1, E2.
  apply bind_Ok_inv in E1 as (ox & Ox & E1). apply bind_Ok_inv in E1 as ([] & Mx & E1). apply bind_Ok_inv in E1 as (bx & Bx & E1).
  apply bind_Ok_inv in E2 as (oy & Oy & E2). apply bind_Ok_inv in E2 as ([] & My & E2). apply bind_Ok_inv in E2 as (by_ & By & E2).
  assert (∀ ag0 : list bool, vget ag0 x = Ok bx → ∀ k0, (o ← vget (ct_fc2cc ct) x; _ ← massert (bool_decide (o = None));
     b ← vget ag0 x; (if b : bool then Ok (ag0, k0) else ag ← vset ag0 x true; Ok (ag, S k0)))
     = if bx then Ok (ag0, k0) else ag ← vset ag0 x true; Ok (ag, S k0)) as HX.
  { intros ag0 Hb k0. by rewrite Ox, bind_ok, Mx, bind_ok, Hb, bind_ok. }
  destruct bx.
  - injection E1 as <- <-. exists b2. rewrite Oy, bind_ok, My, bind_ok, By, bind_ok. split; [done|].
    destruct by_; [by injection E2 as <-; apply HX|].
    apply bind_Ok_inv in E2 as (ag' & Sy & E2). injection E2 as <-. apply HX.
    by rewrite (vget_vset_ne _ _ _ _ _ (not_eq_sym Hxy) Sy).
  - apply bind_Ok_inv in E1 as (ag' & Sx & E1). injection E1 as <- <-.
    rewrite (vget_vset_ne _ _ _ _ _ Hxy Sx) in By. rewrite Oy, bind_ok, My, bind_ok, By, bind_ok. destruct by_.
    + injection E2 as <-. exists (ag, n). split; [done|]. rewrite HX by done. by rewrite Sx, bind_ok.
    + apply bind_Ok_inv in E2 as (ag2 & Sy & E2). injection E2 as <-.
      destruct (vset_swap _ _ _ _ _ _ _ Hxy Sx Sy) as (ag3 & S3 & S4).
      exists (ag3, S n). rewrite S3, bind_ok. split; [done|].
      rewrite HX by (by rewrite (vget_vset_ne _ _ _ _ _ (not_eq_sym Hxy) S3)). by rewrite S4, bind_ok.
Qed.
Lemma assign_cells_h v id l k : NoDup l → l ≡ₚ k → le_ok (assign_cells v id l) (assign_cells v id k).
Proof using.
  clear. intros Hn Hp. unfold assign_cells. apply le_foldM_perm; [|done..].
  intros b x y b1 b2 _ _ Hxy E1 E2.
  apply bind_Ok_inv in E1 as (ox & Ox & E1). apply bind_Ok_inv in E1 as ([] & Mx & E1).
  apply bind_Ok_inv in E2 as (oy & Oy & E2). apply bind_Ok_inv in E2 as ([] & My & E2).
  destruct (vset_swap _ _ _ _ _ _ _ Hxy E1 E2) as (b3 & S3 & S4).
  rewrite (vget_vset_ne _ _ _ _ _ Hxy E1) in Oy. exists b3. rewrite Oy, bind_ok, My, bind_ok. split; [done|].
  by rewrite (vget_vset_ne _ _ _ _ _ (not_eq_sym Hxy) S3), Ox, bind_ok, Mx, bind_ok.
Qed.
Lemma set_ids_h v id l k : NoDup l → l ≡ₚ k → le_ok (set_ids v id l) (set_ids v id k).
Proof using.
  clear. intros Hn Hp. unfold set_ids. apply le_foldM_perm; [|done..].
  intros b x y b1 b2 _ _ Hxy E1 E2. by eapply vset_swap.
Qed.
Lemma create_cc_h ct s cpt an de : le_ok (@create_cc H1 ct s cpt an de) (@create_cc H2 ct s cpt an de).
Proof using.
  clear. unfold create_cc. apply le_bind; [apply le_refl|]. intros _ _.
  apply le_bind; [apply mark_cells_h; [apply hset_nd|apply hset_12]|]. intros mk _.
  destruct de; [apply le_refl|]. apply le_bind; [apply assign_cells_h; [apply hset_nd|apply hset_12]|].
  intros; apply le_refl.
Qed.
Lemma create_all_delayed_h ct : le_ok (@create_all_delayed H1 ct) (@create_all_delayed H2 ct).
Proof using.
  clear. unfold create_all_delayed. apply le_bind; [|intros; apply le_refl].
  apply le_foldM. intros c [s cpt] _. apply create_cc_h.
Qed.
Lemma get_shared_faces_h g fc cc : le_ok (@get_shared_faces A H1 g fc cc) (@get_shared_faces A H2 g fc cc).
Proof using.
  clear. unfold get_shared_faces. apply le_hset. intros k x y b1 b2 _ _ Hxy E1 E2.
  apply bind_Ok_inv in E1 as (lx & Lx & [= <-]). apply bind_Ok_inv in E2 as (ly & Ly & [= <-]).
  eexists. rewrite Ly, bind_ok. split; [done|]. rewrite Lx, bind_ok. f_equal. lia.
Qed.
Lemma cands_h g ct fcs sf sf' neighs : (∀ cc, le_ok (sf cc) (sf' cc)) →
  le_ok (@cands A H1 g ct fcs sf neighs) (@cands A H2 g ct fcs sf' neighs).
Proof using.
  clear. intros Hsf. unfold cands. apply le_foldM. intros acc id _. apply le_bind; [apply le_refl|]. intros cc _.
  destruct (cc_iso cc); [|apply le_refl]. apply le_bind; [apply Hsf|]. intros s _.
  apply le_bind; [apply min_compactness_h|]. intros; apply le_refl.
Qed.
Lemma select_best_h g ct fc neighs : le_ok (@select_best A H1 g ct fc neighs) (@select_best A H2 g ct fc neighs).
Proof using.
  clear. unfold select_best. apply le_bind; [|intros; apply le_refl].
  apply cands_h. intros. apply get_shared_faces_h.
Qed.
Lemma insert_cells_h g ccs id fcs cpt : le_ok (@insert_cells A H1 g ccs id fcs cpt) (@insert_cells A H2 g ccs id fcs cpt).
Proof using.
  clear. unfold insert_cells. destruct (ccs !! id); [|apply le_refl]. apply le_bind; [|intros; apply le_refl].
  destruct cpt; [apply le_refl|apply min_compactness_h].
Qed.
Lemma correct_cells_h g ct nb l : le_ok (@correct_cells A H1 g ct nb l) (@correct_cells A H2 g ct nb l).
Proof using.
  clear. unfold correct_cells. apply le_foldM. intros [rm c] i _. apply le_bind; [apply le_refl|]. intros s _.
  case_bool_decide; [apply le_refl|]. apply le_bind; [apply select_best_h|]. intros [[id cpt]|] _; [|apply le_refl].
  apply le_bind; [apply le_refl|]. intros f _. apply le_bind; [apply insert_cells_h|]. intros; apply le_refl.
Qed.
Lemma renumber_h keys n ccs f : le_ok (@renumber H1 keys n ccs f) (@renumber H2 keys n ccs f).
Proof using.
  clear. revert n ccs f. induction keys as [|k keys IH]; intros n ccs f; [apply le_refl|]. cbn [renumber].
  apply le_bind; [apply le_refl|]. intros cc _. apply le_bind; [apply set_ids_h; [apply hset_nd|apply hset_12]|].
  intros f' _. apply IH.
Qed.
Lemma correct_renumber_h ct rem : le_ok (@correct_renumber H1 ct rem) (@correct_renumber H2 ct rem).
Proof using.
  clear. unfold correct_renumber. destruct (sset rem); [apply le_refl|]. apply le_bind; [apply le_refl|]. intros st _.
  apply le_bind; [apply renumber_h|]. intros; apply le_refl.
Qed.

(** At most single cells are corrected, and cardinals are not underestimated. *)
Definition small_corr ct : Prop :=
  (ct_thresh ct <= 1)%Z ∧ ∀ k cc, ct_ccs ct !! k = Some cc → (Z.of_nat (size (cc_fcs cc)) <= cc_card cc)%Z.

Lemma create_cc_small (H : HashOrder) ct s cpt an de : small_corr ct → okp (create_cc ct s cpt an de) small_corr.
Proof using.
  clear. intros [HT HS]. apply okp_eq. intros r Hr. unfold create_cc in Hr.
  apply bind_Ok_inv in Hr as ([] & _ & Hr). apply bind_Ok_inv in Hr as (mk & _ & Hr).
  assert (∀ k cc, (if an || negb de then <[ct_n ct := CCell s (Z.of_nat (size s)) cpt (negb an)]> (ct_ccs ct) else ct_ccs ct) !! k = Some cc →
    (Z.of_nat (size (cc_fcs cc)) <= cc_card cc)%Z) as HS'.
  { intros k cc. destruct (an || negb de); [|apply HS]. intros Hk.
    apply lookup_insert_Some in Hk as [[_ <-]|[_ Hk]]; [done|by eapply HS]. }
  destruct de; [by injection Hr as <-|]. apply bind_Ok_inv in Hr as (f & _ & Hr). by injection Hr as <-.
Qed.
Lemma create_all_delayed_small (H : HashOrder) ct : small_corr ct → okp (create_all_delayed ct) small_corr.
Proof using.
  clear. intros HS. unfold create_all_delayed. apply okp_bind. eapply okp_mono; [|intros a Ha; exact Ha].
  apply okp_foldM_inv; [done|]. intros [s cpt] c _ Hc. by apply create_cc_small.
Qed.
Lemma correct_cells_small (H : HashOrder) g ct nb l : small_corr ct → okp (correct_cells g ct nb l) (λ r, small_corr r.2).
Proof using.
  clear. intros HS. unfold correct_cells. apply (okp_foldM_inv _ (λ r, small_corr r.2)); [done|].
  intros i [rm c] _ [HT Hc]. simpl in HT, Hc. apply okp_eq. intros r Hr.
  apply bind_Ok_inv in Hr as (s & _ & Hr). case_bool_decide; [by injection Hr as <-|].
  apply bind_Ok_inv in Hr as ([[id cpt]|] & _ & Hr); [|by injection Hr as <-].
  apply bind_Ok_inv in Hr as (f & _ & Hr). apply bind_Ok_inv in Hr as (ccs & Hi & Hr). injection Hr as <-.
  split; [done|]. cbn [snd set_ccs_ids ct_ccs]. unfold insert_cells in Hi. destruct (ct_ccs c !! id) as [cc|] eqn:Ecc; [|done].
  apply bind_Ok_inv in Hi as (cp & _ & Hi). injection Hi as <-. intros k cc' Hk.
  apply lookup_insert_Some in Hk as [[_ <-]|[_ Hk]]; [|by eapply Hc]. 
  change (Z.of_nat (size ({[i]} ∪ cc_fcs cc)) <= cc_card cc + Z.of_nat (size ({[i]} : gset nat)))%Z.
  pose proof (Hc _ _ Ecc) as Hcc. assert (size ({[i]} ∪ cc_fcs cc) ≤ size ({[i]} : gset nat) + size (cc_fcs cc)); [|lia].
  rewrite size_union_alt. assert (cc_fcs cc ∖ {[i]} ⊆ cc_fcs cc) as Hs by set_solver. apply subseteq_size in Hs. lia.
Qed.
Lemma nb_small (l : list nat) (f : nat → res (gset nat)) nb :
  length l ≤ 1 → foldM (λ (m : gmap nat (gset nat)) i, s ← f i; Ok (<[i := s]> m)) l ∅ = Ok nb → size (dom nb : gset nat) ≤ 1.
Proof using.
  clear. intros Hl. destruct l as [|x [|y l]]; simpl in *; [| |lia].
  - intros [= <-]. rewrite dom_empty_L, size_empty. lia.
  - intros Hr. apply bind_Ok_inv in Hr as (m & Hm & [= <-]). apply bind_Ok_inv in Hm as (s & _ & [= <-]).
    rewrite insert_empty, dom_singleton_L, size_singleton. lia.
Qed.
Lemma correct_step_h g ct rem old : small_corr ct →
  le_ok (@correct_step A H1 g ct rem old) (@correct_step A H2 g ct rem old).
Proof using.
  clear. intros [HT HS]. unfold correct_step. apply le_bind; [apply le_refl|]. intros cur Hcur.
  unfold mapat in Hcur. destruct (ct_ccs ct !! old) as [cc|] eqn:Ecc; [|done]. injection Hcur as ->.
  case_bool_decide as Hc; [|apply le_refl]. pose proof (HS _ _ Ecc) as Hsz.
  rewrite (hset_small H1 H2) by lia. apply le_bind; [apply le_refl|]. intros nb Hnb.
  rewrite (bool_decide_false (1 < cc_card cur)%Z) by lia. apply le_bind; [apply le_refl|]. intros w _.
  apply le_bind; [|intros; apply le_refl]. destruct (w.1); [apply le_refl|].
  rewrite (hkeys_small H1 H2).
  - apply correct_cells_h.
  - eapply (nb_small _ (λ i, get_neighs_cc g ct i old)); [|exact Hnb]. rewrite hset_length. lia.
Qed.
Lemma correct_step_small (H : HashOrder) g ct rem old : small_corr ct → okp (correct_step g ct rem old) (λ r, small_corr r.2).
Proof using.
  clear. intros HS. pose proof HS as [HT _]. apply okp_eq. intros r Hr. unfold correct_step in Hr.
  apply bind_Ok_inv in Hr as (cur & _ & Hr). case_bool_decide as Hc; [|by injection Hr as <-].
  apply bind_Ok_inv in Hr as (nb & _ & Hr). rewrite (bool_decide_false (1 < cc_card cur)%Z) in Hr by lia.
  rewrite bind_ok in Hr. cbn [fst snd] in Hr. apply bind_Ok_inv in Hr as (r' & Hr' & Hr).
  pose proof (correct_cells_small H g ct nb (hkeys s_corr_by_fc nb) HS) as Hsm. rewrite Hr' in Hsm.
  destruct Hsm as [H3 H4]. destruct r'.1; injection Hr as <-; [|by split]. split; [done|]. simpl.
  intros k cc [_ Hk]%lookup_delete_Some. by eapply H4.
Qed.
Lemma correct_h g ct : small_corr ct → le_ok (@correct A H1 g ct) (@correct A H2 g ct).
Proof using.
  clear. intros HS. unfold correct. apply le_bind; [|intros; apply correct_renumber_h].
  apply (le_foldM_inv (λ r, small_corr r.2)); [done|]. intros [rem c] old _ Hc. simpl in Hc. split.
  - by apply correct_step_h.
  - by apply correct_step_small.
Qed.

(** ** Seeds *)

Lemma order_new_seeds_h prio bnd p new : weak_order wlt (λ w, w ∈ prio) →
  le_ok (@order_new_seeds_and_update A H1 prio bnd p new) (@order_new_seeds_and_update A H2 prio bnd p new).
Proof using.
  intros WO. unfold order_new_seeds_and_update. apply le_bind; [|intros; apply le_refl].
  assert (∀ i w, vget prio i = Ok w → w ∈ prio) as Hin.
  { intros i w Hw. apply vget_inv in Hw. by eapply elem_of_list_lookup_2. }
  unfold by_bnd. intros r. apply (foldM_perm_in (bymap_P (λ w, w ∈ prio))); [| |constructor|apply hset_nd|apply hset_12].
  - intros m x b1 _ Hm E1. apply bind_Ok_inv in E1 as (nx & Nx & E1). apply bind_Ok_inv in E1 as (wx & Wx & [= <-]).
    apply bymap_insert_P; [by eapply Hin|done].
  - intros m x y b1 b2 Hm _ _ Hxy E1 E2.
    apply bind_Ok_inv in E1 as (nx & Nx & E1). apply bind_Ok_inv in E1 as (wx & Wx & [= <-]).
    apply bind_Ok_inv in E2 as (ny & Ny & E2). apply bind_Ok_inv in E2 as (wy & Wy & [= <-]).
    eexists. rewrite Ny, bind_ok, Wy, bind_ok. split; [done|]. rewrite Nx, bind_ok, Wx, bind_ok. f_equal.
    apply (bymap_swap _ WO); simpl; [by eapply Hin..|done|done].
Qed.

(** ** Isotropic agglomerators *)

Lemma best_biconnected_h k g h dn ft cc arg faces out : (uses_dist k = true → total) →
  le_ok (@best_biconnected A H1 k g h dn ft cc arg faces out) (@best_biconnected A H2 k g h dn ft cc arg faces out).
Proof using.
  intros HT. unfold best_biconnected. apply le_bind; [apply le_refl|]. intros c0 _.
  apply le_foldM. intros b i _. apply le_bind; [by apply compute_features_h|]. intros; apply le_refl.
Qed.
Lemma best_iterative_h n k g prio h dn ft cc arg faces out : (uses_dist k = true → total) →
  le_ok (@best_iterative A H1 n k g prio h dn ft cc arg faces out) (@best_iterative A H2 n k g prio h dn ft cc arg faces out).
Proof using.
  intros HT. revert h ft cc arg faces out. induction n as [|n IH]; intros h ft cc arg faces out; cbn [best_iterative];
    (apply le_foldM; intros b i _; apply le_bind; [by apply compute_features_h|]; intros [[nf ar] ft'] _;
     apply le_bind; [apply le_refl|]; intros l _; apply le_bind; [apply le_refl|]; intros h' _).
  - apply le_refl.
  - apply le_bind; [|intros; apply le_refl]. apply le_bind; [apply IH|]. intros; apply le_refl.
Qed.
Lemma compute_best_h ip g prio h dn ft cc fi : (uses_dist (ip_ar ip) = true → total) →
  le_ok (@compute_best A H1 ip g prio h dn ft cc fi) (@compute_best A H2 ip g prio h dn ft cc fi).
Proof using. intros HT. unfold compute_best. destruct (ip_it ip); [by apply best_iterative_h|by apply best_biconnected_h]. Qed.
Lemma grow_step_h ip g prio mi s : (uses_dist (ip_ar ip) = true → total) →
  le_ok (@grow_step A H1 ip g prio mi s) (@grow_step A H2 ip g prio mi s).
Proof using.
  intros HT. unfold grow_step. do 2 (apply le_bind; [apply le_refl|]; intros ? _).
  apply le_bind; [by apply compute_best_h|]. intros b _. do 3 (apply le_bind; [apply le_refl|]; intros ? _).
  apply le_bind; [apply map_min_h|]. intros; apply le_refl.
Qed.
Lemma grow_loop_h k ip g prio mi s : (uses_dist (ip_ar ip) = true → total) →
  le_ok (@grow_loop A H1 k ip g prio mi s) (@grow_loop A H2 k ip g prio mi s).
Proof using.
  intros HT. revert s. induction k as [|k IH]; intros s; [apply le_refl|]. cbn [grow_loop].
  apply le_bind; [by apply grow_step_h|]. intros s' _. apply IH.
Qed.
Lemma feed_pool_h g prio p cc dn aggl : weak_order wlt (λ w, w ∈ prio) → le_ok (@feed_pool A H1 g prio p cc dn aggl) (@feed_pool A H2 g prio p cc dn aggl).
Proof using.
  intros WO. unfold feed_pool. apply le_bind; [apply neighbourhood_of_cc_h|]. intros neighs _.
  rewrite (foldl_perm _ (@hset H1 s_keys neighs) (@hset H2 s_keys neighs)); [| |apply hset_12].
  - destruct (foldl _ _ _) as [bo lost]. apply le_bind.
    + apply le_foldM. intros p' [z s] _. case_bool_decide; [apply le_refl|by apply order_new_seeds_h].
    + intros p' _. case_bool_decide; [apply le_refl|by apply order_new_seeds_h].
  - intros [m lost] x y _ _. destruct (dn !! x) as [ox|] eqn:Ex, (dn !! y) as [oy|] eqn:Ey; rewrite ?Ex, ?Ey; try done.
    + f_equal. apply byord_swap.
    + f_equal. rewrite !union_assoc_L. by rewrite (union_comm_L {[x]}).
Qed.
Lemma choose_optimal_h ip g prio ct p seed : weak_order wlt (λ w, w ∈ prio) → (uses_dist (ip_ar ip) = true → total) →
  le_ok (@choose_optimal A H1 ip g prio ct p seed) (@choose_optimal A H2 ip g prio ct p seed).
Proof using.
  intros WO HT. unfold choose_optimal. apply le_bind; [apply le_refl|]. intros _ _.
  apply le_bind; [apply compute_neighbourhood_h|]. intros r _. case_bool_decide; [apply le_refl|].
  case_bool_decide.
  - apply le_bind; [apply min_compactness_h|]. intros; apply le_refl.
  - do 3 (apply le_bind; [apply le_refl|]; intros ? _). apply le_bind; [by apply grow_loop_h|]. intros s _.
    apply le_bind; [by apply feed_pool_h|]. intros; apply le_refl.
Qed.
Lemma iso_loop_h fuel ip g prio ct p : weak_order wlt (λ w, w ∈ prio) → (uses_dist (ip_ar ip) = true → total) →
  le_ok (@iso_loop A H1 fuel ip g prio ct p) (@iso_loop A H2 fuel ip g prio ct p).
Proof using.
  intros WO HT. revert ct p. induction fuel as [|fuel IH]; intros ct p; [apply le_refl|]. cbn [iso_loop].
  case_bool_decide; [|apply le_refl]. apply le_bind; [apply le_refl|]. intros [o p'] _.
  do 2 (apply le_bind; [apply le_refl|]; intros ? _). apply le_bind; [by apply choose_optimal_h|]. intros [[cc cpt] p2] _.
  apply le_bind; [apply create_cc_h|]. intros ct' _. apply IH.
Qed.
Lemma iso_loop_small (H : HashOrder) fuel ip g prio ct p : small_corr ct →
  okp (iso_loop fuel ip g prio ct p) (λ r, small_corr r.1).
Proof using.
  clear. revert ct p. induction fuel as [|fuel IH]; intros ct p HS; [done|]. cbn [iso_loop].
  case_bool_decide; [|done]. apply okp_eq. intros r Hr.
  apply bind_Ok_inv in Hr as ([o p'] & _ & Hr). apply bind_Ok_inv in Hr as ([] & _ & Hr).
  apply bind_Ok_inv in Hr as (seed & _ & Hr). apply bind_Ok_inv in Hr as ([[cc cpt] p2] & _ & Hr).
  apply bind_Ok_inv in Hr as (ct' & Hct & Hr). pose proof (create_cc_small H ct cc cpt false false HS) as Hs.
  rewrite Hct in Hs. specialize (IH ct' p2 Hs). by rewrite Hr in IH.
Qed.
Lemma iso_agglomerate_h ip g prio corr ct p : weak_order wlt (λ w, w ∈ prio) → (uses_dist (ip_ar ip) = true → total) → (corr = true → small_corr ct) →
  le_ok (@iso_agglomerate A H1 ip g prio corr ct p) (@iso_agglomerate A H2 ip g prio corr ct p).
Proof using.
  intros WO HT HS. unfold iso_agglomerate. apply le_bind; [by apply iso_loop_h|]. intros [ct1 p1] H3.
  apply le_bind; [apply create_all_delayed_h|]. intros ct2 H4. destruct corr; [|apply le_refl].
  apply correct_h. pose proof (iso_loop_small H1 (S (g_n g)) ip g prio ct p (HS eq_refl)) as H5. rewrite H3 in H5.
  pose proof (create_all_delayed_small H1 ct1 H5) as H6. simpl in H4. by rewrite H4 in H6.
Qed.

(** ** Anisotropic agglomerator *)

Lemma loop_line_h fuel ap g rest nc ct nb out :
  le_ok (@loop_line A H1 fuel ap g rest nc ct nb out) (@loop_line A H2 fuel ap g rest nc ct nb out).
Proof using.
  clear. revert rest nc ct nb out. induction fuel as [|fuel IH]; intros rest nc ct nb out; [destruct rest; apply le_refl|].
  destruct rest as [|x rest1]; [apply le_refl|]. cbn [loop_line]. destruct (over_limit _ _); [apply le_refl|].
  destruct rest1 as [|y rest2]; [apply le_refl|]. do 2 (apply le_bind; [apply le_refl|]; intros ? _).
  destruct (_ || _).
  - apply le_bind; [apply le_refl|]. intros [[s nc'] nb'] _. apply le_bind; [apply create_cc_h|]. intros ct' _.
    destruct rest2; [apply le_refl|apply IH].
  - apply le_bind; [apply create_cc_h|]. intros ct' _. apply IH.
Qed.
Lemma aniso_agglomerate_h ap g prio lines ct p :
  le_ok (@aniso_agglomerate A H1 ap g prio lines ct p) (@aniso_agglomerate A H2 ap g prio lines ct p).
Proof using.
  clear. unfold aniso_agglomerate. destruct lines as [|l lines]; [apply le_refl|].
  apply le_bind; [|intros; apply le_refl]. apply le_foldM. intros [[c nb] ls] line _. unfold agglo_line.
  case_bool_decide; [apply le_refl|]. apply le_bind; [apply le_refl|]. intros f _.
  apply le_bind; [apply loop_line_h|]. intros; apply le_refl.
Qed.
Lemma loop_line_small (H : HashOrder) fuel ap g rest nc ct nb out : small_corr ct →
  okp (loop_line fuel ap g rest nc ct nb out) (λ r, small_corr r.1.1).
Proof using.
  clear. revert rest nc ct nb out. induction fuel as [|fuel IH]; intros rest nc ct nb out HS; [by destruct rest|].
  destruct rest as [|x rest1]; [done|]. cbn [loop_line]. destruct (over_limit _ _); [done|].
  destruct rest1 as [|y rest2]; [done|]. apply okp_eq. intros r Hr.
  do 2 apply bind_Ok_inv in Hr as (? & _ & Hr). destruct (_ || _).
  - apply bind_Ok_inv in Hr as ([[s nc'] nb'] & _ & Hr). apply bind_Ok_inv in Hr as (ct' & Hct & Hr).
    pose proof (create_cc_small H ct s 1%Z true false HS) as Hs. rewrite Hct in Hs.
    destruct rest2 as [|z rest2]; [done|].
    pose proof (IH rest2 nc' ct' nb' (out ++ [ct_n ct' - 1]) Hs) as HI. by rewrite Hr in HI.
  - apply bind_Ok_inv in Hr as (ct' & Hct & Hr).
    pose proof (create_cc_small H ct {[x; y]} 1%Z true false HS) as Hs. rewrite Hct in Hs.
    match type of Hr with loop_line ?f ?a ?gg ?r1 ?n1 ?c1 ?b1 ?o1 = _ =>
      pose proof (IH r1 n1 c1 b1 o1 Hs) as HI end. by rewrite Hr in HI.
Qed.
Lemma aniso_agglomerate_small (H : HashOrder) ap g prio lines ct p : small_corr ct →
  okp (aniso_agglomerate ap g prio lines ct p) (λ r, small_corr r.1.1).
Proof using.
  clear. intros HS. unfold aniso_agglomerate. destruct lines as [|l lines].
  - apply okp_bind, okp_True. done.
  - apply okp_bind. eapply okp_mono.
    { apply (okp_foldM_inv _ (λ r, small_corr r.1.1)); [done|]. intros line [[c nb] ls] _ Hc. simpl in Hc. unfold agglo_line.
      case_bool_decide; [done|]. apply okp_bind, okp_True. intros f. apply okp_bind.
      eapply okp_mono; [by apply loop_line_small|]. by intros [[c' nb'] out]. }
    intros [[c nb] out] Hc. apply okp_bind, okp_True. done.
Qed.
End hash.
