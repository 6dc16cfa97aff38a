(** * LinesP: tagging the anisotropic cells and building the lines *)

From Verif Require Export IsoP.

Lemma path_nil (E : nat → nat → Prop) : path E [].
Proof. by intros k x y. Qed.
Lemma path_single (E : nat → nat → Prop) x : path E [x].
Proof. by intros [|k] a b. Qed.
Lemma path_cons (E : nat → nat → Prop) c x l : E c x → head l = Some x → path E l → path E (c :: l).
Proof.
  intros He Hh Hp [|k] a b; simpl.
  - intros [= <-] Hb. destruct l; simpl in *; simplify_eq. done.
  - apply Hp.
Qed.
Lemma path_snoc (E : nat → nat → Prop) c x l : E x c → last l = Some x → path E l → path E (l ++ [c]).
Proof.
  intros He Hl Hp k a b Ha Hb. apply lookup_lt_Some in Hb as Hlt. rewrite app_length in Hlt. simpl in Hlt.
  rewrite lookup_app_l in Ha by lia.
  destruct (decide (S k < length l)).
  - rewrite lookup_app_l in Hb by lia. by eapply Hp.
  - assert (S k = length l) as Hk by lia. rewrite lookup_app_r in Hb by lia.
    rewrite Hk, Nat.sub_diag in Hb. simpl in Hb. simplify_eq.
    rewrite last_lookup, <- Hk in Hl. simpl in Hl. by simplify_eq.
Qed.
Lemma path_app_l (E : nat → nat → Prop) l k : path E (l ++ k) → path E l.
Proof.
  intros Hp i a b Ha Hb. eapply Hp; rewrite lookup_app_l; eauto using lookup_lt_Some.
Qed.
Lemma path_app_r (E : nat → nat → Prop) l k : path E (l ++ k) → path E k.
Proof.
  intros Hp i a b Ha Hb. apply (Hp (length l + i)).
  - by rewrite lookup_app_r, Nat.add_comm, Nat.add_sub by lia.
  - rewrite lookup_app_r by lia. by replace (S (length l + i) - length l) with (S i) by lia.
Qed.
Lemma path_reverse (E : nat → nat → Prop) l : (∀ x y, E x y → E y x) → path E l → path E (reverse l).
Proof.
  intros Hs Hp k a b Ha Hb. apply lookup_lt_Some in Hb as Hlt. rewrite reverse_length in Hlt.
  rewrite reverse_lookup in Ha, Hb by lia. apply Hs. eapply Hp; [done|].
  by replace (S (length l - S (S k))) with (length l - S k) by lia.
Qed.

Lemma count_true_insert_false v i :
  v !! i = Some true → S (count_true (<[i := false]> v)) = count_true v.
Proof.
  revert i. induction v as [|b v IH]; intros [|i]; simpl; intros Hi; [done..| |].
  - simplify_eq. by rewrite !count_true_cons.
  - rewrite !count_true_cons, <- (IH i) by done. lia.
Qed.

Section lines.
Context {A : Arith} {H : HashOrder}.

Lemma dir_diff_ok (a b : list W) : length a ≤ length b →
  wp (dir_diff a b) (λ d, length d = length a).
Proof.
  revert b. induction a as [|x a IH]; intros [|y b]; simpl; intros Hl; [done..|lia|].
  wstep. eapply wp_mono; [apply IH; lia|]. simpl. lia.
Qed.
Lemma get_direction_ok (a b dir : list W) : length a ≤ length b → length a ≤ length dir →
  wp (get_direction a b dir) (λ r, length r = length dir).
Proof.
  intros Hb Hd. unfold get_direction. wstep. eapply wp_mono; [by apply dir_diff_ok|].
  intros d Hl. simpl in Hl. rewrite decide_True by lia. simpl.
  rewrite map_length, app_length, drop_length. lia.
Qed.
Lemma dot_acc_ok acc (a b : list W) : length a ≤ length b → ∃ w, dot_acc acc a b = Ok w.
Proof.
  revert acc b. induction a as [|x a IH]; intros acc [|y b]; simpl; intros Hl; [eauto..|lia|].
  apply IH. lia.
Qed.
Lemma dot_product_ok (a b : list W) (Q : W → Prop) :
  length a ≤ length b → (∀ w, Q w) → wp (dot_product a b) Q.
Proof. intros Hl HQ. destruct (dot_acc_ok w0 a b Hl) as [w Hw]. unfold dot_product. rewrite Hw. apply HQ. Qed.

Context (g : graph) (prio : list W) (WF : wfg g) (WD : wfd g prio).
Context (Hcompl : ∀ c, c ∈ g_compl g → c < g_n g).
Context (dimc : nat) (Hdim : ∀ k c, g_cen g !! k = Some c → length c = dimc).
Implicit Types (ap : aniso_params).
Notation n := (g_n g).
Notation E := (gedge g).

Lemma cen_get i (Q : list W → Prop) :
  i < n → (∀ c, length c = dimc → Q c) → wp (vget (g_cen g) i) Q.
Proof. intros Hi HQ. apply wp_vget; [by rewrite (wd_cen _ _ WD)|]. eauto. Qed.

Lemma row_off i : i < n → ∃ a, g_row g !! i = Some a ∧ a + length (adj g i) ≤ length (g_col g).
Proof.
  intros Hi. destruct (row_some g WF i) as [a Ha]; [lia|].
  destruct (row_some g WF (S i)) as [b Hb]; [lia|].
  exists a. split; [done|]. unfold adj. rewrite Ha, Hb.
  pose proof (csr_mono _ _ _ (wg_csr _ WF) _ _ _ Ha Hb).
  pose proof (row_le_len g WF _ _ Hb).
  rewrite slice_length by done. lia.
Qed.

Lemma inv_dists_ok i alt : i < n → length alt = length (g_val g) →
  wp (inv_dists g i alt) (λ r, length r.1 = length (g_val g)).
Proof.
  intros Hi Hal. unfold inv_dists. destruct (row_off i Hi) as (off & Hoff & Hle).
  rewrite (vget_ok _ _ _ Hoff), bind_ok, (nbrs_ok g WF) by done. rewrite bind_ok.
  wstep. apply cen_get; [done|]. intros ci Hci. wstep. eapply wp_mono.
  { apply (wp_foldM _ (λ (pre : list nat) '((alt, m, pos) : list W * W * nat),
      length alt = length (g_val g) ∧ pos = off + length pre)); [split; [done|simpl; lia]|].
    intros pre x post [[alt' m] pos] Heq [Hl ->].
    assert (x ∈ adj g i) as Hx by (rewrite Heq; set_solver).
    wstep. apply cen_get; [by eapply adj_lt|]. intros cn Hcn.
    wstep. apply (sqdist_ok g); [apply WD..|lia|]. intros d. wstep.
    apply wp_vset.
    - rewrite Hl, (wg_val _ WF). rewrite Heq, app_length in Hle. simpl in Hle. lia.
    - simpl. rewrite insert_length, app_length. simpl. split; [done|lia]. }
  intros [[alt' m] pos] [Hl _]. done.
Qed.

Lemma minmax_weight_ok i (Q : W * W → Prop) : i < n → (∀ r, Q r) → wp (minmax_weight g i) Q.
Proof.
  intros Hi HQ. unfold minmax_weight. rewrite (nbrs_wgts_ok g WF) by done. simpl. apply HQ.
Qed.

Lemma prio_get i (Q : W → Prop) : i < n → (∀ w, Q w) → wp (vget prio i) Q.
Proof. intros Hi HQ. apply wp_vget; [by rewrite (wd_prio _ _ WD)|]. eauto. Qed.

(** In the case [MAX_WEIGHT] with a negative threshold every compliant cell
    must have a neighbour. *)
Definition tag_safe ap (thr : W) : Prop :=
  ap_mindist ap = false → wlt thr w0 = true → ∀ c, c ∈ g_compl g → adj g c ≠ [].

Lemma tag_anisotropic_ok ap thr : tag_safe ap thr →
  wp (tag_anisotropic_cells ap g prio thr) (λ '(alt, mw, ia, seeds),
    (ap_mindist ap = true → length alt = length (g_val g)) ∧ length mw = n ∧
    length ia = n ∧ (∀ x, ia !! x = Some true ↔ x ∈ seeds) ∧
    ∀ x, x ∈ seeds → x ∈ g_compl g).
Proof.
  intros Hsafe. unfold tag_anisotropic_cells. wstep. eapply wp_mono.
  { apply (wp_foldM_inv _ (λ '((alt, mw, aw) : tag_state),
      (ap_mindist ap = true → length alt = length (g_val g)) ∧ length mw = n ∧
      ∀ x, x ∈ map fst aw → x ∈ g_compl g)).
    { split_and!.
      - intros ->. by rewrite replicate_length.
      - by rewrite replicate_length.
      - simpl. set_solver. }
    intros i [[alt mw] aw] Hi (Hal & Hmw & Haw). apply elem_of_hset in Hi.
    pose proof (Hcompl _ Hi) as Hin. unfold tag_cell. wstep.
    assert (wp (p ← vget prio i; Ok (pset_insert (i, p) aw))
      (λ aw : list (nat * W), ∀ x, x ∈ map fst aw → x ∈ g_compl g)) as Hins.
    { wstep. apply prio_get; [done|]. intros w. simpl. intros x.
      rewrite pset_insert_fst. simpl. intros [->|]; auto. }
    eapply (wp_mono _ (λ aw : list (nat * W), ∀ x, x ∈ map fst aw → x ∈ g_compl g)).
    { destruct (wlt thr w0); [done|]. wstep. apply minmax_weight_ok; [done|].
      intros mm. destruct (wle _ _); done. }
    intros aw' Haw'. destruct (ap_mindist ap) eqn:Hmd.
    - wstep. eapply wp_mono; [apply inv_dists_ok; auto|]. intros r Hr.
      wstep. apply wp_vset; [lia|]. simpl. rewrite insert_length. done.
    - wstep. assert (wp (if wlt thr w0 then w ← wgts g i; wmax_element w
        else mm ← minmax_weight g i; Ok mm.2) (λ _, True)) as Hm.
      { destruct (wlt thr w0) eqn:Ht.
        - rewrite (wgts_ok g WF) by done. rewrite bind_ok.
          specialize (Hsafe Hmd Ht _ Hi). pose proof (adjw_length g WF i) as Hl.
          destruct (adjw g i); simpl; [|done]. by destruct (adj g i).
        - wstep. by apply minmax_weight_ok. }
      eapply wp_mono; [apply Hm|]. intros m _. wstep. apply wp_vset; [lia|].
      simpl. rewrite insert_length. done. }
  intros [[alt mw] aw] (Hal & Hmw & Haw). wstep. eapply wp_mono.
  { apply (wp_foldM _ (λ (pre : list nat) (ia : list bool),
      length ia = n ∧ ∀ x, ia !! x = Some true ↔ x ∈ pre)).
    { rewrite replicate_length. split; [done|]. intros x. rewrite lookup_replicate. set_solver. }
    intros pre x post ia Heq [Hl Hia].
    assert (x < n) as Hx by (apply Hcompl, Haw; rewrite Heq; set_solver).
    apply wp_vset; [lia|]. rewrite insert_length. split; [done|].
    intros y. rewrite elem_of_app, elem_of_list_singleton, <- Hia.
    destruct (decide (y = x)) as [->|Hne].
    - rewrite list_lookup_insert by lia. naive_solver.
    - rewrite list_lookup_insert_ne by done. naive_solver. }
  intros ia [Hl Hia]. simpl. done.
Qed.

Section build.
Context (ap : aniso_params) (ws mw : list W).
Context (Hws : length ws = length (g_val g)) (Hmw : length mw = n).

Lemma nbrs_ref_ok i : i < n →
  wp (nbrs_ref g ws i) (λ l, ∀ p, p ∈ l → p.1 ∈ adj g i).
Proof.
  intros Hi. unfold nbrs_ref. destruct (row_off i Hi) as (off & Hoff & Hle).
  rewrite (vget_ok _ _ _ Hoff), bind_ok, (nbrs_ok g WF) by done. rewrite bind_ok.
  rewrite vrange_ok by (rewrite ?Hws, ?(wg_val _ WF); lia). simpl.
  intros [x w] Hp. apply elem_of_zip_l in Hp. done.
Qed.

Definition cand_ok seed (tr : list bool) (s : list (nat * W)) : Prop :=
  ∀ p, p ∈ s → p.1 ∈ adj g seed ∧ tr !! p.1 = Some true.
Lemma cand_ok_insert seed tr s p :
  cand_ok seed tr s → p.1 ∈ adj g seed → tr !! p.1 = Some true → cand_ok seed tr (pset_insert p s).
Proof.
  intros Hs Hp1 Hp2 q Hq.
  assert (q.1 ∈ map fst (pset_insert p s)) as Hq1 by (apply elem_of_list_fmap; eauto).
  apply pset_insert_fst in Hq1 as [->|Hq1]; [done|].
  apply elem_of_list_fmap in Hq1 as (r & -> & Hr). by apply Hs.
Qed.

Lemma cand_max_weight_ok seed tr : seed < n → length tr = n →
  wp (cand_max_weight g seed tr ws mw) (cand_ok seed tr).
Proof.
  intros Hs Htr. unfold cand_max_weight. wstep. eapply wp_mono; [by apply nbrs_ref_ok|].
  intros l Hl. apply wp_foldM_inv.
  { intros p Hp. by apply elem_of_nil in Hp. }
  intros [x w] s Hx Hsok. apply Hl in Hx. simpl in Hx. wstep.
  apply wp_vget; [rewrite Htr; by eapply adj_lt|]. intros [] Ht; [|done].
  wstep. apply wp_vget; [lia|]. intros m _. simpl.
  destruct (is_high_coupling w m); [|done]. by apply cand_ok_insert.
Qed.
Lemma cand_direction_ok seed tr dir check : seed < n → length tr = n → length dir = dimc →
  wp (cand_direction g seed tr ws mw dir check) (cand_ok seed tr).
Proof.
  intros Hs Htr Hdir. unfold cand_direction. wstep. eapply wp_mono; [by apply nbrs_ref_ok|].
  intros l Hl. wstep. apply cen_get; [lia|]. intros c0 Hc0. apply wp_foldM_inv.
  { intros p Hp. by apply elem_of_nil in Hp. }
  intros [x w] s Hx Hsok. apply Hl in Hx. simpl in Hx. wstep.
  apply wp_vget; [rewrite Htr; by eapply adj_lt|]. intros [] Ht; [|done].
  wstep. assert (wp (if check then m ← vget mw seed; Ok (is_high_coupling w m) else Ok true)
    (λ _, True)) as Hm.
  { destruct check; [|done]. wstep. by apply wp_vget; [lia|]. }
  eapply wp_mono; [apply Hm|]. intros [] _; [|done].
  wstep. apply cen_get; [by eapply adj_lt|]. intros cn Hcn.
  wstep. apply cen_get; [done|]. intros cs Hcs.
  wstep. eapply wp_mono; [apply get_direction_ok; rewrite ?replicate_length; lia|].
  intros cur Hcur. rewrite replicate_length in Hcur.
  wstep. apply dot_product_ok; [lia|]. intros dot. simpl.
  destruct (_ && _); [|done]. by apply cand_ok_insert.
Qed.

Section one.
Context (tr0 : list bool) (primal : nat) (Htr0 : length tr0 = n) (Hpr : tr0 !! primal = Some true).
Record line_inv (s : line_st) : Prop := {
  li_len : length (ls_tt s) = n;
  li_tt : ∀ x, ls_tt s !! x = Some true ↔ tr0 !! x = Some true ∧ x ∉ ls_line s;
  li_sub : ∀ x, x ∈ ls_line s → tr0 !! x = Some true;
  li_nd : NoDup (ls_line s);
  li_path : path E (ls_line s);
  li_end : if ls_opp s then head (ls_line s) = Some (ls_seed s)
           else last (ls_line s) = Some (ls_seed s) ∧ head (ls_line s) = Some primal;
  li_dir : length (ls_dir s) = dimc;
  li_pdir : ∀ d, ls_primal s = Some d → length d = dimc;
  li_pne : ls_seed s ≠ primal → ls_primal s ≠ None;
}.
Definition line_measure (s : line_st) : nat :=
  count_true (ls_tt s) + if ls_opp s then 0 else 1.

Lemma line_seed_lt s : line_inv s → ls_seed s < n.
Proof.
  intros HI. assert (ls_seed s ∈ ls_line s) as Hs.
  { pose proof (li_end _ HI) as He. destruct (ls_opp s).
    - destruct (ls_line s); simpl in *; simplify_eq. left.
    - destruct He as [He _]. by apply last_Some_elem_of. }
  apply (li_sub _ HI), lookup_lt_Some in Hs. lia.
Qed.

Lemma line_add_ok s c : line_inv s → c ∈ adj g (ls_seed s) → ls_tt s !! c = Some true →
  wp (line_add g s c) (λ s', line_inv s' ∧ line_measure s' < line_measure s).
Proof.
  intros HI Hc Ht. pose proof (line_seed_lt s HI) as Hs.
  assert (c < n) as Hcn by by eapply adj_lt.
  unfold line_add. wstep. apply wp_vset; [by rewrite (li_len _ HI)|].
  wstep. apply cen_get; [done|]. intros cn Hcl. wstep. apply cen_get; [done|]. intros co Hco.
  wstep. eapply wp_mono; [apply get_direction_ok; rewrite ?(li_dir _ HI); lia|]. intros dir Hdl.
  rewrite (li_dir _ HI) in Hdl. simpl.
  destruct (proj1 (li_tt _ HI c) Ht) as [Hc0 Hcl'].
  pose proof (li_end _ HI) as He.
  split; [split; simpl|].
  - by rewrite insert_length, (li_len _ HI).
  - intros x. assert (x ∈ (if ls_opp s then c :: ls_line s else ls_line s ++ [c]) ↔ x = c ∨ x ∈ ls_line s) as ->.
    { destruct (ls_opp s); set_solver. }
    destruct (decide (x = c)) as [->|Hne].
    + rewrite list_lookup_insert by (by rewrite (li_len _ HI)). naive_solver.
    + rewrite list_lookup_insert_ne by done. rewrite (li_tt _ HI). naive_solver.
  - intros x Hx. assert (x = c ∨ x ∈ ls_line s) as [->|Hx'] by (destruct (ls_opp s); set_solver); [done|].
    by apply (li_sub _ HI).
  - pose proof (li_nd _ HI). destruct (ls_opp s).
    + by constructor.
    + apply NoDup_app. split_and!; [done| |apply NoDup_singleton].
      intros x Hx Hx'. apply elem_of_list_singleton in Hx' as ->. done.
  - apply elem_of_adj in Hc. destruct (ls_opp s).
    + eapply path_cons; [|done|apply HI]. by apply (wg_sym _ WF).
    + eapply path_snoc; [done|apply He|apply HI].
  - destruct (ls_opp s); [done|]. split; [apply last_snoc|].
    destruct He as [_ He]. by destruct (ls_line s).
  - done.
  - intros d. destruct (ls_primal s) as [d'|] eqn:Hp; intros [= <-]; [by apply (li_pdir _ HI)|done].
  - intros _. by destruct (ls_primal s).
  - unfold line_measure. simpl. rewrite <- (count_true_insert_false _ _ Ht). lia.
Qed.

Lemma line_turn_ok s : line_inv s →
  wp (line_turn primal s) (λ o, ∀ s', o = Some s' → line_inv s' ∧ line_measure s' < line_measure s).
Proof.
  intros HI. unfold line_turn. destruct (negb (ls_opp s) && _) eqn:Hc; [|done].
  apply andb_true_iff in Hc as [Hopp Hne]. apply bool_decide_eq_true in Hne.
  destruct (ls_opp s) eqn:Ho; [done|]. clear Hopp.
  destruct (ls_primal s) as [d|] eqn:Hd; [|by destruct (li_pne _ HI)].
  simpl. pose proof (li_pdir _ HI _ Hd) as Hdl. pose proof (li_end _ HI) as He. rewrite Ho in He.
  rewrite decide_True by (rewrite (li_dir _ HI); lia). simpl.
  intros s' [= <-]. split; [split; simpl|].
  - apply HI.
  - apply HI.
  - apply HI.
  - apply HI.
  - apply HI.
  - apply He.
  - rewrite map_length, take_length, (li_dir _ HI). lia.
  - by intros ? [= <-].
  - done.
  - unfold line_measure. simpl. rewrite Ho. lia.
Qed.

Lemma line_step_ok s : line_inv s →
  wp (line_step ap g ws mw primal s)
    (λ o, ∀ s', o = Some s' → line_inv s' ∧ line_measure s' < line_measure s).
Proof.
  intros HI. pose proof (line_seed_lt s HI) as Hs. unfold line_step. wstep.
  assert (wp (if negb (ap_force ap) || ls_empty s
    then cand_max_weight g (ls_seed s) (ls_tt s) ws mw
    else cand_direction g (ls_seed s) (ls_tt s) ws mw (ls_dir s) true)
    (cand_ok (ls_seed s) (ls_tt s))) as Hc.
  { destruct (_ || _); [apply cand_max_weight_ok|apply cand_direction_ok]; try done; apply HI. }
  eapply wp_mono; [apply Hc|]. clear Hc. intros [|[c w] cs] Hcs.
  - destruct (_ && _); [|by apply line_turn_ok].
    wstep. eapply wp_mono; [apply cand_direction_ok; try done; apply HI|].
    intros [|[c w] cs] Hcs'; [by apply line_turn_ok|].
    destruct (Hcs' (c, w)) as [Hc1 Hc2]; [left|]. wstep.
    eapply wp_mono; [by apply line_add_ok|]. simpl. by intros s' ? ? [= <-].
  - destruct (Hcs (c, w)) as [Hc1 Hc2]; [left|]. wstep.
    eapply wp_mono; [by apply line_add_ok|]. simpl. by intros s' ? ? [= <-].
Qed.
Lemma line_loop_ok fuel s : line_inv s → line_measure s < fuel →
  wp (line_loop fuel ap g ws mw primal s) line_inv.
Proof.
  revert s. induction fuel as [|fuel IH]; intros s HI Hf; [lia|]. simpl. wstep.
  eapply wp_mono; [by apply line_step_ok|]. intros [s'|] Hs'; [|done].
  destruct (Hs' s' eq_refl) as [HI' Hm]. apply IH; [done|lia].
Qed.
End one.

(** The lines built so far, all made of cells which are not to be treated any more. *)
Record lines_inv (tr : list bool) (lines : list (list nat)) : Prop := {
  lb_len : length tr = n;
  lb_tr : ∀ x, tr !! x = Some true → x ∈ g_compl g;
  lb_size : ∀ l, l ∈ lines → 2 ≤ length l;
  lb_path : ∀ l, l ∈ lines → path E l;
  lb_nd : NoDup (concat lines);
  lb_cells : ∀ x, x ∈ concat lines → x ∈ g_compl g ∧ tr !! x ≠ Some true;
}.

Lemma build_line_ok tr lines i : lines_inv tr lines → i < n →
  wp (build_line ap g ws mw dimc (tr, lines) i) (λ r, lines_inv r.1 r.2).
Proof.
  intros HI Hi. unfold build_line. wstep. apply wp_vget; [by rewrite (lb_len _ _ HI)|].
  intros [] Hb; [|done]. wstep. apply wp_vset; [by rewrite (lb_len _ _ HI)|].
  wstep. eapply wp_mono.
  { apply (line_loop_ok tr i (lb_len _ _ HI) Hb).
    - split; simpl.
      + by rewrite insert_length, (lb_len _ _ HI).
      + intros x. rewrite elem_of_list_singleton. destruct (decide (x = i)) as [->|Hne].
        * rewrite list_lookup_insert by (by rewrite (lb_len _ _ HI)). naive_solver.
        * rewrite list_lookup_insert_ne by done. naive_solver.
      + intros x Hx. apply elem_of_list_singleton in Hx as ->. done.
      + apply NoDup_singleton.
      + apply path_single.
      + done.
      + by rewrite replicate_length.
      + done.
      + done.
    - unfold line_measure. simpl. pose proof (count_true_le (<[i:=false]> tr)). lia. }
  intros s HL. simpl.
  assert (∀ x, x ∈ g_compl g ∧ tr !! x ≠ Some true → x ∈ g_compl g ∧ ls_tt s !! x ≠ Some true) as Hold.
  { intros x [H1 H2]. split; [done|]. rewrite (li_tt _ _ _ HL). naive_solver. }
  case_bool_decide as Hl2.
  - split; simpl.
    + apply HL.
    + intros x Hx. apply (li_tt _ _ _ HL) in Hx as [Hx _]. by apply HI.
    + intros l Hl. apply elem_of_app in Hl as [Hl|Hl]; [by apply HI|].
      apply elem_of_list_singleton in Hl as ->. lia.
    + intros l Hl. apply elem_of_app in Hl as [Hl|Hl]; [by apply HI|].
      apply elem_of_list_singleton in Hl as ->. apply HL.
    + rewrite concat_app. simpl. rewrite app_nil_r. apply NoDup_app. split_and!; [apply HI| |apply HL].
      intros x Hx Hx'. apply (lb_cells _ _ HI) in Hx as [_ Hx]. apply Hx. by apply (li_sub _ _ _ HL).
    + intros x. rewrite concat_app. simpl. rewrite app_nil_r, elem_of_app. intros [Hx|Hx].
      * by apply Hold, HI.
      * split; [by apply (lb_tr _ _ HI), (li_sub _ _ _ HL)|]. rewrite (li_tt _ _ _ HL). naive_solver.
  - split; simpl.
    + apply HL.
    + intros x Hx. apply (li_tt _ _ _ HL) in Hx as [Hx _]. by apply HI.
    + apply HI.
    + apply HI.
    + apply HI.
    + intros x Hx. by apply Hold, HI.
Qed.
End build.

Record good_lines (lines : list (list nat)) : Prop := {
  gl_size : ∀ l, l ∈ lines → 2 ≤ length l;
  gl_path : ∀ l, l ∈ lines → path E l;
  gl_nd : NoDup (concat lines);
  gl_lt : ∀ x, x ∈ concat lines → x < n;
}.

Lemma build_anisotropic_lines_ok ap thr : tag_safe ap thr →
  wp (build_anisotropic_lines ap g prio thr) (λ lines,
    good_lines lines ∧ ∀ x, x ∈ concat lines → x ∈ g_compl g).
Proof.
  intros Hsafe. unfold build_anisotropic_lines. wstep.
  eapply wp_mono; [by apply tag_anisotropic_ok|].
  intros [[[alt mw] tr] seeds] (Halt & Hmw & Htr & Hts & Hseeds).
  destruct seeds as [|i0 seeds0] eqn:Hse.
  { simpl. split; [|set_solver]. split; simpl; try set_solver. constructor. }
  rewrite <- Hse in Hts, Hseeds. assert (0 < n) as Hn.
  { assert (i0 < n); [|lia]. apply Hcompl, Hseeds. rewrite Hse. left. }
  rewrite <- Hse. clear Hse i0 seeds0.
  wstep. apply cen_get; [done|]. intros c0 Hc0. rewrite Hc0. wstep.
  set (ws := if ap_mindist ap then alt else g_val g).
  assert (length ws = length (g_val g)) as Hws.
  { unfold ws. destruct (ap_mindist ap); auto. }
  eapply wp_mono.
  { apply (wp_foldM_inv _ (λ st : list bool * list (list nat), lines_inv st.1 st.2)).
    - split; simpl.
      + done.
      + intros x Hx. by apply Hseeds, Hts.
      + intros l Hl. by apply elem_of_nil in Hl.
      + intros l Hl. by apply elem_of_nil in Hl.
      + constructor.
      + intros x Hx. by apply elem_of_nil in Hx.
    - intros i [tr' lines'] Hi HI. apply build_line_ok; [done..|]. by apply Hcompl, Hseeds. }
  intros [tr' lines] HI. simpl. split; [split|].
  - apply HI.
  - apply HI.
  - apply HI.
  - intros x Hx. by apply Hcompl, (lb_cells _ _ HI).
  - intros x Hx. by apply (lb_cells _ _ HI).
Qed.

End lines.
