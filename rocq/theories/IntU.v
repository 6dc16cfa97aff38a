(** * IntU: the checked functions differ from the unchecked ones only by stopping on an overflow *)

From Verif Require Import Lib Main Machine.

Definition ub {X} (a b : res X) : Prop := a = Err EUB ∨ a = b.
Lemma ub_refl {X} (a : res X) : ub a a.
Proof. by right. Qed.
Lemma ub_bind {X Y} (a b : res X) (f h : X → res Y) : ub a b → (∀ x, ub (f x) (h x)) → ub (x ← a; f x) (x ← b; h x).
Proof. intros [->| ->] Hf; [by left|]. destruct b; simpl; [apply Hf|by right]. Qed.
Lemma ub_cint {Y} z (f : Z → res Y) h : ub (f z) h → ub (x ← cint z; f x) h.
Proof. intros Hf. unfold cint. case_bool_decide; simpl; [done|by left]. Qed.
Lemma ub_cint1 z : ub (cint z) (Ok z).
Proof. unfold cint. case_bool_decide; [by right|by left]. Qed.
Lemma ub_cint0 {X} z (a b : res X) : ub a b → ub (_ ← cint z; a) b.
Proof. intros Hf. unfold cint. case_bool_decide; simpl; [done|by left]. Qed.
Lemma ub_cintr (a : res Z) : ub (k ← a; cint k) a.
Proof. destruct a; simpl; [apply ub_cint1|by right]. Qed.
Lemma ub_let {X Y} (a : res X) v (f : X → res Y) h : ub a (Ok v) → ub (f v) h → ub (x ← a; f x) h.
Proof. intros [->| ->] Hf; [by left|done]. Qed.
Lemma ub_foldM {X Y} (f h : Y → X → res Y) l b : (∀ b x, ub (f b x) (h b x)) → ub (foldM f l b) (foldM h l b).
Proof.
  intros Hf. revert b. induction l as [|x l IH]; intros b; simpl; [apply ub_refl|]. apply ub_bind; [done|]. apply IH.
Qed.

Ltac ub1 := match goal with
  | |- ub ?a ?a => apply ub_refl
  | |- ub (cint _) (Ok _) => apply ub_cint1
  | |- ub (mbind _ (cint _)) _ => apply ub_cint
  | |- ub (if ?b then _ else _) (if ?b then _ else _) => destruct b
  | |- ub (match ?b with _ => _ end) (match ?b with _ => _ end) => destruct b
  | |- ub (foldM _ _ _) (foldM _ _ _) => apply ub_foldM; intros
  | |- ub (mbind _ _) (mbind _ _) => apply ub_bind; [|intros]
  end; cbn [fst snd] in *; cbn zeta in *.
Ltac ubs := repeat (ub1 || (progress auto with ubdb)).

Section ubs.
Context {A : Arith} {H : HashOrder}.

Lemma nb_nbrs_ub g i : ub (nb_nbrs_c g i) (nb_nbrs g i).
Proof. unfold nb_nbrs_c. apply ub_cintr. Qed.
Hint Resolve nb_nbrs_ub : ubdb.
Lemma total_ub g i : ub (total_n_faces_c g i) (total_n_faces g i).
Proof. unfold total_n_faces_c, total_n_faces. ubs. Qed.
Hint Resolve total_ub : ubdb.
Lemma ebw_ub g i : ub (estimated_boundary_weight_c g i) (estimated_boundary_weight g i).
Proof. unfold estimated_boundary_weight_c, estimated_boundary_weight. ubs. Qed.
Hint Resolve ebw_ub : ubdb.
Lemma etw_ub g i : ub (estimated_total_weight_c g i) (estimated_total_weight g i).
Proof. unfold estimated_total_weight_c, estimated_total_weight. ubs. Qed.
Hint Resolve etw_ub : ubdb.
Lemma fcc_ub g s : ub (fc_compactness_c g s) (fc_compactness g s).
Proof. unfold fc_compactness_c, fc_compactness. ubs. Qed.
Hint Resolve fcc_ub : ubdb.
Lemma mc_ub g s : ub (min_compactness_c g s) (min_compactness g s).
Proof. unfold min_compactness_c, min_compactness. ubs. Qed.
Hint Resolve mc_ub : ubdb.
Lemma nbh_loop_ub fuel g aggl nbo mx dn dm k : ub (nbh_loop_c fuel g aggl nbo mx dn dm k) (nbh_loop fuel g aggl nbo mx dn dm k).
Proof. revert dn dm k. induction fuel as [|fuel IH]; intros dn dm k; cbn [nbh_loop_c nbh_loop]; ubs. Qed.
Hint Resolve nbh_loop_ub : ubdb.
Lemma nbh_ub g s nbo mx aggl : ub (compute_neighbourhood_c g s nbo mx aggl) (compute_neighbourhood_of_cc g s nbo mx aggl).
Proof. unfold compute_neighbourhood_c, compute_neighbourhood_of_cc. ubs. Qed.
Hint Resolve nbh_ub : ubdb.
Lemma foc_ub g i : ub (feats_of_cell_c g i) (feats_of_cell g i).
Proof. unfold feats_of_cell_c, feats_of_cell. ubs. Qed.
Hint Resolve foc_ub : ubdb.
Lemma ubas_ub cw uf g i f cc : ub (update_basic_c cw uf g i f cc) (update_basic cw uf g i f cc).
Proof. unfold update_basic_c, update_basic. ubs. Qed.
Hint Resolve ubas_ub : ubdb.
Lemma cf_ub k g i f cc : ub (compute_features_c k g i f cc) (compute_features k g i f cc).
Proof. unfold compute_features_c, compute_features. destruct k; ubs. Qed.
Hint Resolve cf_ub : ubdb.
Lemma bb_ub k g h dn ft cc arg faces out : ub (best_biconnected_c k g h dn ft cc arg faces out) (best_biconnected k g h dn ft cc arg faces out).
Proof. unfold best_biconnected_c, best_biconnected. ubs. Qed.
Hint Resolve bb_ub : ubdb.
Lemma bi_ub n k g prio h dn ft cc arg faces out :
  ub (best_iterative_c n k g prio h dn ft cc arg faces out) (best_iterative n k g prio h dn ft cc arg faces out).
Proof.
  revert h dn ft cc arg faces out. induction n as [|n IH]; intros; cbn [best_iterative_c best_iterative]; ubs.
Qed.
Hint Resolve bi_ub : ubdb.
Lemma cb_ub ip g prio h dn ft cc it : ub (compute_best_c ip g prio h dn ft cc it) (compute_best ip g prio h dn ft cc it).
Proof. unfold compute_best_c, compute_best. ubs. Qed.
Hint Resolve cb_ub : ubdb.
Lemma cu_ub tmp m c l : ub (compact_update_c tmp m c l) (Ok (compact_update tmp m c l)).
Proof.
  unfold compact_update_c, compact_update. eapply (ub_let _ (foldl (λ '(k, m) n,
      if bool_decide (n ∈ tmp)
      then ((k + 1)%Z, <[n := (default 0 (m !! n) + 1)%Z]> m) else (k, m)) (0%Z, m) l)).
  - generalize (0%Z, m). induction l as [|x l IH]; intros [z m']; [apply ub_refl|]. cbn [foldM foldl].
    destruct (bool_decide (x ∈ tmp)).
    + eapply ub_let; [|apply IH]. ubs.
    + apply IH.
  - destruct (foldl _ _ _). apply ub_refl.
Qed.
Lemma gs_ub ip g prio mi s : ub (grow_step_c ip g prio mi s) (grow_step ip g prio mi s).
Proof.
  unfold grow_step_c, grow_step. apply ub_bind; [apply ub_refl|]. intros l. apply ub_bind; [apply ub_refl|]. intros h.
  cbn zeta. apply ub_cint. apply ub_bind; [apply cb_ub|]. intros b. apply ub_bind; [apply nb_nbrs_ub|]. intros nn.
  apply ub_bind; [apply ub_refl|]. intros nb. do 6 apply ub_cint. apply ub_bind; [apply ub_refl|]. intros lc.
  eapply ub_let; [apply cu_ub|]. replace (Z.of_nat (gw_size s) + 1)%Z with (Z.of_nat (S (gw_size s))) by lia. apply ub_refl.
Qed.
Hint Resolve gs_ub : ubdb.
Lemma gl_ub k ip g prio mi s : ub (grow_loop_c k ip g prio mi s) (grow_loop k ip g prio mi s).
Proof. revert s. induction k as [|k IH]; intros s; simpl; ubs. Qed.
Hint Resolve gl_ub : ubdb.
Lemma co_ub ip g prio ct p seed : ub (choose_optimal_c ip g prio ct p seed) (choose_optimal ip g prio ct p seed).
Proof.
  unfold choose_optimal_c, choose_optimal. ubs. replace (Z.min (ip_max ip) (Z.of_nat (size x0.1) + 1) + 1 - 1)%Z
    with (Z.min (ip_max ip) (Z.of_nat (size x0.1) + 1)) by lia. ubs.
Qed.
Hint Resolve co_ub : ubdb.
Lemma il_ub fuel ip g prio ct p : ub (iso_loop_c fuel ip g prio ct p) (iso_loop fuel ip g prio ct p).
Proof. revert ct p. induction fuel as [|fuel IH]; intros ct p; cbn [iso_loop_c iso_loop]; unfold create_cc_c; ubs. Qed.
Hint Resolve il_ub : ubdb.
Lemma gsf_ub g fc cc : ub (get_shared_faces_c g fc cc) (get_shared_faces g fc cc).
Proof. unfold get_shared_faces_c, get_shared_faces. ubs. Qed.
Hint Resolve gsf_ub : ubdb.
Lemma cands_ub g ct fcs sf sf' ns : (∀ cc, ub (sf cc) (sf' cc)) → ub (cands_c g ct fcs sf ns) (cands g ct fcs sf' ns).
Proof. intros Hs. unfold cands_c, cands. ubs. Qed.
Lemma sbw_ub g ct fcs ns : ub (select_best_whole_c g ct fcs ns) (select_best_whole g ct fcs ns).
Proof. unfold select_best_whole_c, select_best_whole. apply ub_bind; [|intros; apply ub_refl]. apply cands_ub. intros. apply ub_refl. Qed.
Hint Resolve sbw_ub : ubdb.
Lemma sb_ub g ct fc ns : ub (select_best_c g ct fc ns) (select_best g ct fc ns).
Proof. unfold select_best_c, select_best. apply ub_bind; [|intros; apply ub_refl]. apply cands_ub. auto with ubdb. Qed.
Hint Resolve sb_ub : ubdb.
Lemma ic_ub g ccs id fcs cpt : ub (insert_cells_c g ccs id fcs cpt) (insert_cells g ccs id fcs cpt).
Proof. unfold insert_cells_c, insert_cells. ubs. Qed.
Hint Resolve ic_ub : ubdb.
Lemma cw_ub g ct fcs nb : ub (correct_whole_c g ct fcs nb) (correct_whole g ct fcs nb).
Proof. unfold correct_whole_c, correct_whole. ubs. Qed.
Hint Resolve cw_ub : ubdb.
Lemma cc_ub g ct nb l : ub (correct_cells_c g ct nb l) (correct_cells g ct nb l).
Proof. unfold correct_cells_c, correct_cells. apply ub_foldM. intros [rm ct'] i. ubs. Qed.
Hint Resolve cc_ub : ubdb.
Lemma cs_ub g ct rem old : ub (correct_step_c g ct rem old) (correct_step g ct rem old).
Proof. unfold correct_step_c, correct_step. ubs. Qed.
Hint Resolve cs_ub : ubdb.
Lemma corr_ub g ct : ub (correct_c g ct) (correct g ct).
Proof. unfold correct_c, correct. apply ub_bind; [|intros; apply ub_refl]. apply ub_foldM. intros [rem ct'] old. ubs. Qed.
Hint Resolve corr_ub : ubdb.
Lemma p2_ub i ct p : ub (phase2_c i ct p) (phase2 i ct p).
Proof. unfold phase2_c, phase2, iso_agglomerate_c, iso_agglomerate. ubs. Qed.
Lemma checked_or_ub i o : agglomerate_checked i o = agglomerate_one_level i o ∨ (agglomerate_checked i o).2 = Err EUB.
Proof.
  unfold agglomerate_checked, agglomerate_one_level. destruct (phase1 i o) as [[[ct p] lines]|]; [|by left].
  destruct (p2_ub i ct p) as [->| ->]; [by right|by left].
Qed.
End ubs.
