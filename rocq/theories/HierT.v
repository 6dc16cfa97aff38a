(** * HierT: several levels of agglomeration of a regular grid (C70) *)

From Verif Require Import Base Main UtilM Spec SpecGrid SpecChain SpecCoarse SpecHier SpecMove.
From Verif Require Import ApiP ApiT MoveT GridU CoarseT CoarseU ChainT.

(** ** Counting and adding over the directions *)

Lemma sum_lt (f g : nat → nat) (l : list nat) : (∀ k, k ∈ l → f k ≤ g k) → (∃ k, k ∈ l ∧ f k < g k) →
  sum_list (f <$> l) < sum_list (g <$> l).
Proof.
  intros Hle (k & Hk & Hlt). induction l as [|a l IH]; [by apply elem_of_nil in Hk|]. rewrite !fmap_cons. cbn [sum_list_with id].
  assert (sum_list (f <$> l) ≤ sum_list (g <$> l)) as Hs.
  { clear IH Hk. induction l as [|b l IH]; [done|]. rewrite !fmap_cons. cbn [sum_list_with id].
    assert (f b ≤ g b) by (apply Hle; set_solver). feed pose proof IH; [intros c Hc; apply Hle; set_solver|]. lia. }
  assert (f a ≤ g a) by (apply Hle; set_solver).
  apply elem_of_cons in Hk as [->|Hk]; [lia|]. feed pose proof IH; [intros c Hc; apply Hle; set_solver|done|lia].
Qed.

Lemma count_le (P Q : nat → Prop) `{!∀ k, Decision (P k), !∀ k, Decision (Q k)} (l : list nat) :
  (∀ k, k ∈ l → P k → Q k) → length (filter P l) ≤ length (filter Q l).
Proof.
  intros HPQ. induction l as [|a l IH]; [done|]. rewrite !filter_cons.
  feed pose proof IH; [intros k Hk; apply HPQ; set_solver|].
  destruct (decide (P a)) as [Ha|Ha].
  - rewrite decide_True by (apply HPQ; [set_solver|done]). simpl. lia.
  - destruct (decide (Q a)); simpl; lia.
Qed.

Section hier.
Context {A : Arith} {H : HashOrder}.

(** ** Grids are in one piece *)

Lemma grid_one_piece i (size : nat → nat) (co : nat → nat → nat) :
  (∀ x k, x < in_n i → k < axes i → co x k < size k) →
  (∀ f : nat → nat, (∀ k, k < axes i → f k < size k) → ∃ x, x < in_n i ∧ ∀ k, k < axes i → co x k = f k) →
  (∀ x y, x < in_n i → y < in_n i → (∀ k, k < axes i → co x k = co y k) → x = y) →
  (∀ x y, x < in_n i → y < in_n i →
    in_edge i x y ↔ ∃ k, k < axes i ∧ (co y k = S (co x k) ∨ co x k = S (co y k)) ∧
      ∀ j, j < axes i → j ≠ k → co x j = co y j) →
  in_connected i.
Proof.
  intros Rin Rall Rone Redge x y Hx Hy.
  set (dist a b := (a - b) + (b - a)).
  remember (sum_list ((λ k, dist (co y k) (co x k)) <$> seq 0 (axes i))) as n eqn:Hn.
  revert y Hy Hn. induction (lt_wf n) as [n _ IH]. intros y Hy ->.
  destruct (decide (Forall (λ k, co x k = co y k) (seq 0 (axes i)))) as [Hall|Hne].
  { exists 0. constructor. symmetry. apply Rone; [done..|]. intros k Hk. rewrite Forall_forall in Hall.
    apply Hall, elem_of_seq. lia. }
  apply not_Forall_Exists in Hne; [|apply _]. apply Exists_exists in Hne as (k & Hk & Hne). simpl in Hne.
  apply elem_of_seq in Hk.
  pose proof (Rin x k Hx ltac:(lia)) as Hxk. pose proof (Rin y k Hy ltac:(lia)) as Hyk.
  set (v := if decide (co x k < co y k) then co y k - 1 else S (co y k)).
  destruct (Rall (λ j, if decide (j = k) then v else co y j)) as (z & Hz & Hzc).
  { intros j Hj. destruct (decide (j = k)) as [->|]; [unfold v; case_decide; lia|]. by apply Rin. }
  destruct (IH (sum_list ((λ k, dist (co z k) (co x k)) <$> seq 0 (axes i)))) with (y := z) as [n Hw]; [|done|done|].
  { apply sum_lt.
    - intros j Hj. apply elem_of_seq in Hj. rewrite Hzc by lia. destruct (decide (j = k)) as [->|]; [|lia].
      unfold dist, v. case_decide; lia.
    - exists k. split; [apply elem_of_seq; lia|]. rewrite Hzc, decide_True by (done || lia). unfold dist, v. case_decide; lia. }
  exists (S n). econstructor; [exact Hw| |done]. apply Redge; [done..|].
  exists k. split; [lia|]. split.
  - rewrite Hzc, decide_True by (done || lia). unfold v. case_decide; lia.
  - intros j Hj Hjk. by rewrite Hzc, decide_False.
Qed.

Lemma grid_connected i size co : regular_grid i size co → in_connected i.
Proof. intros []. by eapply grid_one_piece. Qed.

Lemma even_regular i half co : regular_grid i (λ k, 2 * half k) co → even_grid i half co.
Proof. intros []. by split. Qed.

(** ** One level *)

Lemma grid_level i o half co compl : good_call i o → in_aniso i = false →
  simple_csr (in_row i) (in_col i) → weak_order wlt (λ _, True) → regular_grid i (λ k, 2 * half k) co →
  in_max i = (2 ^ in_dim i)%Z → in_dim i = 2%Z ∨ in_nbh i = 0%Z ∧ in_iter i = 1%Z →
  ∃ r g co', agglomerate_one_level i o = (r, Ok ()) ∧ build_coarse_graph (fine_graph i) (o_fc2cc r) = Ok g ∧
    good_call (next_input i g compl) r ∧ simple_csr (cg_idx g) (cg_adj g) ∧
    regular_grid (next_input i g compl) half co' ∧
    ∀ x, x < in_n i → ∃ c, o_fc2cc r !! x = Some c ∧ c < in_n (next_input i g compl) ∧
      ∀ k, k < axes i → co' c k = co x k / 2.
Proof.
  intros HG Ha Hsi WO RG Hmx Hmode.
  assert (¬ aniso_on i o) as Hna by (intros [? _]; congruence).
  pose proof (grid_connected _ _ _ RG) as HC.
  destruct (C01_lem i o HG) as (r & He & Hlen). exists r.
  destruct (C67_lem i o half co r _ HG Hna Hsi WO (even_regular _ _ _ RG) Hmx Hmode He) as (_ & _ & Hb).
  destruct (next_good (uncorrected i) o compl (good_uncorrected i o HG) HC (or_introl eq_refl) WO) as (r0 & g & He0 & Hg & Hids & HG' & _).
  { simpl. congruence. }
  change (fine_graph (uncorrected i)) with (fine_graph i) in Hg.
  assert (o_fc2cc r = o_fc2cc r0) as Hrr.
  { destruct (in_corr i) eqn:Hc.
    - exact (grid_corrected i o half co r r0 _ _ HG Hna Hsi WO (even_regular _ _ _ RG) Hmx Hmode Hc He0 He).
    - replace (uncorrected i) with i in He0 by (destruct i; simpl in *; by rewrite Hc). congruence. }
  rewrite <- Hrr in Hg, Hids.
  pose proof (gc_mesh _ _ HG) as WM.
  pose proof (fine_ok_of i r WM HC Hlen) as FO.
  destruct (C20_lem _ _ FO) as (g' & m & Hg' & Hm & Hmax & C1 & C2 & C3 & C4 & C5 & C6 & C7 & C8 & C9).
  rewrite Hg in Hg'. injection Hg' as <-.
  assert (in_n (next_input i g compl) = S m) as Hn.
  { unfold in_n. simpl. rewrite (csr_len _ _ _ C1). lia. }
  rewrite C6 in Hids.
  set (rep c := default 0 (head (fine_of (o_fc2cc r) c))).
  assert (∀ c, c < S m → rep c < in_n i ∧ o_fc2cc r !! rep c = Some c) as Hrep.
  { intros c Hc. apply Hids, elem_of_list_lookup in Hc as [x Hx].
    assert (x ∈ fine_of (o_fc2cc r) c) as Hxf.
    { apply elem_of_list_filter. split; [done|]. apply elem_of_seq. apply lookup_lt_Some in Hx. lia. }
    unfold rep. destruct (fine_of (o_fc2cc r) c) as [|z l] eqn:Hf; [by apply elem_of_nil in Hxf|]. simpl.
    assert (z ∈ fine_of (o_fc2cc r) c) as Hz by (rewrite Hf; left).
    apply elem_of_list_filter in Hz as [Hz Hz']. apply elem_of_seq in Hz'. split; [lia|done]. }
  set (co' c k := co (rep c) k / 2).
  assert (∀ x c, o_fc2cc r !! x = Some c → x < in_n i ∧ c < S m) as Hdom.
  { intros x c Hx. split; [rewrite <- Hlen; by eapply lookup_lt_Some|]. apply Hids. by eapply elem_of_list_lookup_2. }
  assert (∀ x c, o_fc2cc r !! x = Some c → ∀ k, k < axes i → co' c k = co x k / 2) as Hco.
  { intros x c Hx. destruct (Hdom _ _ Hx) as [Hxn Hc]. destruct (Hrep c Hc) as [Hr1 Hr2].
    apply (Hb (rep c) x); [done..|congruence]. }
  assert (∀ x c, x < in_n i → c < S m → (∀ k, k < axes i → co x k / 2 = co' c k) → o_fc2cc r !! x = Some c) as Hbk.
  { intros x c Hx Hc Hk. destruct (Hrep c Hc) as [Hr1 Hr2]. rewrite <- Hr2. apply Hb; [done..|]. exact Hk. }
  exists g, co'. split; [done|]. split; [done|]. split; [|split; [done|split]].
  - destruct HG' as [[] [] G1 G2 G3]. split; [by split|by split|done|done|].
    intros [Han _] _. simpl in Han. congruence.
  - split; rewrite ?Hn; change (axes (next_input i g compl)) with (axes i).
    + intros c k Hc Hk. destruct (Hrep c Hc) as [Hr1 _]. pose proof (rg_in _ _ _ RG (rep c) k Hr1 Hk) as Hlt. cbn beta in Hlt.
      unfold co'. apply Nat.div_lt_upper_bound; lia.
    + intros f Hf. destruct (rg_all _ _ _ RG (λ k, 2 * f k)) as (x & Hx & Hxc).
      { intros k Hk. specialize (Hf k Hk). lia. }
      destruct (lookup_lt_is_Some_2 (o_fc2cc r) x) as [c Hc]; [lia|]. destruct (Hdom _ _ Hc) as [_ Hcm].
      exists c. split; [done|]. intros k Hk. rewrite (Hco _ _ Hc) by done. rewrite Hxc by done.
      rewrite Nat.mul_comm. by apply Nat.div_mul.
    + intros a b Hac Hbc Hab. destruct (Hrep a Hac) as [Ha1 Ha2], (Hrep b Hbc) as [Hb1 Hb2].
      assert (o_fc2cc r !! rep a = o_fc2cc r !! rep b) as Heq; [|congruence].
      apply Hb; [done..|]. exact Hab.
    + intros a b Hac Hbc. unfold in_edge. simpl. rewrite C3. split.
      * intros (Hne & x & y & Hx & Hy & Hxy). destruct (Hdom _ _ Hx) as [Hxn _], (Hdom _ _ Hy) as [Hyn _].
        apply (rg_edge _ _ _ RG) in Hxy as (k & Hk & Hd & Ho); [|done..].
        assert (∀ j, j < axes i → j ≠ k → co' a j = co' b j) as Hj.
        { intros j Hj Hjk. rewrite (Hco _ _ Hx), (Hco _ _ Hy), Ho by done. done. }
        exists k. split; [done|]. split; [|done]. rewrite (Hco _ _ Hx), (Hco _ _ Hy) by done.
        assert (co x k / 2 ≠ co y k / 2) as Hneq.
        { intros Heq. apply Hne. assert (o_fc2cc r !! x = o_fc2cc r !! y) as Hl; [|congruence].
          apply Hb; [done..|]. intros j Hj'. destruct (decide (j = k)) as [->|]; [done|]. by rewrite Ho. }
        pose proof (Nat.div_mod (co x k) 2 ltac:(lia)). pose proof (Nat.div_mod (co y k) 2 ltac:(lia)).
        pose proof (Nat.mod_upper_bound (co x k) 2 ltac:(lia)). pose proof (Nat.mod_upper_bound (co y k) 2 ltac:(lia)). lia.
      * intros (k & Hk & Hd & Ho).
        assert (∀ c, c < S m → ∀ k, k < axes i → co' c k < half k) as Hin.
        { intros c Hc k' Hk'. destruct (Hrep c Hc) as [Hr1 _]. pose proof (rg_in _ _ _ RG (rep c) k' Hr1 Hk') as Hlt. cbn beta in Hlt.
          unfold co'. apply Nat.div_lt_upper_bound; lia. }
        destruct (rg_all _ _ _ RG (λ j, if decide (j = k) then (if decide (co' a k < co' b k) then S (2 * co' a k) else 2 * co' a k) else 2 * co' a j)) as (x & Hx & Hxc).
        { intros j Hj. pose proof (Hin a Hac j Hj). destruct (decide (j = k)) as [->|]; [case_decide|]; lia. }
        destruct (rg_all _ _ _ RG (λ j, if decide (j = k) then (if decide (co' a k < co' b k) then 2 * co' b k else S (2 * co' b k)) else 2 * co' b j)) as (y & Hy & Hyc).
        { intros j Hj. pose proof (Hin b Hbc j Hj). destruct (decide (j = k)) as [->|]; [case_decide|]; lia. }
        assert (∀ v, 2 * v / 2 = v) as Hev by (intros v; rewrite Nat.mul_comm; by apply Nat.div_mul).
        assert (∀ v, S (2 * v) / 2 = v) as Hod by (intros v; symmetry; apply (Nat.div_unique _ _ _ 1); lia).
        split; [intros ->; destruct Hd; lia|]. exists x, y. split; [|split].
        -- apply Hbk; [done..|]. intros j Hj. rewrite Hxc by done. destruct (decide (j = k)) as [->|]; [case_decide|]; auto.
        -- apply Hbk; [done..|]. intros j Hj. rewrite Hyc by done. destruct (decide (j = k)) as [->|]; [case_decide|]; auto.
        -- apply (rg_edge _ _ _ RG); [done..|]. exists k. split; [done|]. split.
           ++ rewrite Hxc, Hyc by done. repeat case_decide; lia.
           ++ intros j Hj Hjk. rewrite Hxc, Hyc, !decide_False by done. by rewrite Ho.
    + intros c b Hcb. simpl in Hcb. assert (c < S m) as Hc by (apply lookup_lt_Some in Hcb; lia).
      destruct (C24_lem (fine_graph i) (o_fc2cc r) FO) as (g' & m' & Hg' & _ & _ & _ & Hpb).
      { destruct WO. split; eauto. }
      { intros z Hz. apply elem_of_list_lookup in Hz as [k Hz]. apply (wf_bnd_pos _ WM) in Hz. unfold int_min. lia. }
      rewrite Hg in Hg'. injection Hg' as <-.
      destruct (Hpb c) as (p & b' & _ & Hb' & (x & Hx & Hxb) & Hmx' & _). { by apply Hids. }
      rewrite Hcb in Hb'. injection Hb' as <-.
      assert (∀ k, k < axes i → co' c k < half k) as Hin.
      { intros k Hk. destruct (Hrep c Hc) as [Hr1 _]. pose proof (rg_in _ _ _ RG (rep c) k Hr1 Hk) as Hlt. cbn beta in Hlt.
        unfold co'. apply Nat.div_lt_upper_bound; lia. }
      destruct (rg_all _ _ _ RG (λ k, if decide (co' c k = 0) then 0 else if decide (co' c k = half k - 1) then 2 * half k - 1 else 2 * co' c k)) as (z & Hz & Hzc).
      { intros k Hk. specialize (Hin k Hk). repeat case_decide; lia. }
      assert (o_fc2cc r !! z = Some c) as Hzr.
      { apply Hbk; [done..|]. intros k Hk. rewrite Hzc by done. specialize (Hin k Hk). repeat case_decide.
        - by rewrite H0.
        - symmetry. apply (Nat.div_unique _ _ _ 1); lia.
        - rewrite Nat.mul_comm. by apply Nat.div_mul. }
      destruct (lookup_lt_is_Some_2 (in_bnd i) z) as [bz Hbz]; [rewrite (wf_bnd _ WM); done|].
      pose proof (Hmx' z bz Hzr Hbz) as Hle.
      apply (rg_bnd _ _ _ RG) in Hxb, Hbz. cbn beta in Hxb, Hbz.
      assert (length (filter (λ k, co x k = 0 ∨ co x k = 2 * half k - 1) (seq 0 (axes i))) ≤
        length (filter (λ k, co' c k = 0 ∨ co' c k = half k - 1) (seq 0 (axes i)))) as H1.
      { apply count_le. intros k Hk Hor. apply elem_of_seq in Hk. rewrite (Hco _ _ Hx) by lia.
        destruct Hor as [->|Hor]; [by left|right]. symmetry. specialize (Hin k ltac:(lia)). apply (Nat.div_unique _ _ _ 1); lia. }
      assert (length (filter (λ k, co' c k = 0 ∨ co' c k = half k - 1) (seq 0 (axes i))) ≤
        length (filter (λ k, co z k = 0 ∨ co z k = 2 * half k - 1) (seq 0 (axes i)))) as H2.
      { apply count_le. intros k Hk Hor. apply elem_of_seq in Hk. rewrite Hzc by lia.
        destruct (decide (co' c k = 0)); [by left|]. destruct Hor as [?|Hor]; [done|]. rewrite decide_True by done. by right. }
      lia.
  - intros x Hx. destruct (lookup_lt_is_Some_2 (o_fc2cc r) x) as [c Hc]; [lia|]. exists c. split; [done|].
    rewrite Hn. split; [by apply (Hdom x)|]. by apply Hco.
Qed.

(** ** Any number of levels *)

Lemma C70_lem i o (cs : list (list nat)) size co : good_call i o → in_aniso i = false →
  simple_csr (in_row i) (in_col i) → weak_order wlt (λ _, True) →
  regular_grid i (λ k, 2 ^ length cs * size k) co →
  in_max i = (2 ^ in_dim i)%Z → in_dim i = 2%Z ∨ in_nbh i = 0%Z ∧ in_iter i = 1%Z →
  ∃ i' o' co', levels cs i o = Ok (i', o') ∧ good_call i' o' ∧ simple_csr (in_row i') (in_col i') ∧
    axes i' = axes i ∧ regular_grid i' size co' ∧ length (level_maps cs i o) = length cs ∧
    ∀ x, x < in_n i → ∃ c, follow (level_maps cs i o) x = Some c ∧ c < in_n i' ∧
      ∀ k, k < axes i → co' c k = co x k / 2 ^ length cs.
Proof.
  intros HG Ha Hsi WO. revert i o co HG Ha Hsi. induction cs as [|compl cs IH]; intros i o co HG Ha Hsi RG Hmx Hmode.
  - exists i, o, co. simpl. split; [done|]. split; [done|]. split; [done|]. split; [done|]. split.
    { destruct RG as [R1 R2 R3 R4 R5]. simpl in R1, R2, R5. setoid_rewrite Nat.add_0_r in R1. setoid_rewrite Nat.add_0_r in R2.
      split; [done..|]. intros x b Hx. rewrite (R5 x b Hx). do 2 f_equal. apply list_filter_iff. intros k. by rewrite Nat.add_0_r. }
    split; [done|]. intros x Hx. exists x. split; [done|]. split; [done|]. intros k Hk. symmetry. apply Nat.div_1_r.
  - destruct (grid_level i o (λ k, 2 ^ length cs * size k) co compl HG Ha Hsi WO) as (r & g & co1 & He & Hg & HG1 & Hsi1 & RG1 & Hm1); [|done..|].
    { destruct RG as [R1 R2 R3 R4 R5]. cbn [length Nat.pow] in R1, R2, R5. setoid_rewrite <- Nat.mul_assoc in R1. setoid_rewrite <- Nat.mul_assoc in R2.
      split; [done..|]. intros x b Hx. rewrite (R5 x b Hx). do 2 f_equal. apply list_filter_iff. intros k. by rewrite Nat.mul_assoc. }
    destruct (IH (next_input i g compl) r co1 HG1 Ha Hsi1 RG1 Hmx Hmode) as (i' & o' & co' & Hl & HG' & Hsi' & Hax & RG' & Hlen & Hf).
    exists i', o', co'. cbn [levels level_maps]. rewrite He. cbn [fst]. rewrite Hg, bind_ok. split; [exact Hl|]. split; [done|]. split; [done|].
    split; [done|]. split; [done|]. split; [by cbn [length]; f_equal|].
    intros x Hx. destruct (Hm1 x Hx) as (c & Hc & Hcn & Hcc). destruct (Hf c Hcn) as (d & Hd & Hdn & Hdc).
    exists d. cbn [follow]. rewrite Hc. split; [done|]. split; [done|]. intros k Hk. rewrite Hdc by done. rewrite Hcc by done.
    cbn [length Nat.pow]. apply Nat.div_div; [done|]. by apply Nat.pow_nonzero.
Qed.

(** The coarse cells after the last level are the blocks of [2 ^ length cs] cells in each direction. *)
Lemma C70_blocks_lem i o (cs : list (list nat)) size co : good_call i o → in_aniso i = false →
  simple_csr (in_row i) (in_col i) → weak_order wlt (λ _, True) →
  regular_grid i (λ k, 2 ^ length cs * size k) co →
  in_max i = (2 ^ in_dim i)%Z → in_dim i = 2%Z ∨ in_nbh i = 0%Z ∧ in_iter i = 1%Z →
  (∃ i' o' co', levels cs i o = Ok (i', o') ∧ good_call i' o' ∧ regular_grid i' size co') ∧
  length (level_maps cs i o) = length cs ∧
  ∀ x y, x < in_n i → y < in_n i →
    is_Some (follow (level_maps cs i o) x) ∧
    (follow (level_maps cs i o) x = follow (level_maps cs i o) y ↔
     ∀ k, k < axes i → co x k / 2 ^ length cs = co y k / 2 ^ length cs).
Proof.
  intros HG Ha Hsi WO RG Hmx Hmode.
  destruct (C70_lem i o cs size co HG Ha Hsi WO RG Hmx Hmode) as (i' & o' & co' & Hl & HG' & _ & Hax & RG' & Hlen & Hf).
  split; [by exists i', o', co'|]. split; [done|]. intros x y Hx Hy.
  destruct (Hf x Hx) as (c & Hc & Hcn & Hcc). destruct (Hf y Hy) as (d & Hd & Hdn & Hdc). rewrite Hc, Hd. split; [by eexists|]. split.
  - intros [= <-] k Hk. by rewrite <- Hcc, <- Hdc.
  - intros Hk. f_equal. apply (rg_one _ _ _ RG'); [done..|]. rewrite Hax. intros k Hk'. rewrite Hcc, Hdc by done. by apply Hk.
Qed.
End hier.
