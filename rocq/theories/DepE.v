(** * DepE: examples for the deprecated containers *)

From Verif Require Import Lib Deprec SpecDep DepT DepU.

(** Queue and Priority_Pair *)
Lemma C48_queue_ex :
  let ops := [QPush 4; QPush 7; QPop; QPush 4; QPop] in
  (∀ k, pops (take k ops) ≤ length (pushed (take k ops))) ∧ q_run 99 ops = ([4; 7], [4]).
Proof.
  split; [|done]. intros k.
  do 6 (destruct k as [|k]; [vm_compute; lia|]). vm_compute. lia.
Qed.
Lemma C48_queue_reads_ex : q_top 99 [3; 5] = 3 ∧ q_pop 99 [] = (99, []).
Proof. done. Qed.
Lemma C48_priority_pair_ex :
  pp_lt Nat.ltb Nat.ltb (4, 9) (3, 1) = true ∧ pp_lt Nat.ltb Nat.ltb (4, 3) (4, 4) = true ∧
  pp_lt Nat.ltb Nat.ltb (3, 1) (4, 9) = false ∧ pp_eq Nat.eqb Nat.eqb (4, 9) (4, 9) = true.
Proof. done. Qed.

(** Bimap: two pairs, both keys of the first changed, the second erased. *)
Definition bops4 : list (bop nat nat) :=
  [BInsert 1 10; BInsert 2 20; BUpdateB 1 3; BUpdateA 10 30; BErase 2].
Lemma bops4_fit : bops_fit bops4 [(3, 30)].
Proof.
  assert (H0 : bops_fit (A := nat) (B := nat) [] []) by constructor.
  assert (H1 : bops_fit [BInsert 1 10] [(1, 10)]).
  { apply (bf_snoc [] [] (BInsert 1 10) H0). right. split; apply not_elem_of_nil. }
  assert (H2 : bops_fit [BInsert 1 10; BInsert 2 20] [(2, 20); (1, 10)]).
  { apply (bf_snoc _ _ (BInsert 2 20) H1). apply (bool_decide_unpack _). by vm_compute. }
  assert (H3 : bops_fit [BInsert 1 10; BInsert 2 20; BUpdateB 1 3] [(2, 20); (3, 10)]).
  { apply (bf_snoc _ _ (BUpdateB 1 3) H2). apply (bool_decide_unpack _). by vm_compute. }
  assert (H4 : bops_fit [BInsert 1 10; BInsert 2 20; BUpdateB 1 3; BUpdateA 10 30] [(2, 20); (3, 30)]).
  { apply (bf_snoc _ _ (BUpdateA 10 30) H3). apply (bool_decide_unpack _). by vm_compute. }
  apply (bf_snoc _ _ (BErase 2) H4). simpl. apply (bool_decide_unpack _). by vm_compute.
Qed.
Lemma C49_bimap_ex :
  bops_fit bops4 [(3, 30)] ∧
  match foldM bop_run bops4 bm_new with
  | Ok s => bm_getB s 3 = Ok 30 ∧ bm_getA s 30 = Ok 3 ∧ bm_getB s 1 = Err EUB ∧ bm_lung s = 1
  | Err _ => False
  end.
Proof. split; [exact bops4_fit|]. by vm_compute. Qed.
Lemma C49_clash_ex :
  bops_fit bops4 [(3, 30)] ∧ ¬ bop_fits [(3, 30)] (BInsert 3 40).
Proof.
  split; [exact bops4_fit|]. simpl. apply (bool_decide_unpack _). by vm_compute.
Qed.

(** A key inserted twice: the two ways of looking up are not inverse. *)
Lemma C49_insert_ref :
  ∃ (ops : list (bop nat nat)) s a b,
    foldM bop_run ops bm_new = Ok s ∧ bm_getA s b = Ok a ∧ bm_getB s a ≠ Ok b.
Proof.
  exists [BInsert 1 10; BInsert 1 20].
  eexists _, 1, 20. split; [done|]. by vm_compute.
Qed.
(** A key changed to one in use: a key that is there leads to a destroyed
    node; or the map of all pairs erased is not empty. *)
Lemma C49_update_ref :
  (∃ s : bimap nat nat, foldM bop_run [BInsert 1 10; BInsert 2 20; BUpdateA 10 20] bm_new = Ok s ∧
     bm_lung s = 2 ∧ bm_getB s 1 = Err EUB) ∧
  (∃ s : bimap nat nat, foldM bop_run [BInsert 1 10; BInsert 2 20; BUpdateB 1 2; BErase 2] bm_new = Ok s ∧
     bm_lung s = 0 ∧ bm_empty s = false).
Proof. split; (eexists; split; [done|]; by vm_compute). Qed.

(** Tree: sons 5 and 6, the first with a son, the last deleted. *)
Definition tops4 : list (top nat) := [TRoot 5 50; TRoot 6 60; TSon 5 7 70; TDelete 6].
Lemma first_at (s : shape nat) f k v l :
  s !! k = Some (v, l) → v.1 = f → (∀ j w, j < k → s !! j = Some w → w.1.1 ≠ f) → first_son s f k.
Proof.
  intros H1 H2 H3. split; [by exists v, l|]. intros j w ws Hj Hw. apply (H3 j _ Hj Hw).
Qed.
Lemma tops4_fit : tops_fit tops4 [((5, 50), [(7, 70)])].
Proof.
  assert (H0 : tops_fit (W := nat) [] []) by constructor.
  assert (H1 : tops_fit [TRoot 5 50] [((5, 50), [])]).
  { apply (tf_snoc [] [] _ _ H0); [apply (ts_root [])|done]. }
  assert (H2 : tops_fit [TRoot 5 50; TRoot 6 60] [((5, 50), []); ((6, 60), [])]).
  { apply (tf_snoc _ _ _ _ H1); [apply (ts_root [((5, 50), [])])|done]. }
  assert (H3 : tops_fit [TRoot 5 50; TRoot 6 60; TSon 5 7 70] [((5, 50), [(7, 70)]); ((6, 60), [])]).
  { apply (tf_snoc _ _ (TSon 5 7 70) _ H2); [|done].
    apply (ts_son [((5, 50), []); ((6, 60), [])] 5 7 70 0 (5, 50) []); [|done].
    apply (first_at _ _ _ (5, 50) []); [done|done|]. intros. lia. }
  assert (HF : first_son [((5, 50), [(7, 70)]); ((6, 60), [])] 6 1).
  { apply (first_at _ _ _ (6, 60) []); [done|done|].
    intros j w Hj Hw. destruct j; [|lia]. by injection Hw as <-. }
  apply (tf_snoc _ _ (TDelete 6) _ H3).
  - apply (ts_delete [((5, 50), [(7, 70)]); ((6, 60), [])] 6 1 HF).
  - intros k Hk. destruct (lt_eq_lt_dec k 1) as [[Hl| ->]|Hl]; [|by simpl; lia|].
    + exfalso. destruct Hk as [(w & ws & Hw & E) _], HF as [_ Hno]. by apply (Hno k w ws).
    + exfalso. destruct HF as [(w & ws & Hw & E) _], Hk as [_ Hno]. by apply (Hno 1 w ws).
Qed.
Lemma C50_tree_ex :
  tops_fit tops4 [((5, 50), [(7, 70)])] ∧
  match foldM top_run tops4 (tr_new 0 0) with Ok _ => True | Err _ => False end.
Proof. split; [exact tops4_fit|]. by vm_compute. Qed.
Lemma C50_delete_ex :
  ∃ t : tree nat, foldM top_run tops4 (tr_new 0 0) = Ok t ∧ tree_is t [((5, 50), [(7, 70)])] ∧
    tr_delete t 5 = Err EUB.
Proof.
  destruct (C50_tree_lem 0 0 _ _ tops4_fit) as (t & Ht & HT). exists t. split_and!; [done|done|].
  vm_compute in Ht. injection Ht as <-. by vm_compute.
Qed.
Lemma C50_lost_ex :
  tree_is (tr_new 0 0) [] ∧ (∀ k, ¬ first_son (W := nat) [] 4 k) ∧ tr_insert (tr_new 0 0) 4 5 6 0 = Err EUB.
Proof. split_and!; [apply tr_new_is|by intros k [(? & ? & ? & _) _]|by vm_compute]. Qed.

(** Deleting the first of two sons, or the only son, is undefined. *)
Lemma C50_delete_ref :
  foldM top_run [TRoot 5 50; TDelete 5] (tr_new 0 0) = Err EUB ∧
  foldM top_run [TRoot 5 50; TRoot 6 60; TDelete 5] (tr_new 0 0) = Err EUB ∧
  foldM top_run [TRoot 5 50; TRoot 6 60; TRoot 7 70; TDelete 6] (tr_new 0 0) = Err EUB.
Proof. by vm_compute. Qed.
(** After the deletions of the second and of the fourth of four sons, the
    fourth is still found. *)
Lemma C50_still_there_ref :
  ∃ t t' : tree nat,
    foldM top_run [TRoot 1 0; TRoot 2 0; TRoot 3 0; TRoot 4 0; TDelete 2; TDelete 4] (tr_new 0 0) = Ok t ∧
    tr_insert t 4 9 0 0 = Ok t'.
Proof. eexists _, _. split; [by vm_compute|]. by vm_compute. Qed.
