(** * DepF: example for the pointers to the right (C50) *)

From Verif Require Import Lib Deprec SpecDep DepT DepU DepE DepV.

(** The second of four sons is deleted: going to the right from the first one
    finds the third and the fourth, but the pointers to the left of these lead to
    the deleted one. *)
Lemma C50_right_ex :
  ∃ t t' : tree nat, foldM top_run [TRoot 5 0; TRoot 6 0; TRoot 7 0; TRoot 8 0] (tr_new 0 0) = Ok t ∧
    tree_is t [((5, 0), []); ((6, 0), []); ((7, 0), []); ((8, 0), [])] ∧
    first_son [((5, 0), []); ((6, 0), []); ((7, 0), []); ((8, 0), [])] 6 1 ∧
    brothers (tr_heap t) (tr_root t) [1; 2; 3; 4] ∧
    tr_delete t 6 = Ok t' ∧ rightwards (tr_heap t') (tr_root t) [1; 3; 4] ∧
    (∃ n3 n4, tr_heap t' !! 3 = Some n3 ∧ tr_heap t' !! 4 = Some n4 ∧ tn_left n3 = Some 2 ∧ tn_left n4 = Some 2).
Proof.
  assert (H0 : tops_fit (W := nat) [] []) by constructor.
  assert (H1 : tops_fit [TRoot 5 0] [((5, 0), [])]) by (apply (tf_snoc [] [] _ _ H0); [apply (ts_root [])|done]).
  assert (H2 : tops_fit [TRoot 5 0; TRoot 6 0] [((5, 0), []); ((6, 0), [])])
    by (apply (tf_snoc _ _ _ _ H1); [apply (ts_root [((5, 0), [])])|done]).
  assert (H3 : tops_fit [TRoot 5 0; TRoot 6 0; TRoot 7 0] [((5, 0), []); ((6, 0), []); ((7, 0), [])])
    by (apply (tf_snoc _ _ _ _ H2); [apply (ts_root [((5, 0), []); ((6, 0), [])])|done]).
  assert (H4 : tops_fit [TRoot 5 0; TRoot 6 0; TRoot 7 0; TRoot 8 0] [((5, 0), []); ((6, 0), []); ((7, 0), []); ((8, 0), [])])
    by (apply (tf_snoc _ _ _ _ H3); [apply (ts_root [((5, 0), []); ((6, 0), []); ((7, 0), [])])|done]).
  destruct (C50_tree_lem 0 0 _ _ H4) as (t & Ht & HT).
  assert (first_son [((5, 0), []); ((6, 0), []); ((7, 0), []); ((8, 0), [])] 6 1) as HF.
  { apply (first_at _ _ _ (6, 0) []); [done|done|]. intros j w Hj Hw. destruct j; [|lia]. by injection Hw as <-. }
  assert (brothers (tr_heap t) (tr_root t) [1; 2; 3; 4]) as HB.
  { clear HT. vm_compute in Ht. injection Ht as <-. split.
    - eexists. split; [by vm_compute|]. done.
    - intros k x Hk. do 4 (destruct k as [|k]; [injection Hk as <-; eexists; split; [by vm_compute|]; done|]). done. }
  assert (∃ t', tr_delete t 6 = Ok t' ∧
    (∃ n3 n4, tr_heap t' !! 3 = Some n3 ∧ tr_heap t' !! 4 = Some n4 ∧ tn_left n3 = Some 2 ∧ tn_left n4 = Some 2)) as (t' & HD & HL).
  { clear HT HB. vm_compute in Ht. injection Ht as <-. eexists. split; [by vm_compute|].
    eexists _, _. split; [by vm_compute|]. split; [by vm_compute|]. done. }
  exists t, t'. split; [done|]. split; [done|]. split; [done|]. split; [done|]. split; [done|]. split; [|done].
  apply (C50_delete_right_lem _ _ _ _ _ _ HT HB HF HD).
Qed.
