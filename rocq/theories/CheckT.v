(** * CheckT: rejected calls, and arguments which act as others *)

From Verif Require Export Spec SpecArgs.
From Verif Require Import Lib NoInvP MainP.

Section checks.
Context {A : Arith} {H : HashOrder}.
Implicit Types (i : input) (o : outs).

(** ** The checks of [sanity], one after the other *)

Lemma check_spec (P : Prop) `{Decision P} b k (m : res bool) :
  (b = true ↔ P) → (_ ← check b k; m) = if decide P then Err (EInvalid k) else m.
Proof.
  intros Hb. unfold check. destruct (decide P) as [HP|HP].
  - by rewrite (proj2 Hb HP).
  - destruct b; [|done]. by destruct HP; apply Hb.
Qed.

Instance chk_dec : EqDecision chk.
Proof. solve_decision. Defined.
Instance bad_arg_dec i o k : Decision (bad_arg i o k).
Proof. destruct k; unfold bad_arg; apply _. Defined.

(** The first of the checks of a list which finds something wrong. *)
Fixpoint find_bad i o (l : list chk) : option chk :=
  match l with
  | [] => None
  | k :: l => if decide (bad_arg i o k) then Some k else find_bad i o l
  end.
Definition early : list chk := take 11 chk_order.

Lemma find_bad_some i o l k : find_bad i o l = Some k →
  ∃ before after, l = before ++ k :: after ∧ bad_arg i o k ∧ ∀ k', k' ∈ before → ¬ bad_arg i o k'.
Proof.
  induction l as [|k' l IH]; [done|]. cbn [find_bad]. destruct (decide _) as [Hb|Hb].
  - intros [= ->]. exists [], l. split_and!; [done..|]. intros k' Hk'. by apply elem_of_nil in Hk'.
  - intros (be & af & -> & Hk & Hbe)%IH. exists (k' :: be), af. split_and!; [done..|].
    intros x [->|Hx]%elem_of_cons; [done|by apply Hbe].
Qed.
Lemma find_bad_none i o l : find_bad i o l = None → ∀ k, k ∈ l → ¬ bad_arg i o k.
Proof.
  induction l as [|k' l IH]; cbn [find_bad].
  - intros _ k Hk. by apply elem_of_nil in Hk.
  - destruct (decide _) as [Hb|Hb]; [done|]. intros Hn k [->|Hk]%elem_of_cons; [done|by apply IH].
Qed.

Lemma phase1_sanity i o : find_bad i o early =
  match sanity i o with
  | Ok _ => match pool_of i with Ok _ => None | Err _ => Some KSeedsPool end
  | Err (EInvalid k) => Some k
  | Err _ => Some KAR
  end.
Proof.
  unfold sanity.
  rewrite (check_spec (bad_arg i o KDim)) by (cbn; rewrite negb_true_iff, orb_false_iff, !bool_decide_eq_false; done).
  cbn [find_bad early take chk_order]. destruct (decide (bad_arg i o KDim)) as [?|H1]; [done|].
  rewrite (check_spec (bad_arg i o KCard)) by (cbn; rewrite !orb_true_iff, !bool_decide_eq_true; tauto).
  destruct (decide (bad_arg i o KCard)) as [?|H2]; [done|].
  rewrite (check_spec (bad_arg i o KCardOrder)) by (cbn; rewrite negb_true_iff, andb_false_iff, !bool_decide_eq_false; lia).
  destruct (decide (bad_arg i o KCardOrder)) as [?|H3]; [done|].
  rewrite (check_spec (bad_arg i o KIterMin)) by (cbn; by rewrite bool_decide_eq_true).
  destruct (decide (bad_arg i o KIterMin)) as [?|H4]; [done|].
  rewrite (check_spec (bad_arg i o KIterMax)) by (cbn; by rewrite bool_decide_eq_true).
  destruct (decide (bad_arg i o KIterMax)) as [?|H5]; [done|].
  destruct (last (in_row i)) as [nnz|] eqn:El; cbn [mbind res_bind].
  2:{ apply last_None in El. by rewrite decide_True by done. }
  rewrite (decide_False (P := bad_arg i o KCSREmpty)) by (cbn; by intros E; rewrite E in El).
  rewrite (check_spec (bad_arg i o KCSRCol)) by (cbn; rewrite El, negb_true_iff, bool_decide_eq_false; split; [congruence|intros Hn ->; by apply Hn]).
  destruct (decide (bad_arg i o KCSRCol)) as [?|H7]; [done|].
  rewrite (check_spec (bad_arg i o KCSRVal)) by (cbn; rewrite El, negb_true_iff, bool_decide_eq_false; split; [congruence|intros Hn ->; by apply Hn]).
  destruct (decide (bad_arg i o KCSRVal)) as [?|H8]; [done|].
  match goal with |- context [_ ← ?m; _ ← check _ KSing; _] => set (ml := m) end.
  assert ((bad_arg i o KLines → ml = Err (EInvalid KLines)) ∧ (¬ bad_arg i o KLines → ∃ b, ml = Ok b)) as [Hml1 Hml2].
  { subst ml. cbn [bad_arg]. destruct (in_aniso i) eqn:Ea; cbn [andb].
    2:{ split; [by intros [? _]|eauto]. }
    destruct (in_build i) eqn:Eb; cbn [negb].
    { split; [by intros (_ & ? & _)|eauto]. }
    destruct (last (o_idx o)) as [b|] eqn:Eo.
    2:{ apply last_None in Eo. split; [|eauto]. intros (_ & _ & Hl & _).
        rewrite Eo in Hl. simpl in Hl. lia. }
    destruct (bool_decide (length (o_idx o) < 2)) eqn:E1; cbn [orb].
    { apply bool_decide_eq_true in E1. split; [lia|eauto]. }
    destruct (bool_decide (o_lines o = [])) eqn:E2.
    { apply bool_decide_eq_true in E2. split; [tauto|eauto]. }
    apply bool_decide_eq_false in E1, E2. unfold check. destruct (decide (b = length (o_lines o))) as [->|Hn].
    - rewrite bool_decide_true by done. split; [intros (_ & _ & _ & _ & Hx); by destruct Hx|eauto].
    - rewrite bool_decide_false by done. split; [done|]. intros Hx. destruct Hx.
      split_and!; [done..|lia|done|congruence]. }
  destruct (decide (bad_arg i o KLines)) as [Hb9|H9]; [by rewrite (Hml1 Hb9)|]. destruct (Hml2 H9) as [b ->]. cbn [mbind res_bind].
  rewrite (check_spec (bad_arg i o KSing)) by (cbn; by rewrite bool_decide_eq_true).
  destruct (decide (bad_arg i o KSing)) as [?|H10]; [done|].
  unfold pool_of. destruct (decide (bad_arg i o KSeedsPool)) as [Hb|Hb].
  - cbn in Hb. rewrite !not_elem_of_cons in Hb. repeat case_match; try done; subst; exfalso; tauto.
  - cbn in Hb. assert (in_order i ∈ [0; 1; 10; 11]%Z) as Ho by (destruct (decide (in_order i ∈ [0; 1; 10; 11]%Z)); [done|by destruct Hb]).
    rewrite !elem_of_cons in Ho. destruct Ho as [->|[->|[->|[->|Ho]]]]; [done..|]. by apply elem_of_nil in Ho.
Qed.

(** What [sanity] and [pool_of] throw. *)
Lemma sanity_err i o e : sanity i o = Err e → ∃ k, e = EInvalid k.
Proof.
  unfold sanity, check. repeat (case_match; cbn [mbind res_bind]; try by intros [= <-]; eauto).
  all: intros; simplify_eq; eauto.
Qed.
Lemma pool_of_err i e : pool_of i = Err e → e = EInvalid KSeedsPool.
Proof. unfold pool_of. intros He. repeat case_match; congruence. Qed.

Lemma phase1_bad i o k : find_bad i o early = Some k → phase1 i o = Err (EInvalid k).
Proof.
  rewrite phase1_sanity. unfold phase1. destruct (sanity i o) as [b|e] eqn:Es; cbn [mbind res_bind].
  - destruct (pool_of i) as [p|e] eqn:Ep; [done|]. intros [= <-]. by rewrite (pool_of_err _ _ Ep).
  - destruct (sanity_err _ _ _ Es) as [k' ->]. by intros [= ->].
Qed.
Lemma phase1_good i o : find_bad i o early = None → noinv (phase1 i o).
Proof.
  rewrite phase1_sanity. unfold phase1. destruct (sanity i o) as [b|e] eqn:Es; cbn [mbind res_bind].
  - destruct (pool_of i) as [p|e] eqn:Ep; [|done]. intros _. cbn [mbind res_bind].
    pose proof lines_of_ni. pose proof aniso_agglomerate_ni. pose proof pool_initialize_ni. ni.
  - destruct (sanity_err _ _ _ Es) as [k' ->]. done.
Qed.
Lemma iso_params_bad i o : iso_params_of i =
  if decide (bad_arg i o KAR) then Err (EInvalid KAR) else
  match ar_of_Z (in_ar i) (in_dim i) with
  | None => Err EUB
  | Some k => Ok (set_agglomeration_parameter
            (IsoP (in_dim i) 0 0 0 k (negb (bool_decide (in_nbh i = 0%Z)))
               (in_iter i) (bool_decide (1 < in_iter i)%Z))
            (in_goal i) (in_min i) (in_max i))
  end.
Proof.
  unfold iso_params_of. cbn [bad_arg]. destruct (decide _) as [Hb|Hb].
  - unfold ar_of_Z. repeat case_match; try done; exfalso; lia.
  - unfold ar_of_Z. repeat case_match; try done; exfalso; apply Hb; lia.
Qed.
Lemma phase2_bad i o ct p : bad_arg i o KAR → phase2 i ct p = Err (EInvalid KAR).
Proof. intros Hb. unfold phase2. rewrite (iso_params_bad i o). by rewrite decide_True. Qed.
Lemma phase2_good i o ct p : ¬ bad_arg i o KAR → noinv (phase2 i ct p).
Proof.
  intros Hb. unfold phase2. rewrite (iso_params_bad i o). rewrite decide_False by done.
  pose proof iso_agglomerate_ni. ni.
Qed.
Lemma fill_ni v : noinv (fill v).2.
Proof.
  induction v as [|[c|] v IH]; cbn; [ni| |ni]. destruct (fill v). exact IH.
Qed.

Lemma chk_order_early : chk_order = early ++ [KAR].
Proof. done. Qed.
Lemma first_bad_early i o k : k ≠ KAR → first_bad i o k ↔ find_bad i o early = Some k.
Proof.
  intros Hk. split.
  - intros (be & af & E & Hb & Hbe). destruct (find_bad i o early) as [k'|] eqn:Ef.
    + apply find_bad_some in Ef as (be' & af' & E' & Hb' & Hbe'). f_equal.
      rewrite chk_order_early, E', <-app_assoc in E. cbn in E.
      assert (∀ (l1 l2 l3 l4 : list chk) a b, l1 ++ a :: l2 = l3 ++ b :: l4 →
        a = b ∨ b ∈ l1 ∨ a ∈ l3) as Hlist.
      { clear. induction l1 as [|x l1 IH]; intros l2 [|y l3] l4 a b; cbn; intros [= -> E]; eauto.
        - right; right. apply elem_of_list_here.
        - right; left. apply elem_of_list_here.
        - destruct (IH _ _ _ _ _ E) as [?|[?|?]]; eauto; right;
            [left|right]; by apply elem_of_list_further. }
      destruct (Hlist _ _ _ _ _ _ E) as [->|[Hi|Hi]]; [done|by destruct (Hbe' _ Hi)|by destruct (Hbe _ Hi)].
    + pose proof (find_bad_none _ _ _ Ef k) as Hn. destruct Hn; [|done].
      assert (k ∈ chk_order) as Hin by (rewrite E; set_solver).
      rewrite chk_order_early in Hin. apply elem_of_app in Hin as [?|Hi]; [done|].
      by apply elem_of_list_singleton in Hi.
  - intros (be & af & E & Hb & Hbe)%find_bad_some. exists be, (af ++ [KAR]).
    rewrite chk_order_early, E, <-app_assoc. done.
Qed.
Lemma first_bad_ar i o : first_bad i o KAR ↔ find_bad i o early = None ∧ bad_arg i o KAR.
Proof.
  split.
  - intros (be & af & E & Hb & Hbe). split; [|done]. destruct (find_bad i o early) as [k'|] eqn:Ef; [|done].
    apply find_bad_some in Ef as (be' & af' & E' & Hb' & Hbe'). exfalso. apply (Hbe k'); [|done].
    assert (be = early) as ->.
    { rewrite chk_order_early in E. clear -E. unfold early in *. cbn in E.
      do 11 (destruct be as [|? be]; cbn in E; [by simplify_eq|injection E as <- E]).
      destruct be as [|? be]; [done|]. injection E as _ E. by destruct be. }
    rewrite E'. set_solver.
  - intros [Hn Hb]. exists early, []. split_and!; [done..|]. by apply find_bad_none.
Qed.

(** ** C08 *)

Lemma C08_lem i o k : k ≠ KAR →
  (agglomerate_one_level i o).2 = Err (EInvalid k) ↔ first_bad i o k.
Proof.
  intros Hk. rewrite first_bad_early by done. split.
  - destruct (find_bad i o early) as [k'|] eqn:Ef.
    + apply phase1_bad in Ef. unfold agglomerate_one_level. rewrite Ef. by intros [= ->].
    + pose proof (phase1_good _ _ Ef) as Hni. unfold agglomerate_one_level.
      destruct (phase1 i o) as [[[ct p] l]|e] eqn:Ep.
      2:{ cbn. intros [= ->]. by destruct (Hni k). }
      destruct (decide (bad_arg i o KAR)) as [Hb|Hb].
      * rewrite (phase2_bad i o) by done. cbn. congruence.
      * pose proof (phase2_good i o ct p Hb) as Hn2. destruct (phase2 i ct p) as [ct'|e] eqn:E2.
        -- pose proof (fill_ni (ct_fc2cc ct') k) as Hf. destruct (fill _). cbn in *. done.
        -- cbn. intros [= ->]. by destruct (Hn2 k).
  - intros Ef. apply phase1_bad in Ef. unfold agglomerate_one_level. by rewrite Ef.
Qed.

Lemma phase1_with_ar ar i o : phase1 (with_ar ar i) o = phase1 i o.
Proof. done. Qed.

Lemma C08_ar_lem i o :
  ((agglomerate_one_level i o).2 = Err (EInvalid KAR) → first_bad i o KAR) ∧
  (first_bad i o KAR →
     (agglomerate_one_level i o).2 = Err (EInvalid KAR) ∨
     ∃ e, (∀ k, e ≠ EInvalid k) ∧ ∀ ar, agglomerate_one_level (with_ar ar i) o = (o, Err e)).
Proof.
  rewrite first_bad_ar. split.
  - destruct (find_bad i o early) as [k'|] eqn:Ef.
    + pose proof (phase1_bad _ _ _ Ef) as Ep. unfold agglomerate_one_level. rewrite Ep. intros [= ->].
      apply find_bad_some in Ef as (be & af & E & _). exfalso.
      assert (KAR ∈ early) as Hin by (rewrite E; set_solver). unfold early in Hin. cbn in Hin. set_solver.
    + intros He. split; [done|]. pose proof (phase1_good _ _ Ef) as Hni. unfold agglomerate_one_level in He.
      destruct (phase1 i o) as [[[ct p] l]|e] eqn:Ep.
      2:{ cbn in He. injection He as ->. by destruct (Hni KAR). }
      destruct (decide (bad_arg i o KAR)) as [Hb|Hb]; [done|].
      pose proof (phase2_good i o ct p Hb) as Hn2. destruct (phase2 i ct p) as [ct'|e] eqn:E2.
      * pose proof (fill_ni (ct_fc2cc ct') KAR) as Hf. destruct (fill _). cbn in *. done.
      * cbn in He. injection He as ->. by destruct (Hn2 KAR).
  - intros [Ef Hb]. pose proof (phase1_good _ _ Ef) as Hni.
    destruct (phase1 i o) as [[[ct p] l]|e] eqn:Ep.
    + left. unfold agglomerate_one_level. rewrite Ep, (phase2_bad i o) by done. done.
    + right. exists e. split; [intros k ->; by apply (Hni k)|]. intros ar.
      unfold agglomerate_one_level. by rewrite phase1_with_ar, Ep.
Qed.

(** A call which is fine but for the aspect ratio. *)
Lemma C08_good_lem i o ar : good_call (with_ar ar i) o → ¬ (0 <= in_ar i <= 9)%Z →
  (agglomerate_one_level i o).2 = Err (EInvalid KAR).
Proof.
  intros Hg Hb. destruct (main_run (with_ar ar i) o) as (ctA & p & lo & ct & ct' & f & _ & _ & _ & _ & E & _); [done..|].
  rewrite phase1_with_ar in E. unfold agglomerate_one_level. rewrite E. by rewrite (phase2_bad i o).
Qed.

(** ** C33 *)

Lemma sanity_aniso i o b : sanity i o = Ok b → b = true → aniso_on i o.
Proof.
  unfold sanity, check, aniso_on.
  repeat (case_match; cbn [mbind res_bind]; try done); intros; simplify_eq; try done.
  all: repeat match goal with
    | Hx : _ && _ = true |- _ => apply andb_true_iff in Hx as [? ?]
    | Hx : _ && _ = false |- _ => apply andb_false_iff in Hx
    | Hx : _ || _ = false |- _ => apply orb_false_iff in Hx as [? ?]
    | Hx : bool_decide _ = false |- _ => apply bool_decide_eq_false in Hx
    | Hx : negb _ = true |- _ => apply negb_true_iff in Hx
    end.
  - split; [done|]. intros _. split; [lia|done].
  - split; [done|]. intros Hb. match goal with Hx : _ ∨ negb _ = false |- _ => destruct Hx as [?|Hn] end; [congruence|]. by rewrite Hb in Hn.
Qed.

Lemma phase1_none i o ct p lo : phase1 i o = Ok (ct, p, lo) → ¬ aniso_on i o → lo = None.
Proof.
  unfold phase1. destruct (sanity i o) as [b|] eqn:Es; [|done]. cbn [mbind res_bind].
  destruct (pool_of i) as [p0|]; [|done]. cbn [mbind res_bind]. intros Hp Hn. destruct b.
  - destruct Hn. by apply (sanity_aniso i o true).
  - destruct (pool_initialize _ _ _) as [p1|]; [|done]. cbn [mbind res_bind] in Hp. congruence.
Qed.

Lemma C33_lem i o r k : agglomerate_one_level i o = (r, Err (EInvalid k)) →
  o_fc2cc r = o_fc2cc o ∧ (k ≠ KAR ∨ ¬ aniso_on i o → r = o).
Proof.
  intros He. destruct (decide (k = KAR)) as [->|Hk].
  - unfold agglomerate_one_level in He. destruct (phase1 i o) as [[[ct p] lo]|e] eqn:Ep; [|by simplify_eq].
    destruct (decide (bad_arg i o KAR)) as [Hb|Hb].
    + rewrite (phase2_bad i o) in He by done. injection He as <-. split.
      * destruct lo as [l|]; [|done]. by destruct (export_lines l).
      * intros [?|Hn]; [done|]. by rewrite (phase1_none _ _ _ _ _ Ep Hn).
    + exfalso. pose proof (phase2_good i o ct p Hb) as Hn2. destruct (phase2 i ct p) as [ct'|e] eqn:E2.
      * pose proof (fill_ni (ct_fc2cc ct') KAR) as Hf. destruct (fill _). cbn in Hf. congruence.
      * injection He as _ ->. by destruct (Hn2 KAR).
  - assert (first_bad i o k) as Hb by (apply C08_lem; [done|by rewrite He]).
    apply first_bad_early in Hb; [|done]. apply phase1_bad in Hb. unfold agglomerate_one_level in He.
    rewrite Hb in He. injection He as <-. done.
Qed.

(** ** C34, C35 *)

Lemma C34_lem i o bnd :
  map (Z.min (in_dim i)) bnd = map (Z.min (in_dim i)) (in_bnd i) →
  agglomerate_one_level (with_bnd bnd i) o = agglomerate_one_level i o.
Proof.
  intros Hb. assert (fixed_bnd (with_bnd bnd i) = fixed_bnd i) as E.
  { unfold fixed_bnd. cbn. 
    assert (∀ n, (if bool_decide (in_dim i < n)%Z then in_dim i else n) = Z.min (in_dim i) n) as Hm.
    { intros n. destruct (decide (in_dim i < n)%Z); [rewrite bool_decide_true by done|rewrite bool_decide_false by done]; lia. }
    rewrite !(map_ext _ _ Hm). done. }
  assert (graph_of (with_bnd bnd i) = graph_of i) as Eg by (unfold graph_of; by rewrite E).
  assert (phase1 (with_bnd bnd i) o = phase1 i o) as E1.
  { unfold phase1. rewrite Eg. done. }
  assert (∀ ct p, phase2 (with_bnd bnd i) ct p = phase2 i ct p) as E2.
  { intros ct p. unfold phase2. rewrite Eg. done. }
  unfold agglomerate_one_level. rewrite E1. destruct (phase1 i o) as [[[ct p] l]|e]; [|done]. by rewrite E2.
Qed.

Lemma C35_lem i o s : (in_min i <= s)%Z →
  agglomerate_one_level (with_sing s i) o = agglomerate_one_level (with_sing (in_min i - 1) i) o.
Proof.
  intros Hs. destruct (decide (in_min i <= 1)%Z) as [Hm|Hm].
  - destruct (decide (bad_arg i o KDim)) as [Hd|Hd].
    + assert (∀ s, find_bad (with_sing s i) o early = Some KDim) as Hf.
      { intros s'. cbn [find_bad early take chk_order]. by rewrite decide_True. }
      unfold agglomerate_one_level. by rewrite !(phase1_bad _ _ KDim).
    + assert (∀ s, find_bad (with_sing s i) o early = Some KCard) as Hf.
      { intros s'. cbn [find_bad early take chk_order]. rewrite decide_False by done.
        rewrite decide_True by (cbn; lia). done. }
      unfold agglomerate_one_level. by rewrite !(phase1_bad _ _ KCard).
  - assert (sing_thresh (with_sing s i) = sing_thresh (with_sing (in_min i - 1) i)) as E.
    { unfold sing_thresh. cbn. rewrite bool_decide_true by done. by rewrite bool_decide_false by lia. }
    assert (sanity (with_sing s i) o = sanity (with_sing (in_min i - 1) i) o) as Es.
    { unfold sanity. cbn [with_sing in_sing]. 
      rewrite (bool_decide_false (s <= 0)%Z) by lia. by rewrite (bool_decide_false (in_min i - 1 <= 0)%Z) by lia. }
    assert (phase1 (with_sing s i) o = phase1 (with_sing (in_min i - 1) i) o) as E1.
    { unfold phase1. by rewrite Es, E. }
    unfold agglomerate_one_level. rewrite E1. done.
Qed.

End checks.
