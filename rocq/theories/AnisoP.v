(** * AnisoP: agglomerating the anisotropic lines *)

From Verif Require Export LinesP.

Lemma elem_of_concat {B} (ls : list (list B)) x : x ∈ concat ls ↔ ∃ l, x ∈ l ∧ l ∈ ls.
Proof.
  induction ls as [|l ls IH]; simpl.
  - split; [intros Hx; by apply elem_of_nil in Hx|]. intros (l & _ & Hl). by apply elem_of_nil in Hl.
  - rewrite elem_of_app, IH. setoid_rewrite elem_of_cons. naive_solver.
Qed.
Lemma elem_of_sublist {B} (l k : list B) x : l `sublist_of` k → x ∈ l → x ∈ k.
Proof.
  induction 1 as [|y l k Hs IH|y l k Hs IH]; [done|..]; rewrite !elem_of_cons; naive_solver.
Qed.

Lemma sublist_nd {B} (l k : list B) : l `sublist_of` k → NoDup k → NoDup l.
Proof.
  induction 1 as [|x l k Hs IH|x l k Hs IH]; [done|..]; rewrite NoDup_cons; intros [Hx Hk].
  - apply NoDup_cons. split; [|auto]. intros Hx'. apply Hx. by eapply elem_of_sublist.
  - auto.
Qed.
(** ** Cutting a line *)

(** The pieces of a line without limit on the number of cells. *)
Fixpoint cut (odd : bool) (l : list nat) : list (list nat) :=
  match l with
  | [x; y; z] => if odd then [[x; y; z]] else [[x; y]]
  | x :: y :: l => [x; y] :: cut odd l
  | _ => []
  end.
Lemma cut_cons odd x y l : length l ≠ 1 → cut odd (x :: y :: l) = [x; y] :: cut odd l.
Proof. by destruct l as [|a [|b l]]. Qed.

(** The number of cells of a line of length [L] which are looked at. *)
Definition eff (mx : option Z) (L : nat) : nat :=
  match mx with
  | None => L
  | Some m => if bool_decide (Z.even m = true ∧ Z.of_nat L = m + 1)%Z then L
              else Z.to_nat (Z.min m (Z.of_nat L))
  end.
(** A limit which does not make the code leave a line of length [L]. *)
Definition line_safe (mx : option Z) (L : nat) : Prop :=
  ∀ m, mx = Some m → Z.odd m = true → Z.of_nat L ≠ (m - 1)%Z.

Lemma cut_ind (P : list nat → Prop) :
  P [] → (∀ x, P [x]) → (∀ x y z, P [x; y; z]) →
  (∀ x y l, length l ≠ 1 → P l → P (x :: y :: l)) → ∀ l, P l.
Proof.
  intros H0 H1 H3 H2 l. assert (∀ k l, length l ≤ k → P l) as Hk; [|by apply (Hk (length l))].
  clear l. induction k as [|k IH]; intros l Hl.
  { destruct l; simpl in *; [done|lia]. }
  destruct l as [|x [|y l]]; [done..|]. destruct (decide (length l = 1)) as [Hl1|Hl1].
  - destruct l as [|z [|? ?]]; [done|apply H3|done].
  - apply H2; [done|]. apply IH. simpl in Hl. lia.
Qed.

Lemma cut_ok odd l : ∃ rest, cut_spec odd l (cut odd l) rest.
Proof.
  induction l as [|x|x y z|x y l Hl IH] using cut_ind.
  - exists []. split; simpl; try done. by destruct odd.
  - exists [x]. split; simpl; try done. by destruct odd.
  - destruct odd; simpl.
    + exists []. split; simpl; try done.
      * intros [|k] p; simpl; [lia|done].
      * intros p [= <-]. done.
    + exists [z]. split; simpl; try done.
      * intros [|k] p; simpl; [lia|done].
      * intros p [= <-]. done.
  - destruct IH as (rest & [H1 H2 H3 H4]). exists rest. rewrite cut_cons by done. split; simpl.
    + by rewrite H1.
    + intros [|k] p; simpl; [by intros [= <-] _|]. intros Hp Hk. eapply H2; [done|lia].
    + intros p Hp. destruct (cut odd l) as [|p' ps] eqn:Hc.
      * simpl in Hp, H1. injection Hp as <-. subst rest.
        rewrite (bool_decide_false (length l = 1)), orb_false_r in H4 by done.
        destruct l as [|a l]; [by rewrite andb_false_r|]. exfalso.
        destruct (negb odd && Nat.odd (length (a :: l))); simpl in *; lia.
      * rewrite last_cons_cons in Hp. by apply H3.
    + by rewrite H4, (bool_decide_false (length l = 1)) by done.
Qed.

(** ** The container after creating pieces *)
Section aniso.
Context {A : Arith} {H : HashOrder}.
Implicit Types ct : container.

Definition piece_cell (p : list nat) : ccell :=
  CCell (list_to_set p) (Z.of_nat (length p)) 1 false.
Record pieces n ct (parts : list (list nat)) ct' : Prop := {
  pc_inv : cont_inv n ct';
  pc_n : ct_n ct' = ct_n ct + length parts;
  pc_new : ∀ k p, parts !! k = Some p → ct_ccs ct' !! (ct_n ct + k) = Some (piece_cell p);
  pc_ext : ct_ext ct ct';
  pc_free : ∀ x, freec (ct_aggl ct') x ↔ freec (ct_aggl ct) x ∧ x ∉ concat parts;
}.
Lemma pieces_nil n ct : cont_inv n ct → pieces n ct [] ct.
Proof.
  intros HI. split; [done|simpl; lia|done|apply ct_ext_refl|]. simpl. set_solver.
Qed.
Lemma pieces_app n c1 c2 c3 l1 l2 :
  pieces n c1 l1 c2 → pieces n c2 l2 c3 → pieces n c1 (l1 ++ l2) c3.
Proof.
  intros H1 H2. split.
  - apply H2.
  - rewrite (pc_n _ _ _ _ H2), (pc_n _ _ _ _ H1), app_length. lia.
  - intros k p Hp. apply lookup_app_Some in Hp as [Hp|[Hk Hp]].
    + rewrite (ex_ccs _ _ (pc_ext _ _ _ _ H2)).
      * by apply H1.
      * rewrite (pc_n _ _ _ _ H1). apply lookup_lt_Some in Hp. lia.
    + apply H2 in Hp. rewrite (pc_n _ _ _ _ H1) in Hp. rewrite <- Hp. f_equal. lia.
  - eapply ct_ext_trans; [apply H1|apply H2].
  - intros x. rewrite (pc_free _ _ _ _ H2), (pc_free _ _ _ _ H1), concat_app, elem_of_app. tauto.
Qed.

Lemma create_piece_ok n ct (s : gset nat) (p : list nat) :
  cont_inv n ct → s = list_to_set p → p ≠ [] → NoDup p → (∀ x, x ∈ p → freec (ct_aggl ct) x) →
  wp (create_cc ct s 1 true false) (λ ct', pieces n ct [p] ct').
Proof.
  intros HI -> Hne Hnd Hfree.
  assert (size (list_to_set p : gset nat) = length p) as Hsz by by apply size_list_to_set.
  eapply wp_mono.
  { apply create_cc_ok; [done| |].
    - intros He. rewrite He, size_empty in Hsz. by destruct p.
    - intros x Hx. apply elem_of_list_to_set in Hx. by apply Hfree. }
  intros ct' [HI' Hcr]. split.
  - done.
  - rewrite (cr_n _ _ _ _ _ Hcr). simpl. lia.
  - intros [|k] q; [|done]. intros [= <-]. rewrite (cr_ccs _ _ _ _ _ Hcr), Nat.add_0_r, lookup_insert.
    by rewrite Hsz.
  - eapply created_ext; [done| |done]. intros x Hx. apply elem_of_list_to_set in Hx. by apply Hfree.
  - intros x. unfold freec. rewrite (cr_ag _ _ _ _ _ Hcr). simpl. rewrite app_nil_r.
    destruct (decide (x ∈ (list_to_set p : gset nat))) as [Hx|Hx]; rewrite elem_of_list_to_set in Hx; naive_solver.
Qed.

Context (g : graph) (prio : list W) (WF : wfg g) (WD : wfd g prio).
Notation n := (g_n g).
Notation E := (gedge g).
Context (ap : aniso_params).

Lemma loop_line_ok fuel rest nc ct nb out :
  let mx := (λ m, m - nc)%Z <$> ap_max ap in
  length rest ≤ fuel → length rest ≠ 1 → line_safe mx (length rest) →
  NoDup rest → cont_inv n ct → (∀ x, x ∈ rest → freec (ct_aggl ct) x) →
  (∀ x, x ∈ nb → x < n) →
  wp (loop_line fuel ap g rest nc ct nb out) (λ '(ct', nb', out'),
    let parts := cut (ap_odd ap) (take (eff mx (length rest)) rest) in
    pieces n ct parts ct' ∧ out' = out ++ seq (ct_n ct) (length parts) ∧
    nb' = nb ++ concat (adj g <$> concat parts) ∧
    ∀ x, x ∈ nb' → x < n).
Proof.
  revert rest nc ct nb out.
  induction fuel as [|fuel IH]; intros rest nc ct nb out mx Hfuel H1 Hsafe Hnd HI Hfree Hnb.
  { destruct rest; simpl in *; [|lia]. rewrite take_nil. simpl.
    split_and!; [by apply pieces_nil|by rewrite app_nil_r|by rewrite app_nil_r|done]. }
  destruct rest as [|x rest1]; simpl loop_line.
  { rewrite take_nil. simpl. split_and!; [by apply pieces_nil|by rewrite app_nil_r|by rewrite app_nil_r|done]. }
  assert (over_limit ap (nc + 2)%Z = true ↔ ∃ m, mx = Some m ∧ (m < 2)%Z) as Hover.
  { unfold over_limit, mx. destruct (ap_max ap) as [m|]; simpl.
    - rewrite bool_decide_eq_true. split; [intros; eexists; split; [done|]; lia|].
      intros (? & [= <-] & ?). lia.
    - split; [done|]. by intros (? & ? & _). }
  destruct (over_limit ap (nc + 2)) eqn:Ho.
  { destruct (proj1 Hover eq_refl) as (m & Hm & Hm2). rewrite Hm.
    assert (cut (ap_odd ap) (take (eff (Some m) (length (x :: rest1))) (x :: rest1)) = []) as ->.
    { unfold eff. rewrite bool_decide_false.
      - destruct (Z.to_nat (Z.min m (Z.of_nat (length (x :: rest1))))) as [|[|k]] eqn:Hk;
          [done|by destruct rest1|lia].
      - intros [He Hl]. simpl in *. assert (m = 0%Z ∨ m = 1%Z) as [-> | ->] by lia; [lia|done]. }
    simpl. split_and!; [by apply pieces_nil|by rewrite app_nil_r|by rewrite app_nil_r|done]. }
  destruct rest1 as [|y rest2]; [done|].
  assert (∀ m, mx = Some m → (2 <= m)%Z) as Hm2.
  { intros m Hm. destruct (decide (m < 2)%Z); [|lia].
    exfalso. by assert (false = true) by (apply Hover; eauto). }
  assert (x < n ∧ y < n) as [Hx Hy].
  { split; [assert (freec (ct_aggl ct) x) as Hf by (apply Hfree; set_solver)
           |assert (freec (ct_aggl ct) y) as Hf by (apply Hfree; set_solver)];
    apply lookup_lt_Some in Hf; by rewrite (ci_alen _ _ HI) in Hf. }
  rewrite !(nbrs_ok g WF), !bind_ok by done. cbn zeta.
  assert (∀ z, z ∈ nb ++ adj g x ++ adj g y → z < n) as Hnb'.
  { intros z. rewrite !elem_of_app. intros [Hz|[Hz|Hz]]; [auto|by eapply adj_lt..]. }
  assert (at_limit ap (nc + 2 + 1)%Z = bool_decide (mx = Some 3%Z)) as Hat.
  { unfold at_limit, mx. destruct (ap_max ap) as [m|]; simpl; [|done].
    apply bool_decide_ext. split; [intros; f_equal; lia|intros [= ?]; lia]. }
  apply NoDup_cons in Hnd as [Hxr Hnd]. apply NoDup_cons in Hnd as [Hyr Hnd].
  assert (x ≠ y) as Hxy by set_solver.
  change (S (length (y :: rest2))) with (length (x :: y :: rest2)).
  destruct (bool_decide (length (x :: y :: rest2) = 3) || at_limit ap (nc + 2 + 1)) eqn:Hc.
  - (* the last piece *)
    assert (length rest2 = 1 ∨ mx = Some 3%Z) as Hc'.
    { apply orb_true_iff in Hc as [Hc|Hc].
      - apply bool_decide_eq_true in Hc. simpl in Hc. left. lia.
      - right. rewrite Hat in Hc. by apply bool_decide_eq_true in Hc. }
    clear Hc Hat. destruct rest2 as [|z rest3].
    { exfalso. destruct Hc' as [Hc|Hc]; [done|]. by apply (Hsafe _ Hc). }
    assert (take (eff mx (length (x :: y :: z :: rest3))) (x :: y :: z :: rest3) = [x; y; z]) as ->.
    { assert (eff mx (length (x :: y :: z :: rest3)) = 3) as ->; [|done].
      unfold eff. destruct Hc' as [Hc|Hc].
      - simpl in Hc |- *. destruct rest3; [|done]. destruct mx as [m|]; [|done].
        specialize (Hm2 m eq_refl). case_bool_decide as Hd; [done|].
        destruct (decide (m = 2%Z)) as [->|]; [by destruct Hd|]. simpl. lia.
      - rewrite Hc. rewrite bool_decide_false by by intros [? _]. simpl. lia. }
    assert (z < n) as Hz.
    { assert (freec (ct_aggl ct) z) as Hf by (apply Hfree; set_solver).
      apply lookup_lt_Some in Hf. by rewrite (ci_alen _ _ HI) in Hf. }
    set (p := if ap_odd ap then [x; y; z] else [x; y]).
    set (nc' := if ap_odd ap then (nc + 2 + 1)%Z else (nc + 2)%Z).
    wstep. eapply (wp_mono _ (λ r, r.1.1 = list_to_set p ∧ r.1.2 = nc' ∧
      r.2 = nb ++ concat (adj g <$> p) ∧ ∀ x, x ∈ r.2 → x < n)).
    { unfold p, nc'. destruct (ap_odd ap).
      - simpl. rewrite (nbrs_ok g WF) by done. simpl. split_and!; [set_solver|done|by rewrite app_nil_r, <- !app_assoc|].
        intros w. rewrite !app_assoc, elem_of_app, <- app_assoc. intros [Hw|Hw]; [auto|by eapply adj_lt].
      - simpl. split_and!; [set_solver|done|by rewrite app_nil_r|done]. }
    intros [[s nc2] nb2] (Hs & Hnc & Hnbe & Hnb2). simpl in Hs, Hnc, Hnbe, Hnb2. subst nc2. wstep.
    apply NoDup_cons in Hnd as [Hzr Hnd].
    eapply wp_mono.
    { apply (create_piece_ok n ct s p HI Hs).
      - unfold p. by destruct (ap_odd ap).
      - unfold p. destruct (ap_odd ap); repeat (apply NoDup_cons; split; [set_solver|]); constructor.
      - intros w Hw. apply Hfree. unfold p in Hw. destruct (ap_odd ap); set_solver. }
    intros ct' Hpc.
    assert (cut (ap_odd ap) [x; y; z] = [p]) as ->.
    { unfold p. simpl. by destruct (ap_odd ap). }
    assert (ct_n ct' - 1 = ct_n ct) as -> by (rewrite (pc_n _ _ _ _ Hpc); simpl; lia).
    destruct fuel as [|fuel]; [simpl in Hfuel; lia|].
    assert (concat [p] = p) as Hp1 by (simpl; by rewrite app_nil_r).
    destruct rest3 as [|w rest3]; [by split_and!; rewrite ?Hp1|]. simpl loop_line.
    assert (over_limit ap (nc' + 2) = true) as ->; [|by split_and!; rewrite ?Hp1].
    destruct Hc' as [Hc|Hc]; [done|]. unfold over_limit, nc'. unfold mx in Hc.
    destruct (ap_max ap) as [m|]; simplify_eq/=. apply bool_decide_eq_true. destruct (ap_odd ap); lia.
  - apply orb_false_iff in Hc as [Hc Hc2]. rewrite Hat in Hc2.
    apply bool_decide_eq_false in Hc, Hc2. simpl in Hc. clear Hat.
    wstep. eapply wp_mono.
    { apply (create_piece_ok n ct {[x; y]} [x; y] HI); [set_solver|done|..].
      - repeat (apply NoDup_cons; split; [set_solver|]); constructor.
      - intros w Hw. apply Hfree. set_solver. }
    intros ct' Hpc.
    assert ((λ m, m - (nc + 2))%Z <$> ap_max ap = (λ m, m - 2)%Z <$> mx) as Hmx.
    { unfold mx. destruct (ap_max ap); simpl; [|done]. f_equal. lia. }
    assert (ct_n ct' - 1 = ct_n ct) as -> by (rewrite (pc_n _ _ _ _ Hpc); simpl; lia).
    assert (eff mx (length (x :: y :: rest2)) = S (S (eff ((λ m, m - 2)%Z <$> mx) (length rest2)))) as Heff.
    { unfold eff. destruct mx as [m|]; simpl; [|done]. specialize (Hm2 m eq_refl).
      destruct (decide (Z.even m = true ∧ Z.of_nat (length rest2) = m - 1)%Z) as [[Hd1 Hd2]|Hd].
      - rewrite (bool_decide_true (Z.even m = true ∧ _)) by (split; [done|lia]).
        rewrite (bool_decide_true (Z.even (m - 2) = true ∧ _)); [done|].
        rewrite Z.even_sub, Hd1. split; [done|lia].
      - rewrite (bool_decide_false (Z.even m = true ∧ _)) by (intros [? ?]; apply Hd; split; [done|lia]).
        rewrite (bool_decide_false (Z.even (m - 2) = true ∧ _)); [lia|].
        rewrite Z.even_sub. intros [Hd1 Hd2]. apply Hd. split; [by destruct (Z.even m)|lia]. }
    eapply wp_mono.
    { apply IH; rewrite ?Hmx.
      - simpl in Hfuel. lia.
      - lia.
      - intros m Hm Hodd Hlen. destruct mx as [m'|] eqn:Em; simplify_eq/=.
        apply (Hsafe m' eq_refl); [|simpl; lia]. by rewrite Z.odd_sub, xorb_false_r in Hodd.
      - done.
      - apply Hpc.
      - intros w Hw. apply (pc_free _ _ _ _ Hpc). split; [apply Hfree; set_solver|]. simpl. set_solver.
      - done. }
    rewrite Hmx, Heff. intros [[ct'' nb''] out''] (Hpc' & -> & Hnbe & Hnb'').
    simpl take. rewrite cut_cons.
    + split_and!; [| | |done].
      * by apply (pieces_app n ct ct' ct'' [[x; y]]).
      * rewrite (pc_n _ _ _ _ Hpc), <- app_assoc. simpl. by rewrite Nat.add_1_r.
      * rewrite Hnbe. simpl. by rewrite <- !app_assoc.
    + rewrite take_length. unfold eff. destruct mx as [m|]; simpl; [|lia].
      specialize (Hm2 m eq_refl). case_bool_decide; [lia|].
      assert (m ≠ 3%Z) by congruence. lia.
Qed.

Lemma forward_line_ok line (Q : bool → Prop) :
  line ≠ [] → (∀ x, x ∈ line → x < n) → (∀ b, forward_line g prio line = Ok b → Q b) →
  wp (forward_line g prio line) Q.
Proof.
  intros Hne Hlt HQ. assert (wp (forward_line g prio line) (λ _, True)) as Hw.
  2: { apply wp_eq in Hw as (b & Hb & _). rewrite Hb. by apply HQ. }
  clear HQ. unfold forward_line. destruct line as [|fr line]; [done|].
  destruct (last (fr :: line)) as [bk|] eqn:Hl.
  2:{ by rewrite last_None in Hl. }
  apply last_Some_elem_of in Hl.
  wstep. apply (n_bnd_ok g); [apply WD|apply Hlt; set_solver|]. intros bf _.
  wstep. apply (n_bnd_ok g); [apply WD|by apply Hlt|]. intros bb _.
  wstep. apply wp_vget; [rewrite (wd_prio _ _ WD); apply Hlt; set_solver|]. intros wf _.
  wstep. apply wp_vget; [rewrite (wd_prio _ _ WD); by apply Hlt|]. done.
Qed.

(** How one line was agglomerated. *)
Definition line_res ct (line out : list nat) : Prop :=
  ∃ b, forward_line g prio line = Ok b ∧
    let o := if b : bool then line else reverse line in
    let parts := cut (ap_odd ap) (take (eff (ap_max ap) (length line)) o) in
    length out = length parts ∧
    ∀ k p, parts !! k = Some p → ∃ id, out !! k = Some id ∧ id < ct_n ct ∧
      ct_ccs ct !! id = Some (piece_cell p).
Lemma line_res_ext ct ct' line out : ct_ext ct ct' → line_res ct line out → line_res ct' line out.
Proof.
  intros He (o & Ho & Hl & Hk). exists o. split; [done|]. cbn zeta in *. split; [done|].
  intros k p Hp. destruct (Hk k p Hp) as (id & H1 & H2 & H3). exists id. split_and!; [done| |].
  - pose proof (ex_n _ _ He). lia.
  - by rewrite (ex_ccs _ _ He).
Qed.

(** The anisotropic coarse cells. *)
Record aniso_inv ct (done : list (list nat)) (outs : list (list nat)) : Prop := {
  ai_inv : cont_inv n ct;
  ai_res : Forall2 (line_res ct) done outs;
  ai_ids : concat outs = seq 0 (ct_n ct);
  ai_free : ∀ x, x < n → x ∉ concat done → freec (ct_aggl ct) x;
  ai_cell : ∀ k cc, ct_ccs ct !! k = Some cc → ∃ p l, cc = piece_cell p ∧ NoDup p ∧ p ≠ [] ∧
    l ∈ done ∧ p ⊆ l ∧ (path E l → path E p);
}.

Lemma cut_part odd l p : p ∈ cut odd l → p ≠ [] ∧ p `sublist_of` l ∧ (path E l → path E p).
Proof.
  induction l as [|x|x y z|x y l Hl IH] using cut_ind; intros Hin.
  - by apply elem_of_nil in Hin.
  - by apply elem_of_nil in Hin.
  - simpl in Hin. destruct odd; apply elem_of_list_singleton in Hin as ->; split_and!; try done.
    + by apply (sublist_inserts_r [z] [x; y] [x; y]).
    + by apply (path_app_l E [x; y] [z]).
  - rewrite cut_cons in Hin by done. apply elem_of_cons in Hin as [->|Hin].
    + split_and!; [done|by apply (sublist_inserts_r l [x; y] [x; y])|by apply (path_app_l E [x; y] l)].
    + destruct (IH Hin) as (? & ? & Hp). split_and!; [done|by do 2 apply sublist_cons|].
      intros Hpl. apply Hp. by apply (path_app_r E [x; y] l).
Qed.

Lemma cut_prefix odd l : ∃ tl, l = concat (cut odd l) ++ tl.
Proof.
  induction l as [|x|x y z|x y l Hl IH] using cut_ind.
  - by exists [].
  - by exists [x].
  - simpl. destruct odd; [by exists []|by exists [z]].
  - rewrite cut_cons by done. destruct IH as [tl IH]. exists tl. simpl. by rewrite <- IH.
Qed.
Lemma filter_all (P : nat → Prop) `{!∀ x, Decision (P x)} l : Forall P l → filter P l = l.
Proof. induction 1; [done|]. rewrite filter_cons_True by done. by f_equal. Qed.
Lemma filter_none (P : nat → Prop) `{!∀ x, Decision (P x)} l : Forall (λ x, ¬ P x) l → filter P l = [].
Proof. induction 1; [done|]. by rewrite filter_cons_False. Qed.
Lemma path_take (l : list nat) k : path E l → path E (take k l).
Proof. intros Hp. apply (path_app_l E _ (drop k l)). by rewrite take_drop. Qed.

Lemma agglo_line_ok ct nb outs done line :
  aniso_inv ct done outs → (∀ x, x ∈ nb → x < n) →
  2 ≤ length line → NoDup line → line_safe (ap_max ap) (length line) →
  (∀ x, x ∈ line → x < n ∧ x ∉ concat done) →
  wp (agglo_line ap g prio (ct, nb, outs) line) (λ '(ct', nb', outs'),
    aniso_inv ct' (done ++ [line]) outs' ∧ ct_thresh ct' = ct_thresh ct ∧ (∀ x, x ∈ nb' → x < n) ∧
    (∀ x, x ∉ line → freec (ct_aggl ct') x ↔ freec (ct_aggl ct) x) ∧
    ∃ b, forward_line g prio line = Ok b ∧
      nb' = nb ++ concat (adj g <$> filter (λ x, ct_aggl ct' !! x ≠ Some false) (if b : bool then line else reverse line))).
Proof.
  intros HI Hnb Hl2 Hnd Hsafe Hcells. unfold agglo_line.
  rewrite bool_decide_false by lia. wstep. apply forward_line_ok.
  { by destruct line; simpl in *; [lia|]. } { intros x Hx. by apply Hcells. }
  intros f Hf. set (o := if f then line else reverse line).
  assert (o = line ∨ o = reverse line) as Ho by (unfold o; destruct f; auto).
  assert (length o = length line) as Hol by (destruct Ho as [-> | ->]; rewrite ?reverse_length; done).
  assert (∀ x, x ∈ o ↔ x ∈ line) as Hoe.
  { intros x. destruct Ho as [-> | ->]; rewrite ?elem_of_reverse; done. }
  assert (path E line → path E o) as Hop.
  { destruct Ho as [-> | ->]; [done|]. apply path_reverse. apply WF. }
  assert (NoDup o) as Hond by (destruct Ho as [-> | ->]; [done|by rewrite reverse_Permutation]).
  wstep.
  assert ((λ m, m - 0)%Z <$> ap_max ap = ap_max ap) as Hmx.
  { destruct (ap_max ap); simpl; [|done]. f_equal. lia. }
  eapply wp_mono.
  { apply loop_line_ok; rewrite ?Hmx, ?Hol; try done; [lia|apply HI|].
    intros x Hx. apply Hoe, Hcells in Hx as [? ?]. by apply HI. }
  rewrite Hmx, Hol. intros [[ct' nb'] out] (Hpc & -> & Hnbe & Hnb'). simpl.
  set (parts := cut (ap_odd ap) (take (eff (ap_max ap) (length line)) o)) in *.
  assert (∀ p, p ∈ parts → NoDup p ∧ p ≠ [] ∧ p ⊆ line ∧ (path E line → path E p)) as Hparts.
  { intros p Hp. apply cut_part in Hp as (? & Hs & Hpp).
    assert (p `sublist_of` o) as Hs' by (etrans; [done|apply sublist_take]).
    split_and!; [by eapply sublist_nd|done| |].
    - intros x Hx. apply Hoe. by eapply elem_of_sublist.
    - intros Hpl. by apply Hpp, path_take, Hop. }
  assert (∀ x, x ∈ concat parts → x ∈ line) as Hpl.
  { intros x Hx. apply elem_of_concat in Hx as (p & Hx & Hp). apply Hparts in Hp as (_ & _ & Hp & _). by apply Hp. }
  split_and!; [|apply Hpc|done| |].
  2:{ intros x Hx. rewrite (pc_free _ _ _ _ Hpc). split; [tauto|]. intros Hfx. split; [done|]. intros Hx'. by apply Hx, Hpl. }
  2:{ exists f. split; [done|]. rewrite Hnbe. fold o. do 3 f_equal.
      destruct (cut_prefix (ap_odd ap) (take (eff (ap_max ap) (length line)) o)) as [tl Htl].
      fold parts in Htl.
      assert (o = concat parts ++ tl ++ drop (eff (ap_max ap) (length line)) o) as Heq.
      { by rewrite app_assoc, <- Htl, take_drop. }
      rewrite Heq in Hond |- * at 1.
      assert (∀ x, freec (ct_aggl ct') x ↔ freec (ct_aggl ct) x ∧ x ∉ concat parts) as Hfr by apply Hpc.
      rewrite filter_app, filter_all. 2:{ apply Forall_forall. intros x Hx Hxf. apply Hfr in Hxf. tauto. }
      rewrite filter_none; [by rewrite app_nil_r|]. apply Forall_forall. intros x Hx Hn. apply Hn. apply Hfr.
      apply NoDup_app in Hond as (_ & Hd & _). split; [|intros Hx'; by apply (Hd x)].
      assert (x ∈ o) as Hxo by (rewrite Heq; apply elem_of_app; by right).
      apply Hoe, Hcells in Hxo as [? ?]. by apply HI. }
  split.
  - apply Hpc.
  - apply Forall2_app.
    + eapply Forall2_impl; [apply HI|]. intros l' o' Hlo. by apply (line_res_ext ct ct' l' o' (pc_ext _ _ _ _ Hpc)).
    + constructor; [|constructor]. exists f. split; [done|]. fold o. cbn zeta. fold parts.
      rewrite seq_length. split; [done|]. intros k p Hp. exists (ct_n ct + k).
      apply lookup_lt_Some in Hp as Hlt. split_and!.
      * by apply lookup_seq.
      * rewrite (pc_n _ _ _ _ Hpc). lia.
      * by apply Hpc.
  - rewrite concat_app. simpl. rewrite app_nil_r, (ai_ids _ _ _ HI), (pc_n _ _ _ _ Hpc). by rewrite seq_app.
  - intros x Hx Hxd. rewrite concat_app in Hxd. simpl in Hxd. rewrite app_nil_r, elem_of_app in Hxd.
    apply (pc_free _ _ _ _ Hpc). split; [apply HI; tauto|]. intros Hxp. apply Hpl in Hxp. tauto.
  - intros k cc Hk. destruct (decide (k < ct_n ct)) as [Hkn|Hkn].
    + rewrite (ex_ccs _ _ (pc_ext _ _ _ _ Hpc)) in Hk by done.
      destruct (ai_cell _ _ _ HI k cc Hk) as (p & l & H1 & H2 & H3 & H4 & H5 & H6).
      exists p, l. split_and!; try done. set_solver.
    + assert (k < ct_n ct') as Hk'.
      { apply (ci_dom _ _ (pc_inv _ _ _ _ Hpc)). eauto. }
      rewrite (pc_n _ _ _ _ Hpc) in Hk'.
      destruct (lookup_lt_is_Some_2 parts (k - ct_n ct)) as [p Hp]; [lia|].
      pose proof (pc_new _ _ _ _ Hpc _ _ Hp) as Hp'. replace (ct_n ct + (k - ct_n ct)) with k in Hp' by lia.
      exists p, line. apply elem_of_list_lookup_2, Hparts in Hp as (? & ? & ? & ?).
      split_and!; [congruence|done..|set_solver|done|done].
Qed.

(** ** The pool after the anisotropic phase *)

Lemma inq_not_empty (p : pool) l c : inq p l c → pool_is_empty p = false.
Proof.
  intros (q & Hq & Hc). unfold pool_is_empty. apply not_true_iff_false. intros Hf.
  rewrite forallb_forall in Hf. apply elem_of_list_lookup_2, elem_of_list_In, Hf in Hq.
  destruct q; [by apply elem_of_nil in Hc|done].
Qed.
Lemma inq_new bp one l c : ¬ inq (pool_new bp one) l c.
Proof.
  intros (q & Hq & Hc). simpl in Hq.
  destruct l as [|[|[|[|l]]]]; simpl in Hq; simplify_eq; by apply elem_of_nil in Hc.
Qed.

Notation pinv aggl p := (pool_inv (g_bnd g) aggl p).
Lemma update_seeds_pool_ok ct nb bp one :
  length (ct_aggl ct) = n → 0 < n → (∀ x, x ∈ nb → x < n) →
  (one = true → ∀ w, w ∈ prio → wlt w wminv = false) →
  wp (update_seeds_pool g prio ct nb (pool_new bp one)) (λ p,
    pinv (ct_aggl ct) p ∧ sp_top p ≠ None ∧ sp_bp p = bp ∧ sp_one p = one).
Proof.
  intros Hal Hn Hnb Hpos. unfold update_seeds_pool. wstep.
  assert (length prio = length (g_bnd g)) as Hlen.
  { by rewrite (wd_bnd _ _ WD), (wd_prio _ _ WD). }
  assert (length (ct_aggl ct) = length (g_bnd g)) as Hal' by by rewrite (wd_bnd _ _ WD).
  assert (0 < length (g_bnd g)) as Hn' by by rewrite (wd_bnd _ _ WD).
  eapply wp_mono.
  { apply (wp_foldM_inv _ (λ acc : list nat, ∀ x, x ∈ acc → x < n)); [set_solver|].
    intros x acc Hx Hacc. wstep. apply wp_vget; [rewrite Hal; auto|]. intros [] _; [done|].
    simpl. intros y. rewrite elem_of_app, elem_of_list_singleton. intros [?| ->]; auto. }
  clear nb Hnb. intros nb Hnb. wstep.
  apply (wp_mono _ (λ p, pool_pre (g_bnd g) (ct_aggl ct) p ∧ sp_bp p = bp ∧ sp_one p = one ∧
    (sp_top p ≠ None → pool_is_empty p = false))).
  - destruct nb as [|i nb'] eqn:Hnbe.
    { simpl. split_and!; try done. apply pool_inv_pre, pool_new_inv. }
    assert (i < n) as Hi by (apply Hnb; set_solver).
    wstep. apply (n_bnd_ok g); [apply WD|done|]. intros b Hb.
    set (p1 := set_top (pool_new bp one) (Some b)).
    assert (∀ l c, ¬ inq p1 l c) as Hno by apply (inq_new bp one).
    assert (pool_wf (g_bnd g) p1) as Hw1.
    { split; [done| |].
      - intros l c Hc. by apply Hno in Hc.
      - intros t [= <-]. by apply (wd_bnd_pos _ _ WD) in Hb. }
    eapply wp_mono.
    { apply (pool_update_ok prio (g_bnd g) Hlen (wd_bnd_pos _ _ WD) (wd_ord _ _ WD)); [done|]. intros c Hc. rewrite (wd_bnd _ _ WD). auto. }
    intros p' (Hl & Hbp & Hone & Hpush & Ht3 & Htn & Htm). split_and!; [|done..|].
    + eapply (pushed_pre prio (g_bnd g) Hlen (wd_bnd_pos _ _ WD) (ct_aggl ct) p1); try done. split; [done|..].
      * intros _ l c Hc. by apply Hno in Hc.
      * intros _ t l c _ _ Hc. by apply Hno in Hc.
    + intros _. eapply (inq_not_empty p' _ i). apply Hpush. right. split; [set_solver|].
      exists b. split; [done|reflexivity].
  - intros p (Hpre & <- & <- & Hemp). eapply wp_mono.
    { apply need_init_ok; try done; apply WD. }
    done.
Qed.

(** ** The whole phase *)
Lemma aniso_agglomerate_ok lines th bp one :
  0 < n → (one = true → ∀ w, w ∈ prio → wlt w wminv = false) →
  (∀ l, l ∈ lines → 2 ≤ length l ∧ line_safe (ap_max ap) (length l)) →
  NoDup (concat lines) → (∀ x, x ∈ concat lines → x < n) →
  wp (aniso_agglomerate ap g prio lines (cont_new n th) (pool_new bp one)) (λ '(ct, p, outs),
    aniso_inv ct lines outs ∧ ct_thresh ct = th ∧
    pinv (ct_aggl ct) p ∧ sp_top p ≠ None ∧ sp_bp p = bp ∧ sp_one p = one).
Proof.
  intros Hn Hpos Hls Hnd Hlt. unfold aniso_agglomerate.
  assert (aniso_inv (cont_new n th) [] []) as H0.
  { split; [apply cont_new_inv|constructor|done| |].
    - intros x Hx _. by apply lookup_replicate.
    - intros k cc. simpl. by rewrite lookup_empty. }
  destruct lines as [|l0 ls0] eqn:Hl0.
  { wstep. eapply wp_mono.
    { apply (pool_initialize_ok prio (g_bnd g)) with (aggl := replicate n false).
      - by rewrite (wd_bnd _ _ WD), (wd_prio _ _ WD).
      - apply WD.
      - apply WD.
      - by apply (pool_new_inv _ (replicate n false)).
      - by rewrite (wd_bnd _ _ WD).
      - done.
      - done.
      - apply (pool_new_inv (g_bnd g) (replicate n false) bp one).
      - apply (pool_new_inv (g_bnd g) (replicate n false) bp one). }
    intros p (H1 & H2 & H3 & H4). simpl. done. }
  rewrite <- Hl0 in *. clear Hl0. wstep. eapply wp_mono.
  { apply (wp_foldM _ (λ (pre : list (list nat)) '((ct, nb, outs) : container * list nat * list (list nat)),
      aniso_inv ct pre outs ∧ ct_thresh ct = th ∧ ∀ x, x ∈ nb → x < n)).
    { split_and!; [done..|set_solver]. }
    intros pre line post [[ct nb] outs] Heq (HI & Hth & Hnb).
    assert (line ∈ lines) as Hin by (rewrite Heq; set_solver).
    destruct (Hls _ Hin) as [Hl2 Hsafe].
    rewrite Heq, concat_app in Hnd. simpl in Hnd. rewrite app_assoc in Hnd.
    apply NoDup_app in Hnd as (Hnd & _ & _). apply NoDup_app in Hnd as (_ & Hnd1 & Hnd2).
    eapply wp_mono.
    { apply (agglo_line_ok ct nb outs pre); try done. intros x Hx. split.
      - apply Hlt, elem_of_concat. eauto.
      - intros Hx'. by apply (Hnd1 x). }
    intros [[ct' nb'] outs'] (H1 & H2 & H3 & _). split_and!; [done|congruence|done]. }
  intros [[ct nb] outs] (HI & Hth & Hnb). wstep. eapply wp_mono.
  { apply update_seeds_pool_ok; try done. apply (ci_alen _ _ (ai_inv _ _ _ HI)). }
  intros p (H1 & H2 & H3 & H4). done.
Qed.

(** ** Lines given by the user *)

Lemma input_lines_from_ok prev idx cells acc :
  (∀ k a b, (prev :: idx) !! k = Some a → idx !! k = Some b → a ≤ b) →
  (∀ a, last (prev :: idx) = Some a → a ≤ length cells) →
  wp (input_lines_from prev idx cells acc) (λ r, ∃ ls, r = acc ++ ls ∧
    concat ls `sublist_of` drop prev cells ∧
    ∀ l, l ∈ ls → 2 ≤ length l ∧ ∃ k a b, (prev :: idx) !! k = Some a ∧ idx !! k = Some b ∧ l = slice cells a b).
Proof.
  revert prev acc. induction idx as [|i idx IH]; intros prev acc Hm Hlast; simpl.
  { exists []. rewrite app_nil_r. split_and!; [done|apply sublist_nil_l|set_solver]. }
  assert (prev ≤ i) as Hpi by by apply (Hm 0).
  rewrite bool_decide_true by done.
  assert (i ≤ length cells) as Hil.
  { clear IH. rewrite last_cons_cons in Hlast. assert (∀ k a, (i :: idx) !! k = Some a → i ≤ a) as Hge.
    { induction k as [|k IHk]; simpl; intros a Ha; [by simplify_eq|].
      destruct (lookup_lt_is_Some_2 (i :: idx) k) as [b Hb].
      { apply lookup_lt_Some in Ha. simpl. lia. }
      specialize (IHk b Hb). specialize (Hm (S k) b a). simpl in Hm. specialize (Hm Hb Ha). lia. }
    destruct (last (i :: idx)) as [a|] eqn:Ha; [|by rewrite last_None in Ha].
    specialize (Hlast a eq_refl). rewrite last_lookup in Ha. apply Hge in Ha. lia. }
  assert (∀ acc', wp (input_lines_from i idx cells acc') (λ r, ∃ ls, r = acc' ++ ls ∧
    concat ls `sublist_of` drop i cells ∧
    ∀ l, l ∈ ls → 2 ≤ length l ∧ ∃ k a b, (i :: idx) !! k = Some a ∧ idx !! k = Some b ∧ l = slice cells a b)) as IH'.
  { intros acc'. apply IH.
    - intros k a b Ha Hb. by apply (Hm (S k)).
    - intros a Ha. apply Hlast. by rewrite last_cons_cons. }
  assert (slice cells prev i ++ drop i cells = drop prev cells) as Hsl.
  { unfold slice. rewrite <- (take_drop (i - prev) (drop prev cells)) at 2. f_equal.
    rewrite drop_drop. f_equal. lia. }
  case_bool_decide as Hd.
  - rewrite vrange_ok by lia. rewrite bind_ok. eapply wp_mono; [apply IH'|].
    intros r (ls & -> & Hsub & Hls). exists (slice cells prev i :: ls). split_and!.
    + by rewrite <- app_assoc.
    + simpl. rewrite <- Hsl. apply sublist_app; [done|exact Hsub].
    + intros l Hl. apply elem_of_cons in Hl as [->|Hl].
      * split; [rewrite slice_length by lia; lia|]. by exists 0, prev, i.
      * destruct (Hls l Hl) as (? & k & a & b & ? & ? & ?). split; [done|]. by exists (S k), a, b.
  - eapply wp_mono; [apply IH'|]. intros r (ls & -> & Hsub & Hls). exists ls. split_and!; [done| |].
    + rewrite <- Hsl. by apply sublist_inserts_l.
    + intros l Hl. destruct (Hls l Hl) as (? & k & a & b & ? & ? & ?). split; [done|]. by exists (S k), a, b.
Qed.

Lemma input_lines_from_eq prev idx cells acc r :
  input_lines_from prev idx cells acc = Ok r →
  r = acc ++ filter (λ l, 2 ≤ length l) (split_lines (prev :: idx) cells).
Proof using.
  revert prev acc. induction idx as [|i idx IH]; intros prev acc.
  { intros [= <-]. by rewrite app_nil_r. }
  change (split_lines (prev :: i :: idx) cells)
    with (take (i - prev) (drop prev cells) :: split_lines (i :: idx) cells).
  simpl. case_bool_decide as Hp; [|done]. rewrite filter_cons. case_bool_decide as Hd.
  - unfold vrange. destruct (decide _) as [[_ Hi]|]; simpl; [|done].
    intros Hr. rewrite (IH _ _ Hr), <- app_assoc. simpl.
    rewrite decide_True; [done|]. rewrite take_length, drop_length. lia.
  - intros Hr. rewrite (IH _ _ Hr). rewrite decide_False; [done|].
    rewrite take_length. lia.
Qed.
Lemma input_lines_eq idx cells r : input_lines idx cells = Ok r →
  r = filter (λ l, 2 ≤ length l) (split_lines idx cells).
Proof using. destruct idx as [|i idx]; [done|]. apply input_lines_from_eq. Qed.

Lemma input_lines_ok idx cells : wf_lines n idx cells →
  wp (input_lines idx cells) (λ ls,
    NoDup (concat ls) ∧ (∀ x, x ∈ concat ls → x < n) ∧
    ∀ l, l ∈ ls → 2 ≤ length l ∧
      ∃ k a b, idx !! k = Some a ∧ idx !! S k = Some b ∧ l = slice cells a b).
Proof.
  intros HU. unfold input_lines. destruct idx as [|i idx]; [by destruct (ul_ne _ _ _ HU)|].
  eapply wp_mono.
  { apply input_lines_from_ok; [|rewrite (ul_last _ _ _ HU); by intros ? [= <-]]. intros k a b Ha Hb. by apply (ul_mono _ _ _ HU k). }
  intros r (ls & -> & Hsub & Hls). simpl.
  assert (concat ls `sublist_of` cells) as Hsub'.
  { etrans; [done|]. apply sublist_drop. }
  split_and!; [by eapply sublist_nd, HU| |done].
  intros x Hx. apply (ul_lt _ _ _ HU). by eapply elem_of_sublist.
Qed.

End aniso.
