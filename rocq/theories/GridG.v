(** * GridG: growth of a coarse cell on a grid (C67) *)

From Verif Require Import Base Features Neigh Iso Spec SpecSub SpecFeat SpecBest SpecGrow SpecFeed SpecFront FeatU FeatT NbhP SearchT FrontT BestT GrowT GridT.

Lemma no_dist E P S K x : (∀ j, j ≤ K → ¬ at_dist E P S j x) → ∀ j, j ≤ K → ¬ walk E P S j x.
Proof.
  intros Hn j. induction j as [j IH] using lt_wf_ind. intros Hj Hw. apply (Hn j Hj). split; [done|].
  intros k Hk. destruct (decide (j ≤ k)) as [|]; [done|]. exfalso. apply (IH k); [lia|lia|done].
Qed.

Section growth.
Context {A : Arith} {H : HashOrder}.
Context (ip : iso_params) (g : graph) (prio : list W).
Context (d : nat) (half : nat → nat) (co : nat → nat → nat).
Notation n := (g_n g).
Notation row := (g_row g).
Notation col := (g_col g).
Notation E := (edge row col).
Notation step := (step n d co).
Notation same := (same d co).
Hypothesis Hlt : ∀ c k, c < n → k < d → co c k < 2 * half k.
Hypothesis Hsur : ∀ f : nat → nat, (∀ k, k < d → f k < 2 * half k) → ∃ c, c < n ∧ ∀ k, k < d → co c k = f k.
Hypothesis Hinj : ∀ c c', c < n → c' < n → (∀ k, k < d → co c k = co c' k) → c = c'.
Hypothesis HE : ∀ x y, E x y ↔ step x y.
Hypothesis Hcsr : csr n row col.
Hypothesis Hsym : csr_sym row col.
Hypothesis Hval : length (g_val g) = length col.
Hypothesis Hprio : length prio = n.
Hypothesis Hord : weak_order wlt (λ w, w ∈ prio).
Hypothesis Hsimple : simple_csr row col.
Hypothesis Hd : d = 2 ∨ d = 3.
Hypothesis Hdim : ip_dim ip = Z.of_nat d.
Hypothesis Hmax : ip_max ip = Z.of_nat (2 ^ d).
Hypothesis Hgoal : (ip_goal ip <= ip_max ip)%Z.
Hypothesis Hmin : (1 < ip_min ip <= ip_max ip)%Z.
Hypothesis Hmode : d = 2 ∨ ip_front ip = false ∧ ip_it ip = false.
(** For the look-ahead. *)
Context (dimc : nat).
Hypothesis Hshape : mesh_shape g dimc.
Hypothesis HWO : weak_order (@wlt A) (λ _, True).
Hypothesis Hb3 : ∀ b, b ∈ g_bnd g → (0 <= b <= 3)%Z.
Notation fr := (if ip_front ip then Some (ip_dim ip) else None).
Notation upd := (λ h c, l ← nbrs g c; nbh_update prio h c l).

Context (free : nat → Prop) (s : nat).
Hypothesis Hfn : ∀ x, free x → x < n.
Hypothesis Hblk : ∀ x y, y < n → same x y → free x → free y.
Hypothesis Hs : free s.
Hypothesis Hout : ∀ o, step s o → ¬ same s o → ¬ free o.

Lemma step_n x y : step x y → x < n ∧ y < n.
Proof. intros (k & ? & ? & _). done. Qed.

(** ** Around the seed *)

Lemma hood_big K dn : hood ip g free s K dn → (Z.of_nat d <= Z.of_nat K)%Z ∨
  ∀ j x, at_dist E free (λ z, z = s) j x → x = s ∨ is_Some (dn !! x).
Proof.
  clear - Hdim Hd. intros [_ Hst _]. destruct Hst as [Hst|[Hst _]]; [by right|left].
  rewrite Hdim in Hst. case_bool_decide; lia.
Qed.
(** Cells reached in at most as many steps as there are dimensions. *)
Lemma hood_near K dn j x : hood ip g free s K dn → walk E free (λ z, z = s) j x → j ≤ d → x ≠ s → is_Some (dn !! x).
Proof.
  intros Hh Hw Hj Hx. destruct (dn !! x) as [v|] eqn:Hv; [by eexists|]. exfalso.
  destruct (hood_big K dn Hh) as [HK|Hall].
  - eapply (no_dist _ _ _ d x); [|exact Hj|exact Hw]. intros k Hk Ha.
    assert (dn !! x = Some (Z.of_nat k)); [|congruence].
    apply (hd_dist _ _ _ _ _ _ Hh). split; [done|]. exists k. split; [|done]. clear - HK Hk. lia.
  - eapply (no_dist _ _ _ d x); [|exact Hj|exact Hw]. intros k Hk Ha.
    destruct (Hall _ _ Ha) as [|[? ?]]; congruence.
Qed.
Lemma hood_exact K dn j x v : hood ip g free s K dn → dn !! x = Some v → walk E free (λ z, z = s) j x → (v <= Z.of_nat j)%Z.
Proof.
  intros Hh Hv Hw. apply (hd_dist _ _ _ _ _ _ Hh) in Hv as (_ & k & _ & -> & _ & Hm). specialize (Hm j Hw). lia.
Qed.
Lemma hood_free K dn x v : hood ip g free s K dn → dn !! x = Some v → x ≠ s ∧ free x.
Proof.
  intros Hh Hv. apply (hd_dist _ _ _ _ _ _ Hh) in Hv as (Hx & k & _ & -> & Hw & _). split; [done|].
  inversion Hw; subst; [done|done].
Qed.
(** Cells of the block of the seed are there; those out of it are at distance
    two at least. *)
Lemma hood_block K dn x : hood ip g free s K dn → x < n → same s x → x ≠ s → is_Some (dn !! x).
Proof.
  intros Hh Hx Hsx Hne.
  destruct (block_walk n d half co Hlt Hsur Hinj E free s x) as (j & Hj & Hw); try done.
  - intros a b. by apply HE.
  - intros y Hy Hsy. by apply (Hblk s).
  - by apply Hfn.
  - by eapply hood_near.
Qed.
Lemma hood_out K dn x v : hood ip g free s K dn → ¬ same s x → dn !! x = Some v → (2 <= v)%Z.
Proof.
  intros Hh Hn Hv. pose proof (hood_free _ _ _ _ Hh Hv) as [Hne Hf].
  apply (hd_dist _ _ _ _ _ _ Hh) in Hv as (_ & k & _ & -> & Hw & _).
  destruct k as [|[|k]]; [inversion Hw; done| |clear; lia].
  inversion Hw as [|? a ? Hw0 He Hp]; subst. inversion Hw0; subst. exfalso.
  apply HE in He. by eapply Hout.
Qed.

(** ** The cells added *)

Definition part (X : gset nat) : Prop := s ∈ X ∧ ∀ x, x ∈ X → x < n ∧ same s x.

Lemma faces_le X x : (∀ y z, y ∈ X → z ∈ X → step x y → step x z → y = z) → nb_in row col X (λ y, y ≠ x) x ≤ 1.
Proof.
  clear Hval Hprio Hord. intros Hx. unfold nb_in.
  assert (∀ y z, y ∈ filter (λ y, y ≠ x ∧ y ∈ nb_list row col x) X →
    z ∈ filter (λ y, y ≠ x ∧ y ∈ nb_list row col x) X → y = z) as Heq.
  { intros y z [[_ Hy]%id HyX]%elem_of_filter [[_ Hz]%id HzX]%elem_of_filter.
    rewrite elem_of_nb_list in Hy, Hz. apply HE in Hy, Hz. by apply Hx. }
  set (Y := filter (λ y, y ≠ x ∧ y ∈ nb_list row col x) X) in *.
  destruct (decide (size Y ≤ 1)) as [|Hsz]; [done|]. exfalso.
  destruct (decide (Y = ∅)) as [->|HY]; [rewrite size_empty in Hsz; clear - Hsz; lia|].
  apply set_choose_L in HY as [y Hy]. apply Hsz. rewrite <- (size_singleton (C := gset nat) y).
  apply subseteq_size. intros z Hz. apply elem_of_singleton. by apply Heq.
Qed.
Lemma faces_out X x : part X → ¬ same s x → nb_in row col X (λ y, y ≠ x) x ≤ 1.
Proof.
  intros [_ HX] Hx. apply faces_le. intros y z HyX HzX Hy Hz.
  apply HX in HyX as [_ Hsy], HzX as [_ Hsz].
  eapply (out_one n d half co); try done.
  - intros Hsx. apply Hx. eapply same_trans; [exact Hsy|]. by apply same_sym.
  - eapply same_trans; [apply same_sym; exact Hsy|done].
Qed.

Lemma faces_in X x z : z ∈ X → step x z → 1 ≤ nb_in row col X (λ y, y ≠ x) x.
Proof.
  clear Hval Hprio Hord. intros Hz Hst. unfold nb_in.
  rewrite <- (size_singleton (C := gset nat) z). apply subseteq_size. intros y ->%elem_of_singleton.
  apply elem_of_filter. rewrite elem_of_nb_list, HE. split; [|done]. split; [|done].
  intros ->. apply HE in Hst. by apply (Hsimple x).
Qed.
Lemma faces_in2 X x z z' : z ∈ X → step x z → z' ∈ X → step x z' → z' ≠ z → 2 ≤ nb_in row col X (λ y, y ≠ x) x.
Proof.
  clear Hval Hprio Hord. intros Hz Hst Hz' Hst' Hne. unfold nb_in.
  assert (size ({[z; z']} : gset nat) = 2) as <-.
  { rewrite size_union, !size_singleton; [done|]. apply disjoint_singleton_l, not_elem_of_singleton. congruence. }
  apply subseteq_size. intros y [->%elem_of_singleton| ->%elem_of_singleton]%elem_of_union;
    apply elem_of_filter; rewrite elem_of_nb_list, HE; (split; [|done]); (split; [|done]);
    intros ->; (apply HE in Hst || done); (apply HE in Hst' || done); by apply (Hsimple x).
Qed.

(** *** The candidates *)

Lemma front_two' e : fr = Some e → (2 <= e)%Z.
Proof. clear - Hdim Hd. destruct (ip_front ip); [|done]. intros [= <-]. rewrite Hdim. lia. Qed.

Lemma cand_border (dn : gmap nat Z) cs h : (∀ c, c ∈ cs → c < n) → foldM upd cs (nbh_create (dom dn) fr) = Ok h →
  ∀ x, x ∈ nb_cand h → x ∈ dom dn ∧ x ∉ cs ∧ ∃ y, y ∈ cs ∧ E y x.
Proof.
  intros Hcs Hf. destruct (C29_lem g prio (dom dn) fr cs Hcsr Hsym Hval Hprio Hord front_two' Hcs) as (h' & Hf' & _ & Hc & _).
  rewrite Hf in Hf'. by injection Hf' as <-.
Qed.

(** All neighbours are candidates as long as there are few cells, and always
    those of the last cell. *)
Lemma cand_all (dn : gmap nat Z) cs h x y : (∀ c, c ∈ cs → c < n) → foldM upd cs (nbh_create (dom dn) fr) = Ok h →
  x ∈ dom dn → x ∉ cs → y ∈ cs → E y x → ip_front ip = false ∨ length cs ≤ 2 ∨ (∃ pre, cs = pre ++ [y]) → x ∈ nb_cand h.
Proof.
  intros Hcs Hf Hx Hxc Hy Hyx Hor.
  destruct (ip_front ip) eqn:Hfr.
  - destruct (C29_front_lem g prio (dom dn) (ip_dim ip) cs Hcsr Hsym Hval Hprio Hord) as (h' & Hf' & Hc & _); [rewrite Hdim; clear - Hd; lia|done|].
    rewrite Hf in Hf'. injection Hf' as <-.
    assert (∃ i, around row col (dom dn) cs i x) as (i0 & Ha0).
    { apply elem_of_list_In, in_rev, elem_of_list_In, elem_of_list_lookup in Hy as [i Hi]. by exists i, y. }
    unfold front_candidates in Hc. case_bool_decide as Hle; [apply Hc; by exists i0|].
    destruct Hc as [[_ Hno]|(i & Hi & _ & Hc & Hno)]; [by apply Hno in Ha0|]. apply Hc.
    destruct Hor as [|[Hlen|[pre ->]]]; [done|exfalso; apply Hle; rewrite Hdim; clear - Hlen Hd; lia|].
    assert (around row col (dom dn) (pre ++ [y]) 0 x) as Ha.
    { exists y. rewrite rev_app_distr. done. }
    destruct (decide (i = 0)) as [->|Hi0]; [done|]. exfalso. rewrite app_length in *. simpl in Hno, Hi.
    apply (Hno 0 x); [|clear; lia|done]. unfold turn. rewrite (bool_decide_eq_true_2 (2 * 0 < _)) by (clear; lia).
    case_bool_decide; clear - Hi0 Hi; lia.
  - destruct (C29_lem g prio (dom dn) None cs Hcsr Hsym Hval Hprio Hord) as (h' & Hf' & _ & _ & Hc & _); [done|done|].
    rewrite Hf in Hf'. injection Hf' as <-. apply Hc; [done|]. split_and!; [done..|]. by exists y.
Qed.

(** The best candidate is one of those judged to share the most faces; among
    them, it is one of the nearest ones. *)
Lemma best_top (key : nat → Z * Z * W) (l : list nat) c y : first_best key l c → y ∈ l →
  ¬ ((key c).1.1 < (key y).1.1 ∨ (key c).1.1 = (key y).1.1 ∧ (key c).1.2 > (key y).1.2)%Z.
Proof.
  clear. intros (u & v & -> & Hpre & Hpost) Hy Hbt. apply elem_of_app in Hy as [Hyu|Hyv].
  - specialize (Hpre y Hyu). unfold beats in *. destruct Hpre as [?|[? [?|[? ?]]]]; lia.
  - apply elem_of_cons in Hyv as [->|Hyv]; [lia|]. apply (Hpost y Hyv). unfold beats. lia.
Qed.

(** *** Without look-ahead *)
Lemma next_at K dn (pre : list nat) c y z : hood ip g free s K dn →
  part (list_to_set (s :: pre)) → y < n → same s y → y ∉ s :: pre → z ∈ s :: pre → step y z →
  (z = s ∨ ∃ z', z' ∈ s :: pre ∧ z' ≠ z ∧ step y z') →
  (ip_front ip = false ∨ length pre ≤ 1 ∨ ∃ w pre', s :: pre = pre' ++ [w] ∧ step w y) →
  next_cell ip g prio dn s pre 0 c → same s c.
Proof.
  intros Hh Hp Hy Hsy HyS HzS Hst Hz Hmd (f & h & ar & look & _ & Hf & Hk & Hb). simpl in Hk.
  assert (∀ c, c ∈ s :: pre → c < n) as Hcs.
  { intros w Hw. apply Hp. by rewrite elem_of_list_to_set. }
  assert (y ≠ s) as Hys by (intros ->; apply HyS; by left).
  assert (y ∈ dom dn) as Hyd by (apply elem_of_dom; by eapply hood_block).
  assert (y ∈ nb_cand h) as HyC.
  { destruct Hmd as [Hm|[Hm|(w & pre' & Hw & Hwy)]].
    - apply (cand_all dn (s :: pre) h y z Hcs Hf Hyd HyS HzS); [apply Hsym, HE, Hst|by left].
    - apply (cand_all dn (s :: pre) h y z Hcs Hf Hyd HyS HzS); [apply Hsym, HE, Hst|]. right. left. simpl. clear - Hm. lia.
    - apply (cand_all dn (s :: pre) h y w Hcs Hf Hyd HyS); [|by apply HE|].
      + rewrite Hw. apply elem_of_app. right. by left.
      + right. right. by exists pre'. }
  destruct (same_dec d co s c) as [|Hsc]; [done|]. exfalso.
  assert (c ∈ nb_cand h) as HcC.
  { destruct Hb as (u & v & -> & _). apply elem_of_app. right. by left. }
  destruct (cand_border dn (s :: pre) h Hcs Hf c HcC) as (Hcd & _ & _). apply elem_of_dom in Hcd as [vc Hvc].
  pose proof (hood_out _ _ _ _ Hh Hsc Hvc) as Hv2.
  destruct (Hk y HyC) as (? & _ & Hly), (Hk c HcC) as (? & _ & Hlc).
  pose proof (faces_out _ c Hp Hsc) as Fc.
  pose proof (best_top _ _ _ y Hb HyC) as Hbt. cbn [fst snd] in Hbt. apply Hbt. clear Hbt.
  rewrite Hly, Hlc, Hvc. cbn [fst snd default from_option id].
  destruct Hz as [->|(z' & Hz'S & Hne & Hst')].
  - pose proof (faces_in (list_to_set (s :: pre)) y s ltac:(by apply elem_of_list_to_set) Hst) as Fy.
    destruct (hood_block _ _ y Hh Hy Hsy Hys) as [vy Hvy]. rewrite Hvy. cbn [default from_option id].
    assert (walk E free (λ z, z = s) 1 y) as Hw.
    { econstructor; [by constructor| |]; [apply Hsym, HE, Hst|]. by apply (Hblk s). }
    pose proof (hood_exact _ _ _ _ _ Hh Hvy Hw) as Hv1. change (Z.of_nat 1) with 1%Z in Hv1.
    unfold default, id. simpl in Fy, Fc. clear - Fy Fc Hv1 Hv2. lia.
  - pose proof (faces_in2 (list_to_set (s :: pre)) y z z' ltac:(by apply elem_of_list_to_set) Hst ltac:(by apply elem_of_list_to_set) Hst' Hne) as Fy.
    left. simpl in Fy, Fc. clear - Fy Fc. lia.
Qed.

Lemma next_in_block K dn (pre : list nat) c x : hood ip g free s K dn →
  part (list_to_set (s :: pre)) → x < n → same s x → x ∉ s :: pre → ip_front ip = false →
  next_cell ip g prio dn s pre 0 c → same s c.
Proof.
  intros Hh Hp Hx Hsx Hxp Hfr Hn.
  destruct (missing n d half co Hlt Hsur Hinj (list_to_set (s :: pre)) s x)
    as (y & z & Hy & Hsy & HyS & HzS & Hsyz & Hst & Hz); [apply Hp|by apply Hfn|done..|by rewrite elem_of_list_to_set|].
  rewrite elem_of_list_to_set in HyS, HzS. eapply (next_at K dn pre c y z); try done; [|by left].
  destruct Hz as [|(z' & Hz' & ?)]; [by left|]. right. exists z'. by rewrite elem_of_list_to_set in Hz'.
Qed.

(** *** Two dimensions *)

Lemma no_triangle x y z : d = 2 → step x y → step y z → step x z → False.
Proof.
  clear. intros -> (k & _ & _ & Hk & H1 & J1) (k' & _ & _ & Hk' & H2 & J2) (k'' & _ & _ & Hk'' & H3 & J3).
  assert (∀ k, k < 2 → k = 0 ∨ k = 1) as H01 by lia.
  pose proof (J1 0). pose proof (J1 1). pose proof (J2 0). pose proof (J2 1). pose proof (J3 0). pose proof (J3 1).
  destruct (H01 k Hk) as [-> | ->], (H01 k' Hk') as [-> | ->], (H01 k'' Hk'') as [-> | ->]; lia.
Qed.

(** The number of faces of the best cell to add after [x]. *)
Lemma look_after K dn (pre : list nat) f h x a f' h' b' :
  let cs := (s :: pre) ++ [x] in
  let faces y := Z.of_nat (nb_in row col (list_to_set cs) (λ z, z ≠ y) y) in
  hood ip g free s K dn → NoDup (s :: pre) → (∀ y, y ∈ s :: pre → y < n) →
  features_of (ip_ar ip) g s pre = Ok f → foldM upd (s :: pre) (nbh_create (dom dn) fr) = Ok h → x ∈ nb_cand h →
  compute_features (ip_ar ip) g x f (list_to_set (s :: pre)) = Ok (a, f') →
  (l ← nbrs g x; nbh_update prio h x l) = Ok h' →
  best_iterative 0 (ip_ar ip) g prio h' (filter (λ e : nat * Z, e.1 ∉ s :: pre) dn) f' ({[x]} ∪ list_to_set (s :: pre)) 0 0%Z feats_default = Ok b' →
  (∀ y, y ∈ dom dn → y ∉ cs → E x y → faces y <= b_faces b')%Z ∧
  (b_faces b' = 0%Z ∨ ∃ y, y ∈ dom dn ∧ y ∉ cs ∧ b_faces b' = faces y).
Proof.
  intros cs faces Hh Hnd Hcs Hft Hf Hx Hcf Hu Hbi.
  set (lf := filter (λ e : nat * Z, e.1 ∉ s :: pre) dn) in *.
  destruct (cand_border dn (s :: pre) h Hcs Hf x Hx) as (Hxd & Hxc & w & Hw & Hwx).
  assert (x < n) as Hxn by (apply HE in Hwx as (k & ? & ? & _); done).
  assert (∀ y, y ∈ dom dn → y < n) as Hdn.
  { intros y [v Hv]%elem_of_dom. apply Hfn. eapply hood_free; [exact Hh|exact Hv]. }
  assert (foldM upd cs (nbh_create (dom dn) fr) = Ok h') as Hf'.
  { unfold cs. rewrite foldM_app, Hf, bind_ok. cbn [foldM]. by rewrite Hu, bind_ok. }
  assert (features_of (ip_ar ip) g s (pre ++ [x]) = Ok f') as Hft'.
  { rewrite features_of_snoc, Hft, bind_ok, Hcf. done. }
  assert (NoDup cs) as Hndc.
  { unfold cs. rewrite <- Permutation_cons_append. by constructor. }
  assert (∀ y, y ∈ cs → y < n) as Hcs'.
  { intros y [Hy| ->%elem_of_list_singleton]%elem_of_app; [by apply Hcs|done]. }
  assert (({[x]} ∪ list_to_set (s :: pre) : gset nat) = list_to_set (s :: pre ++ [x])) as EX.
  { change (s :: pre ++ [x]) with ((s :: pre) ++ [x]). rewrite list_to_set_app_L.
    cbn [list_to_set]. rewrite (right_id_L ∅ (∪)). apply (comm_L (∪)). }
  rewrite EX in Hbi.
  assert (nb_cand h' = [] ∨ ∃ z, z ∈ nb_cand h') as [Ec|[z Hz]].
  { destruct (nb_cand h') as [|z l]; [by left|right]. exists z. by left. }
  { cbn [best_iterative] in Hbi. rewrite Ec in Hbi. cbn [foldM] in Hbi. injection Hbi as <-. split; [|by left].
    intros y Hyd Hyc Hxy. exfalso. assert (y ∈ nb_cand h') as Hin; [|rewrite Ec in Hin; by apply elem_of_nil in Hin].
    apply (cand_all dn cs h' y x Hcs' Hf' Hyd Hyc); [|done|]; [apply elem_of_app; right; by left|]. right. right. by exists (s :: pre). }
  destruct (cand_border dn cs h' Hcs' Hf' z Hz) as (Hzd & Hzc & u & Huc & Huz).
  destruct (C38_look g prio dimc (ip_ar ip) s (pre ++ [x]) (dom dn) fr lf 0 HWO Hshape Hprio Hb3 Hndc Hcs' front_two')
    as (f2 & h2 & b2 & ar2 & look & E1 & E2 & E3 & H1 & H2 & H3 & _).
  { intros y Hy. split; [by apply Hdn|]. intros Hyc. unfold lf. apply elem_of_dom in Hy as [v Hv]. exists v.
    apply map_filter_lookup_Some. split; [done|]. cbn [fst]. intros Hy. apply Hyc.
    change (s :: pre ++ [x]) with ((s :: pre) ++ [x]). apply elem_of_app. by left. }
  { exists z, u. split_and!; [done..|]. by apply elem_of_nb_list. }
  rewrite Hft' in E1. injection E1 as <-. change (s :: pre ++ [x]) with cs in E2. rewrite Hf' in E2. injection E2 as <-.
  rewrite Hbi in E3. injection E3 as <-.
  change (s :: pre ++ [x]) with cs in *. split.
  - intros y Hyd Hyc Hxy.
    assert (y ∈ nb_cand h') as Hy.
    { apply (cand_all dn cs h' y x Hcs' Hf' Hyd Hyc); [|done|]; [apply elem_of_app; right; by left|]. right. right. by exists (s :: pre). }
    pose proof (best_top _ _ _ y H2 Hy) as Hbt. cbn [fst snd] in Hbt.
    assert (b_arg b' ∈ nb_cand h') as Hba. { destruct H2 as (p1 & p2 & -> & _). apply elem_of_app. right. by left. }
    destruct (H1 y Hy) as (? & _ & Hly), (H1 _ Hba) as (? & _ & Hlb). rewrite Hly, Hlb in Hbt. cbn [fst snd] in Hbt.
    unfold faces. rewrite H3. clear - Hbt. lia.
  - right. exists (b_arg b').
    assert (b_arg b' ∈ nb_cand h') as Hba. { destruct H2 as (p1 & p2 & -> & _). apply elem_of_app. right. by left. }
    destruct (cand_border dn cs h' Hcs' Hf' _ Hba) as (? & ? & _). split_and!; done.
Qed.

Lemma next_flat K dn (pre : list nat) m c : d = 2 → hood ip g free s K dn → NoDup (s :: pre) →
  part (list_to_set (s :: pre)) → length pre ≤ 2 → m ≤ 2 - length pre → (∀ b, head pre = Some b → step s b) →
  next_cell ip g prio dn s pre m c → same s c ∧ (pre = [] → step s c).
Proof.
  intros Hd2 Hh Hnd Hp Hlp Hm Hhd Hn.
  assert (∀ c, c ∈ s :: pre → c < n) as Hcs.
  { intros w Hw. apply Hp. by rewrite elem_of_list_to_set. }
  assert (∃ x, x < n ∧ same s x ∧ x ∉ s :: pre) as (x & Hx & Hsx & Hxp).
  { destruct (block_list n d half co Hlt Hsur Hinj s d (Hfn s Hs) (le_n _)) as (L & HL & HlL & HinL).
    destruct (decide (Forall (λ x, x ∈ s :: pre) L)) as [Hf|Hf].
    - exfalso. rewrite Forall_forall in Hf. pose proof (NoDup_submseteq _ _ HL Hf) as Hsub.
      apply submseteq_length in Hsub. rewrite HlL, Hd2 in Hsub. simpl in Hsub. clear - Hsub Hlp. lia.
    - apply not_Forall_Exists in Hf; [|apply _]. apply Exists_exists in Hf as (x & HxL & ?). exists x.
      apply HinL in HxL as (? & ? & _). done. }
  destruct (missing n d half co Hlt Hsur Hinj (list_to_set (s :: pre)) s x)
    as (y & z & Hy & Hsy & HyS & HzS & Hsyz & Hst & Hz); [apply Hp|by apply Hfn|done..|by rewrite elem_of_list_to_set|].
  rewrite elem_of_list_to_set in HyS, HzS.
  assert (z = s ∨ ∃ z', z' ∈ s :: pre ∧ z' ≠ z ∧ step y z') as Hz'.
  { destruct Hz as [|(z' & Hz1 & ?)]; [by left|]. right. exists z'. by rewrite elem_of_list_to_set in Hz1. }
  clear Hz.
  destruct pre as [|b [|c' [|? ?]]]; [| | |simpl in Hlp; clear - Hlp; lia].
  - destruct Hn as (f & h & ar & look & _ & Hf & _ & Hb).
    assert (c ∈ nb_cand h) as HcC. { destruct Hb as (u & v & -> & _). apply elem_of_app. right. by left. }
    destruct (cand_border dn [s] h Hcs Hf c HcC) as (Hcd & _ & w & ->%elem_of_list_singleton & Hw).
    apply HE in Hw. split; [|done]. destruct (same_dec d co s c) as [|Hsc]; [done|]. exfalso.
    apply (Hout c Hw Hsc). apply elem_of_dom in Hcd as [v Hv]. eapply hood_free; [exact Hh|exact Hv].
  - split; [|done]. pose proof (Hhd b eq_refl) as Hsb. simpl in Hm.
    destruct m as [|[|m]]; [|clear Hy Hsy HyS HzS Hsyz Hst Hz' y z|clear - Hm; lia].
    { eapply (next_at K dn [b] c y z); try done. right. left. simpl. clear. lia. }
    destruct Hn as (f & h & ar & look & Hft & Hf & Hk & Hb).
    destruct (same_dec d co s c) as [|Hsc]; [done|]. exfalso.
    pose proof (Hfn s Hs) as Hsn.
    destruct Hsb as [k Hsb]. assert (k < 2) as Hk2 by (rewrite <- Hd2; by destruct Hsb as (_ & _ & ? & _)).
    assert (same s b) as Hbs. { apply Hp. rewrite elem_of_list_to_set. right. by left. }
    assert (b < n) as Hbn by by destruct Hsb as (_ & ? & _).
    assert (1 - k < d) as Hk1 by (clear - Hd2; lia).
    destruct (mate_ex n d half co Hlt Hsur Hinj (1 - k) s Hsn Hk1) as (c1 & Hsc1 & Hc1).
    destruct (mate_ex n d half co Hlt Hsur Hinj (1 - k) b Hbn Hk1) as (e & Hbe & He).
    assert (k < d) as Hkd by (clear - Hk2 Hd2; lia).
    destruct (Hsb) as (_ & _ & _ & Qsb & Jsb), (Hsc1) as (_ & Hc1n & _ & Qsc & Jsc), (Hbe) as (_ & Hen & _ & Qbe & Jbe).
    pose proof (Hc1 (1 - k) Hk1) as D1. pose proof (He (1 - k) Hk1) as D2.
    pose proof (Jsb (1 - k) Hk1 ltac:(clear - Hk2; lia)) as T1.
    pose proof (Jsc k Hkd ltac:(clear - Hk2; lia)) as T2. pose proof (Jbe k Hkd ltac:(clear - Hk2; lia)) as T3.
    assert (step c1 e) as Hc1e.
    { exists k. split_and!; [done..| |].
      - clear - Qsb T2 T3. lia.
      - intros j Hj Hjk. assert (j = 1 - k) as -> by (clear - Hj Hjk Hk2 Hd2; lia). clear - Qsc Qbe D1 D2 T1. lia. }
    assert (c1 ∉ [s; b]) as Hc1p.
    { rewrite !elem_of_cons, elem_of_nil. intros [->|[->|[]]]; [clear - Qsc; lia|clear - T2 Qsb; lia]. }
    assert (c1 ≠ s) as Hc1s by (intros ->; apply Hc1p; by left).
    assert (c1 ∈ dom dn) as Hc1d by (apply elem_of_dom; by eapply hood_block).
    assert (c1 ∈ nb_cand h) as Hc1C.
    { apply (cand_all dn [s; b] h c1 s Hcs Hf Hc1d Hc1p); [by left|apply HE; by exists (1 - k)|]. right. left. simpl. clear. lia. }
    assert (e ∉ [s; b; c1]) as Hep.
    { rewrite !elem_of_cons, elem_of_nil. intros [->|[->|[->|[]]]]; [clear - T3 Qsb; lia|clear - Qbe; lia|clear - T2 T3 Qsb; lia]. }
    assert (same s e) as Hse by (eapply same_trans; [exact Hbs|exact He]).
    assert (e ∈ dom dn) as Hed.
    { apply elem_of_dom. eapply hood_block; try done. intros ->. apply Hep. by left. }
    assert (c ∈ nb_cand h) as HcC. { destruct Hb as (u & v & -> & _). apply elem_of_app. right. by left. }
    destruct (cand_border dn [s; b] h Hcs Hf c HcC) as (Hcd & Hcp & w & Hw & Hwc).
    assert (∀ y, y ∈ dom dn → free y) as Hdf.
    { intros y [v Hv]%elem_of_dom. eapply hood_free; [exact Hh|exact Hv]. }
    assert (step b c) as Hbc.
    { apply HE in Hwc. rewrite !elem_of_cons, elem_of_nil in Hw. destruct Hw as [->|[->|[]]]; [|done].
      exfalso. by apply (Hout c Hwc Hsc), Hdf. }
    destruct (Hk c1 Hc1C) as (f1 & Hcf1 & h1 & b1 & Hu1 & Hbi1 & Hl1).
    destruct (Hk c HcC) as (f2 & Hcf2 & h2 & b2 & Hu2 & Hbi2 & Hl2).
    destruct (look_after K dn [b] f h c1 _ f1 h1 b1 Hh Hnd Hcs Hft Hf Hc1C Hcf1 Hu1 Hbi1) as [Hge1 _].
    destruct (look_after K dn [b] f h c _ f2 h2 b2 Hh Hnd Hcs Hft Hf HcC Hcf2 Hu2 Hbi2) as [_ Hle2].
    simpl in Hge1, Hle2.
    assert (2 <= b_faces b1)%Z as Hb1.
    { specialize (Hge1 e Hed Hep (proj2 (HE _ _) Hc1e)).
      pose proof (faces_in2 (list_to_set [s; b; c1]) e b c1) as F. feed specialize F.
      - rewrite elem_of_list_to_set. right. by left.
      - exists (1 - k). by apply step_sym.
      - rewrite elem_of_list_to_set. right. right. by left.
      - destruct Hc1e as [kk Hc1e]. exists kk. by apply step_sym.
      - intros ->. apply Hc1p. right. by left.
      - simpl in F. clear - F Hge1. lia. }
    assert (b_faces b2 <= 1)%Z as Hb2.
    { destruct Hle2 as [->|(y & Hyd & Hyp & ->)]; [done|].
      pose proof (faces_le (list_to_set [s; b; c]) y) as F. feed specialize F; [|simpl in F; clear - F; lia].
      assert (y ≠ s ∧ y ≠ b ∧ y ≠ c) as (Ys & Yb & Yc).
      { rewrite !elem_of_cons in Hyp. clear - Hyp. naive_solver. }
      assert (∀ a b, step a b → step b a) as Hsy.
      { intros a a' [kk Ha]. exists kk. by apply step_sym. }
      assert (step y s → step y b → False) as N1.
      { intros S1 S2. eapply (no_triangle y s b); [done|done|by exists k|done]. }
      assert (step y b → step y c → False) as N2.
      { intros S1 S2. by eapply (no_triangle y b c). }
      assert (step y s → step y c → False) as N3.
      { intros S1 S2. destruct (same_dec d co s y) as [Hsy'|Hny].
        - apply Yb. eapply (out_one n d half co) with (x := c); [exact Hlt|exact Hsur|exact Hinj| |by apply Hsy|by apply Hsy|].
          + intros Hcy. apply Hsc. eapply same_trans; [exact Hsy'|]. by apply same_sym.
          + eapply same_trans; [apply same_sym; exact Hsy'|done].
        - apply (Hout y); [by apply Hsy|done|by apply Hdf]. }
      intros u v. rewrite !elem_of_list_to_set, !elem_of_cons, !elem_of_nil. clear - N1 N2 N3. naive_solver. }
    pose proof (faces_out _ c Hp Hsc) as Fc.
    pose proof (best_top _ _ _ c1 Hb Hc1C) as Hbt. cbn [fst snd] in Hbt. apply Hbt. left.
    rewrite Hl1, Hl2. unfold ahead. clear - Hb1 Hb2 Fc.
    repeat case_bool_decide; repeat (destruct (wlt _ _)); cbn [fst andb]; lia.
  - split; [|done]. simpl in Hm. assert (m = 0) as -> by (clear - Hm; lia).
    eapply (next_at K dn [b; c'] c y z); try done. right. right. exists c', [s; b]. split; [done|].
    pose proof (Hhd b eq_refl) as [k Hsb].
    assert (same s b ∧ same s c' ∧ c' < n) as (Hbs & Hcs' & Hcn).
    { split; [|split]; [| |apply Hcs; right; right; by left]; apply Hp; rewrite elem_of_list_to_set; [right; by left|right; right; by left]. }
    assert (k < d) as Hkd by by destruct Hsb as (_ & _ & ? & _).
    destruct (mate_ex n d half co Hlt Hsur Hinj k c' Hcn Hkd) as (y' & Hcy & Hsy').
    assert (same s y') as Hsy2 by by eapply same_trans.
    rewrite !NoDup_cons, !elem_of_cons, !elem_of_nil in Hnd.
    assert (y' ≠ s) as N1.
    { intros ->. apply (proj1 (proj2 Hnd)). left.
      eapply (mate_unique n d half co Hlt Hsur Hinj k s); [exact Hsb|exact Hbs|by apply step_sym|done]. }
    assert (y' ≠ b) as N2.
    { intros ->. apply (proj1 Hnd). right. left.
      eapply (mate_unique n d half co Hlt Hsur Hinj k b); [by apply step_sym|by apply same_sym|by apply step_sym|by apply same_sym]. }
    assert (y' ≠ c') as N3.
    { intros ->. destruct Hcy as (_ & _ & _ & Hq & _). clear - Hq. lia. }
    destruct (decide (y = y')) as [->|Hne]; [by exists k|]. exfalso.
    destruct (block_list n d half co Hlt Hsur Hinj s d (Hfn s Hs) (le_n _)) as (L & HL & HlL & HinL).
    assert ([s; b; c'; y; y'] ⊆+ L) as Hsub.
    { apply NoDup_submseteq.
      - rewrite !NoDup_cons, !elem_of_cons, !elem_of_nil. rewrite !elem_of_cons, elem_of_nil in HyS.
        pose proof (@NoDup_nil_2 nat). clear - Hnd N1 N2 N3 Hne HyS. naive_solver.
      - intros v Hv. apply HinL.
        assert (v < n ∧ same s v) as [? ?]; [|split_and!; [done..|clear; lia]].
        rewrite !elem_of_cons, elem_of_nil in Hv. destruct Hv as [->|[->|[->|[->|[->|[]]]]]]; (split; [|done]).
        + by apply Hfn.
        + apply Hcs. right. by left.
        + done.
        + done.
        + by destruct Hcy as (_ & ? & _). }
    apply submseteq_length in Hsub. rewrite HlL, Hd2 in Hsub. simpl in Hsub. clear - Hsub. lia.
Qed.

(** ** The cells kept *)

(** Inside of the block a cell has one neighbour per axis; a part of the block
    has a cell with fewer. *)
Lemma compact_full X c : 1 < size X → (∀ x, x ∈ X ↔ x < n ∧ same s x) → compactness row col X c → c = Z.of_nat d.
Proof.
  intros Hsz HX Hc. unfold compactness in Hc. rewrite decide_True in Hc by done.
  destruct Hc as [(x & Hx & <-) _]. f_equal. apply HX in Hx as [Hx Hsx].
  destruct (mates_list n d half co Hlt Hsur Hinj x d Hx (le_n _)) as (M & HM & <- & Hin).
  apply Permutation_length, NoDup_Permutation; [apply NoDup_filter, Hsimple|done|]. intros y.
  rewrite elem_of_list_filter, elem_of_nb_list, HE, HX, Hin. split.
  - intros [[Hy Hsy] [k Hk]]. exists k. split; [by destruct Hk as (?&?&?&?)|]. split; [done|].
    eapply same_trans; [apply same_sym; exact Hsx|done].
  - intros (k & _ & Hk & Hsy). split; [split|by exists k]; [by destruct Hk as (?&?&?&?)|].
    by eapply same_trans.
Qed.
Lemma compact_part X c x : 1 < size X → part X → x < n → same s x → x ∉ X → compactness row col X c → (c < Z.of_nat d)%Z.
Proof.
  intros Hsz Hp Hx Hsx HxX Hc. unfold compactness in Hc. rewrite decide_True in Hc by done. destruct Hc as [_ Hc].
  destruct (missing n d half co Hlt Hsur Hinj X s x) as (y & z & Hy & Hsy & HyS & HzS & Hsyz & Hst & _);
    [apply Hp|by apply Hfn|done..|].
  destruct (proj2 Hp z HzS) as [Hz Hsz'].
  destruct (mates_list n d half co Hlt Hsur Hinj z d Hz (le_n _)) as (M & HM & HlM & Hin).
  specialize (Hc z HzS). eapply Z.le_lt_trans; [exact Hc|].
  assert (y :: filter (λ y, y ∈ X) (nb_list row col z) ⊆+ M) as Hsub.
  { apply NoDup_submseteq.
    - constructor; [|apply NoDup_filter, Hsimple]. rewrite elem_of_list_filter. by intros [? _].
    - assert (∀ w, w < n → same s w → step z w → w ∈ M) as HwM.
      { intros w Hw Hsw [k Hk]. apply Hin. exists k. split; [by destruct Hk as (?&?&?&?)|]. split; [done|].
        eapply same_trans; [apply same_sym; exact Hsz'|done]. }
      intros w [->|Hw]%elem_of_cons.
      + apply HwM; [done..|]. destruct Hst as [k Hk]. exists k. by apply step_sym.
      + apply elem_of_list_filter in Hw as [HwX Hw]. rewrite elem_of_nb_list, HE in Hw.
        destruct (proj2 Hp w HwX). by apply HwM. }
  apply submseteq_length in Hsub. simpl in Hsub. rewrite HlM in Hsub. clear - Hsub. lia.
Qed.

Lemma grown_block X : grown_from ip g prio (compactness row col) (ext_of g) free s X →
  ∀ x, x ∈ X ↔ x < n ∧ same s x.
Proof.
  intros [_ (K & dn & Hh & Hc)]. cbn zeta in Hc.
  pose proof (Hfn s Hs) as Hsn.
  destruct (block_list n d half co Hlt Hsur Hinj s d Hsn (le_n _)) as (L & HL & HlL & HinL).
  assert (∀ x, x ∈ L ↔ x < n ∧ same s x) as HinL'.
  { intros x. rewrite HinL. split; [tauto|]. intros [? ?]. split_and!; [done..|]. clear. lia. }
  clear HinL.
  assert (2 ^ d ≤ 1 + size dn) as Hav.
  { rewrite <- HlL. assert (L ⊆+ s :: elements (dom dn)) as Hsub.
    { apply NoDup_submseteq; [done|]. intros x Hx. apply HinL' in Hx as [Hx Hsx]. apply elem_of_cons.
      destruct (decide (x = s)) as [|Hne]; [by left|right]. apply elem_of_elements, elem_of_dom. by eapply hood_block. }
    apply submseteq_length in Hsub. simpl in Hsub.
    change (length (elements (dom dn))) with (size (dom dn)) in Hsub. rewrite size_dom in Hsub. exact Hsub. }
  rewrite bool_decide_eq_false_2 in Hc by (clear - Hav Hgoal Hmax; lia).
  destruct Hc as (l & C & k & Hnd & Hlen & Hnext & HC & Hkept & ->).
  assert (1 + length l = 2 ^ d) as Hl by (clear - Hav Hlen Hmax; lia).
  assert (∀ m c, l !! m = Some c → ∀ b, head (take m l) = Some b → l !! 0 = Some b) as Hhead.
  { clear. intros m c Hc b Hb. destruct l, m; [done..|]. simpl in Hb. done. }
  assert (∀ m, m ≤ length l → part (list_to_set (s :: take m l)) ∧ (d = 2 → ∀ b, 0 < m → l !! 0 = Some b → step s b)) as Hpart'.
  { induction m as [|m IH]; intros Hm.
    - split; [|intros _ b Hb; clear - Hb; lia].
      split; [set_solver|]. intros x Hx. simpl in Hx. replace x with s; [split; [done|apply same_refl]|]. set_solver.
    - destruct (IH ltac:(clear - Hm; lia)) as [IH1 IH2]. clear IH. rename IH1 into IH.
      destruct (lookup_lt_is_Some_2 l m) as [c Hc]; [clear - Hm; lia|].
      assert (∃ x, x ∈ L ∧ x ∉ s :: take m l) as (x & HxL & Hxn).
      { destruct (decide (Forall (λ x, x ∈ s :: take m l) L)) as [Hf|Hf].
        - exfalso. rewrite Forall_forall in Hf. pose proof (NoDup_submseteq _ _ HL Hf) as Hsub.
          apply submseteq_length in Hsub. simpl in Hsub. rewrite take_length in Hsub. clear - Hsub HlL Hl Hm. lia.
        - apply not_Forall_Exists in Hf; [|apply _]. apply Exists_exists in Hf as (x & ? & ?). by exists x. }
      apply HinL' in HxL as [Hx Hsx].
      pose proof (Hnext m c Hc) as Hnc. 
      assert (same s c ∧ (d = 2 → m = 0 → step s c)) as [Hsc Hs0].
      { destruct (decide (d = 2)) as [Hd2|Hd2].
        - rewrite Hd2 in Hl. simpl in Hl.
          assert (length (take m l) = m) as Hlm by (rewrite take_length; clear - Hm; lia).
          match type of Hnc with next_cell _ _ _ _ _ _ ?q _ => pose proof (next_flat K dn (take m l) q c Hd2 Hh) as Hfl end.
          destruct Hfl as [H1 H2]; [| | | | |exact Hnc|].
          + change (s :: take m l) with (take (S m) (s :: l)). rewrite <- (take_drop (S m) (s :: l)) in Hnd. by apply NoDup_app in Hnd as [? _].
          + exact IH.
          + clear - Hl Hm Hlm. lia.
          + clear - Hl Hm Hlm. destruct (ip_it ip); lia.
          + intros b Hb. apply IH2; [done| |by eapply Hhead]. destruct m; [done|clear; lia].
          + split; [done|]. intros _ ->. by apply H2.
        - destruct Hmode as [|[Hfr Hit]]; [done|]. rewrite Hit in Hnc. split; [|done].
          by apply (next_in_block K dn (take m l) c x). }
      assert (c < n) as Hcn.
      { destruct (Hnc) as (f & h & ar & look & _ & Hf & _ & Hb).
        assert (∀ c, c ∈ s :: take m l → c < n) as Hcs.
        { intros y Hy. apply IH. by rewrite elem_of_list_to_set. }
        destruct Hb as (u & v & Hbl & _). destruct (cand_border dn (s :: take m l) h Hcs Hf c) as (_ & _ & y & _ & Hey).
        { rewrite Hbl. apply elem_of_app. right. by left. }
        apply HE in Hey as (k' & ? & ? & _). done. }
      split.
      2:{ intros Hd2 b _ Hb. destruct m as [|m]; [|apply IH2; [done|clear; lia|done]].
          rewrite Hc in Hb. injection Hb as <-. by apply Hs0. }
      rewrite (take_S_r _ _ _ Hc). split; [set_solver|]. intros y.
      rewrite app_comm_cons, list_to_set_app, elem_of_union. intros [Hy|Hy]; [by apply IH|].
      replace y with c; [done|]. set_solver. }
  assert (∀ m, m ≤ length l → part (list_to_set (s :: take m l))) as Hpart by (intros m Hm; by apply Hpart').
  assert (∀ x, x ∈ (list_to_set (s :: l) : gset nat) ↔ x < n ∧ same s x) as Hfull.
  { intros x. split; [intros Hx; apply (Hpart (length l) (le_n _)); by rewrite take_ge by done|].
    intros Hx. apply elem_of_list_to_set. apply HinL' in Hx. revert x Hx.
    assert (s :: l ⊆+ L) as Hsub.
    { apply NoDup_submseteq; [done|]. intros x Hx. apply HinL'. apply (Hpart (length l) (le_n _)).
      rewrite take_ge by done. by rewrite elem_of_list_to_set. }
    apply submseteq_Permutation_length_eq in Hsub; [|simpl; rewrite HlL; clear - Hl; lia].
    intros x Hx. by rewrite Hsub. }
  assert (k = 2 ^ d) as ->; [|by rewrite take_ge by (simpl; rewrite <- Hl; clear; lia)].
  assert (∀ j, j ≤ 2 ^ d → size (list_to_set (take j (s :: l)) : gset nat) = j) as Hsize.
  { intros j Hj. rewrite size_list_to_set.
    - rewrite take_length. simpl. clear - Hj Hl. lia.
    - rewrite <- (take_drop j (s :: l)) in Hnd. by apply NoDup_app in Hnd as [? _]. }
  destruct Hkept as [[Hadm Hopt] _]. unfold admissible in Hadm, Hopt, HC.
  assert (1 < 2 ^ d) as H2d by (clear - Hd; destruct Hd as [-> | ->]; simpl; lia).
  assert (C (2 ^ d) = Z.of_nat d) as HCd.
  { eapply (compact_full (list_to_set (take (2 ^ d) (s :: l)))).
    - rewrite Hsize; done.
    - intros x. rewrite take_ge by (simpl; clear - Hl; lia). apply Hfull.
    - apply HC. clear - Hmin Hmax Hl. lia. }
  destruct (decide (k = 2 ^ d)) as [|Hne]; [done|]. exfalso.
  destruct k as [|k]; [clear - Hmin Hadm; lia|].
  assert (S k < 2 ^ d) as Hk by (clear - Hadm Hl Hne; lia).
  assert (C (S k) < Z.of_nat d)%Z as HCk.
  { assert (∃ x, x ∈ L ∧ x ∉ take (S k) (s :: l)) as (x & HxL & Hxn).
    { destruct (decide (Forall (λ x, x ∈ take (S k) (s :: l)) L)) as [Hf|Hf].
      - exfalso. rewrite Forall_forall in Hf. pose proof (NoDup_submseteq _ _ HL Hf) as Hsub.
        apply submseteq_length in Hsub. rewrite take_length in Hsub. simpl in Hsub. clear - Hsub HlL Hl Hk. lia.
      - apply not_Forall_Exists in Hf; [|apply _]. apply Exists_exists in Hf as (x & ? & ?). by exists x. }
    apply HinL' in HxL as [Hx Hsx].
    eapply (compact_part (list_to_set (take (S k) (s :: l))) _ x); try done.
    - rewrite Hsize; [|clear - Hk; lia]. clear - Hadm Hmin. lia.
    - apply Hpart. clear - Hk Hl. lia.
    - by rewrite elem_of_list_to_set.
    - by apply HC. }
  destruct (Hopt (2 ^ d)) as [Hgt|[Heq _]]; [clear - Hmin Hmax Hl; lia|clear - Hgt HCd HCk; lia|clear - Heq HCd HCk; lia].
Qed.
End growth.
