(** * GridQ: the queues of seeds on a grid (C67) *)

From Coq Require Import Sorted.
From Verif Require Import Base Features Neigh Iso Seeds Spec SpecSub SpecFeat SpecBest SpecPool SpecGrow SpecFeed Main GridT GridG.

Section queues.
Context {A : Arith} {H : HashOrder}.
Context (prio : list W) (bnd : list Z).
Context (n d : nat) (half : nat → nat) (co : nat → nat → nat).
Notation step := (step n d co).
Notation same := (same d co).
Notation bf := (bf d half co).
Notation cls := (cls d half co).
Hypothesis Hlt : ∀ c k, c < n → k < d → co c k < 2 * half k.
Hypothesis Hsur : ∀ f : nat → nat, (∀ k, k < d → f k < 2 * half k) → ∃ c, c < n ∧ ∀ k, k < d → co c k = f k.
Hypothesis Hinj : ∀ c c', c < n → c' < n → (∀ k, k < d → co c k = co c' k) → c = c'.
Hypothesis Hd : d = 2 ∨ d = 3.
Hypothesis Hbnd : ∀ x, x < n → bnd !! x = Some (Z.of_nat (bf x)).
Hypothesis Hbl : length bnd = n.

(** What holds of the queues and of the free cells whenever a seed is about to
    be taken.  A cell waits in the queue of its number of boundary faces; when
    its turn comes, the cells around its block are no longer free. *)
Record inv (aggl : list bool) (p : pool) : Prop := {
  v_len : length aggl = n;
  v_blk : ∀ x y, y < n → same x y → is_free aggl x → is_free aggl y;
  v_q : length (sp_q p) = 4;
  v_top : ∃ t, sp_top p = Some (Z.of_nat t) ∧ t ≤ d ∧
    (S (S t) ≤ d → ∀ x, is_free aggl x → bf x ≤ t) ∧
    (sp_bp p = false → ∀ l, t < l → spent aggl p l);
  v_lev : ∀ l x, queued p l x → x < n ∧ bf x = l;
  v_hi : ∀ l x o, queued p l x → is_free aggl x → d ≤ S l → step x o → ¬ same x o → ¬ is_free aggl o;
  v_lo : ∀ l u x v, sp_q p !! l = Some (u ++ x :: v) → is_free aggl x → S (S l) ≤ d →
    l < cls x ∨ (∃ e, e ∈ u ∧ same e x) ∨
    ∀ o, step x o → ¬ same x o → is_free aggl o → l < cls o ∨ ∃ e, e ∈ u ∧ same e o;
  v_near : ∀ o y, ¬ is_free aggl o → step o y → is_free aggl y → queued p (bf y) y;
  v_start : (∃ c, c < n ∧ bf c = d ∧ ¬ is_free aggl c) ∨
    (sp_top p = Some (Z.of_nat d) ∧ ∃ c, is_free aggl c ∧ queued p d c);
}.

(** What is known once a seed has been taken. *)
Record took (aggl : list bool) (p : pool) (s : nat) (p' : pool) : Prop := {
  tk_free : is_free aggl s;
  tk_out : ∀ o, step s o → ¬ same s o → ¬ is_free aggl o;
  tk_cls : bf s = cls s ∨ cls s = d;
  tk_bp : sp_bp p' = sp_bp p;
  tk_len : length (sp_q p') = 4;
  tk_top : sp_top p' = Some (Z.of_nat (bf s));
  tk_stage : S (S (bf s)) ≤ d → ∀ x, is_free aggl x → bf x ≤ bf s;
  tk_above : sp_bp p = false → ∀ l, bf s < l → spent aggl p' l;
  tk_q : ∀ l q1, sp_q p' !! l = Some q1 →
    (∃ q w, sp_q p !! l = Some q ∧ q = w ++ q1 ∧ ∀ e, e ∈ w → ¬ is_free aggl e ∨ e = s) ∨
    l = d ∧ (∀ x, x ∈ q1 → x < n ∧ bf x = d) ∧ spent aggl p d;
  tk_start : (∃ c, c < n ∧ bf c = d ∧ ¬ is_free aggl c) ∨ bf s = d;
}.

Lemma is_free_n aggl x : length aggl = n → is_free aggl x → x < n.
Proof. intros <- Hx. by eapply lookup_lt_Some. Qed.

(** ** A seed *)
Section take.
Context (aggl : list bool) (p : pool).
Hypothesis HI : inv aggl p.
Notation free := (is_free aggl).

Lemma fr_n x : free x → x < n.
Proof. apply is_free_n, HI. Qed.

(** A free cell reached from a corner which is not free: on the way a free cell
    is beside one which is not. *)
Lemma reach b c x : (∀ o y, ¬ free o → step o y → free y → b ≤ bf y → False) →
  c < n → bf c = d → ¬ free c → S b ≤ d → free x → b ≤ bf x → False.
Proof.
  intros Hno Hc Hbc Hfc Hb Hx Hbx.
  refine (sweep n d half co Hlt Hsur Hinj (λ x, ¬ free x) b Hb _ x c Hfc Hc Hbc (fr_n _ Hx) Hbx Hx).
  intros o y Ho Hst Hby Hy. by eapply Hno.
Qed.

(** A cell beside one which is not free and out of its block is not a corner. *)
Lemma near_low o y : ¬ free o → step o y → free y → S (bf y) ≤ d.
Proof.
  intros Ho Hst Hy. pose proof (cnt_le d (onb half co y)) as Hle. change (bf y ≤ d) in Hle.
  destruct (decide (bf y = d)) as [He|]; [|lia]. exfalso.
  assert (step y o) as Hst' by (destruct Hst as [k Hk]; exists k; by apply step_sym).
  eapply (out_corner n d half co Hlt Hsur Hinj y o He Hst'). intros Hs. apply Ho. eapply (v_blk _ _ HI); [|exact Hs|done].
  by destruct Hst as (k & ? & ?).
Qed.

(** The cell whose turn comes in queue [l] is a good seed. *)
Lemma seed_good l pre s post : sp_q p !! l = Some (pre ++ s :: post) → free s → (∀ e, e ∈ pre → ¬ free e) →
  (S (S l) ≤ d → ∀ x, free x → bf x ≤ l) →
  bf s = l ∧ (∀ o, step s o → ¬ same s o → ¬ free o) ∧ (bf s = cls s ∨ cls s = d).
Proof.
  intros Hq Hs Hpre Hst.
  assert (queued p l s) as Hqs by (eexists; split; [exact Hq|apply elem_of_app; right; by left]).
  destruct (v_lev _ _ HI l s Hqs) as [Hsn Hbs]. split; [done|].
  assert (S (S l) ≤ d → ∀ x, free x → ¬ l < cls x) as Hcl.
  { intros Hl x Hx Hc. destruct (cls_cell n d half co Hlt Hsur Hinj x (fr_n _ Hx)) as (y & Hy & Hsy & Hby).
    pose proof (Hst Hl y (v_blk _ _ HI _ _ Hy Hsy Hx)). lia. }
  assert (∀ e o, e ∈ pre → same e o → free o → False) as Hp.
  { intros e o He Heo Ho. apply (Hpre e He). eapply (v_blk _ _ HI o); [|by apply same_sym|done].
    apply (v_lev _ _ HI l). eexists. split; [exact Hq|]. apply elem_of_app. by left. }
  split.
  - destruct (decide (d ≤ S l)) as [Hh|Hh].
    + intros o. by apply (v_hi _ _ HI l).
    + intros o Ho Hno Hfo. assert (S (S l) ≤ d) as Hh' by lia.
      destruct (v_lo _ _ HI l _ _ _ Hq Hs Hh') as [Hc|[(e & He & Hes)|Hall]].
      * by apply (Hcl Hh' s Hs).
      * by eapply (Hp e s).
      * destruct (Hall o Ho Hno Hfo) as [Hc|(e & He & Hes)]; [by apply (Hcl Hh' o Hfo)|by eapply (Hp e o)].
  - pose proof (bf_cls n d half co Hlt Hsur Hinj s Hsn). pose proof (cnt_le d (touch half co s)) as Hle. change (cls s ≤ d) in Hle.
    destruct (decide (S (S l) ≤ d)) as [Hl|]; [|lia]. pose proof (Hcl Hl s Hs). lia.
Qed.

(** What is left of the queues. *)
Lemma taken_q (P : nat → Prop) p0 l s p' : (∀ l, P l ∨ ¬ P l) → emptied P p p0 → (∀ l', P l' → spent aggl p l') →
  taken aggl p0 l s p' →
  ∃ pre post, sp_q p !! l = Some (pre ++ s :: post) ∧ (∀ e, e ∈ pre → ¬ free e) ∧ free s ∧
    p' = Pool (<[l := post]> (sp_q p0)) (Some (Z.of_nat l)) (sp_one p0) (sp_bp p0) ∧
    ∀ l' q1, sp_q p' !! l' = Some q1 →
      ∃ q w, sp_q p !! l' = Some q ∧ q = w ++ q1 ∧ ∀ e, e ∈ w → ¬ free e ∨ e = s.
Proof.
  intros HP (Hb & Ho & Hl & He) Hsp (Hs & pre & post & Hq & Hpre & ->).
  assert (sp_q p !! l = Some (pre ++ s :: post)) as Hq'.
  { destruct (lookup_lt_is_Some_2 (sp_q p) l) as [q Hql]; [rewrite <- Hl; by eapply lookup_lt_Some|].
    destruct (He l q Hql) as [H1 H2]. destruct (HP l) as [Hp|Hp].
    - rewrite (H1 Hp) in Hq. injection Hq as Hq. by destruct pre.
    - rewrite (H2 Hp) in Hq. congruence. }
  exists pre, post. split_and!; try done. intros l' q1 Hq1. simpl in Hq1.
  destruct (decide (l = l')) as [<-|Hne].
  - rewrite list_lookup_insert in Hq1 by (by eapply lookup_lt_Some). injection Hq1 as <-.
    exists (pre ++ s :: post), (pre ++ [s]). split; [done|]. split; [by rewrite <- app_assoc|].
    intros e [He'| ->%elem_of_list_singleton]%elem_of_app; [left; by apply Hpre|by right].
  - rewrite list_lookup_insert_ne in Hq1 by done.
    destruct (lookup_lt_is_Some_2 (sp_q p) l') as [q Hql]; [rewrite <- Hl; by eapply lookup_lt_Some|].
    destruct (He l' q Hql) as [H1 H2]. destruct (HP l') as [Hp|Hp].
    + rewrite (H1 Hp) in Hq1. injection Hq1 as <-. exists q, q. split; [done|]. split; [by rewrite app_nil_r|].
      intros e Heq. left. apply (Hsp l' Hp). by exists q.
    + rewrite (H2 Hp) in Hq1. injection Hq1 as <-. exists q, []. split; [done|]. split; [done|].
      by intros e ?%elem_of_nil.
Qed.

Lemma insp_dec t l : inspected p t l ∨ ¬ inspected p t l.
Proof. unfold inspected. destruct (sp_bp p); [destruct (decide (l = Z.to_nat t))|destruct (decide (l ≤ Z.to_nat t))]; tauto. Qed.

Lemma queued_spent l x : queued p l x → free x → spent aggl p l → False.
Proof. intros Hq Hx Hs. by apply (Hs x). Qed.

Lemma take_ok s p' : takes prio bnd aggl p s p' → took aggl p s p'.
Proof.
  intros (t0 & Ht0 & Hcases).
  destruct (v_top _ _ HI) as (t & Ht & Htd & Hstage & Habove). rewrite Ht in Ht0. injection Ht0 as <-.
  assert (Hz : ∀ l, inspected p (Z.of_nat t) l ↔ if sp_bp p then l = t else l ≤ t).
  { intros l. unfold inspected. by rewrite Nat2Z.id. }
  assert (∀ l p0 P, (∀ l, P l ∨ ¬ P l) → emptied P p p0 → (∀ l', P l' → spent aggl p l') → taken aggl p0 l s p' →
    (S (S l) ≤ d → ∀ x, free x → bf x ≤ l) →
    (sp_bp p = false → ∀ l', l < l' → spent aggl p l') →
    ((∃ c, c < n ∧ bf c = d ∧ ¬ free c) ∨ l = d) → took aggl p s p') as Hdone.
  { intros l p0 P HP He Hsp Htk Hst Hab Hstart.
    destruct (taken_q P p0 l s p' HP He Hsp Htk) as (pre & post & Hq & Hpre & Hs & Hp' & Hqs).
    destruct (seed_good l pre s post Hq Hs Hpre Hst) as (<- & Hout & Hcl).
    destruct He as (Hb & _ & Hle & _).
    split; try done.
    - by rewrite Hp'.
    - rewrite Hp'. simpl. rewrite insert_length, Hle. apply HI.
    - by rewrite Hp'.
    - intros Hbp l' Hl' e (q1 & Hq1 & Heq). destruct (Hqs l' q1 Hq1) as (q & w & Hq0 & -> & _).
      apply (Hab Hbp l' Hl'). eexists. split; [exact Hq0|]. apply elem_of_app. by right.
    - intros l' q1 Hq1. left. by apply Hqs. }
  (* the first free cells *)
  assert (∀ l, inspected p (Z.of_nat t) l → (∀ l', inspected p (Z.of_nat t) l' → l < l' → spent aggl p l') →
    (S (S l) ≤ d → ∀ x, free x → bf x ≤ l) ∧ ((∃ c, c < n ∧ bf c = d ∧ ¬ free c) ∨ l = d)) as Hcase1.
  { intros l Hl Hhi. apply Hz in Hl.
    assert ((∃ c, c < n ∧ bf c = d ∧ ¬ free c) ∨ l = d) as Hstart.
    { destruct (v_start _ _ HI) as [|[Htop (c & Hc & Hqc)]]; [by left|]. right.
      rewrite Ht in Htop. injection Htop as Htop. assert (t = d) as -> by lia.
      destruct (sp_bp p) eqn:Hbp; [done|]. destruct (decide (l = d)) as [|Hne]; [done|]. exfalso.
      eapply queued_spent; [exact Hqc|done|]. apply Hhi; [by apply Hz|lia]. }
    split; [|done]. intros Hl2 x Hx. destruct (decide (bf x ≤ l)) as [|Hgt]; [done|]. exfalso.
    destruct Hstart as [(c & Hc & Hbc & Hfc)|Hld]; [|lia].
    destruct (sp_bp p) eqn:Hbp; [subst l; by apply Hgt, Hstage|].
    eapply (reach (S l) c x); try done; try lia. intros o y Ho Hst Hy Hby.
    pose proof (v_near _ _ HI o y Ho Hst Hy) as Hqy.
    eapply queued_spent; [exact Hqy|done|]. destruct (decide (bf y ≤ t)) as [|].
    - apply Hhi; [by apply Hz|lia].
    - apply Habove; [done|lia]. }
  destruct Hcases as [(l & p0 & Hl & Hhi & He & Htk)|(Hsp & b & p0 & Hb & He & Hcases)].
  - destruct (Hcase1 l Hl Hhi) as [H1 H2].
    eapply (Hdone l p0 _); [|exact He| |exact Htk|exact H1| |exact H2].
    + intros l'. destruct (insp_dec (Z.of_nat t) l'), (decide (l < l')); tauto.
    + intros l' [? ?]. by apply Hhi.
    + intros Hbp l' Hl'. destruct (decide (l' ≤ t)) as [|]; [|apply Habove; [done|lia]].
      apply Hhi; [|done]. apply Hz. by rewrite Hbp.
  - (* no free cell in the queues inspected *)
    assert (∃ c, c < n ∧ bf c = d ∧ ¬ free c) as (c & Hc & Hbc & Hfc).
    { destruct (v_start _ _ HI) as [|[Htop (c & Hc & Hqc)]]; [done|]. exfalso.
      rewrite Ht in Htop. injection Htop as Htop. assert (t = d) as -> by lia.
      eapply queued_spent; [exact Hqc|done|]. apply Hsp, Hz. by destruct (sp_bp p). }
    assert (∃ x, free x ∧ b = Z.of_nat (bf x)) as (x & Hx & ->).
    { destruct Hb as [(_ & x & Hx & Hbx & _)|[[(x & Hx & Hbx) _] _]];
        exists x; (split; [done|]); rewrite (Hbnd x (fr_n _ Hx)) in Hbx; congruence. }
    rewrite Nat2Z.id in Hcases.
    assert (sp_bp p = true) as Hbp.
    { destruct (sp_bp p) eqn:Hbp; [done|]. exfalso.
      eapply (reach 0 c x); try done; try lia. intros o y Ho Hst Hy _.
      pose proof (v_near _ _ HI o y Ho Hst Hy) as Hqy.
      eapply queued_spent; [exact Hqy|done|]. destruct (decide (bf y ≤ t)) as [|].
      - by apply Hsp, Hz.
      - apply Habove; [done|lia]. }
    assert (∀ y, free y → S (bf x) ≤ d → S (bf y) ≤ d → bf y ≤ bf x) as Hhighest.
    { intros y Hy Hxd Hyd. destruct Hb as [(Htb & _)|[[_ Hm] _]].
      - destruct (decide (S (S (bf x)) ≤ d)) as [|]; [|lia]. pose proof (Hstage ltac:(lia) y Hy). lia.
      - specialize (Hm y (Z.of_nat (bf y)) Hy (Hbnd y (fr_n _ Hy))). lia. }
    assert (S (S (bf x)) ≤ d → ∀ y, free y → bf y ≤ bf x) as Hst2.
    { intros Hl y Hy. destruct Hb as [(Htb & _)|[[_ Hm] _]].
      - pose proof (Hstage ltac:(lia) y Hy). lia.
      - specialize (Hm y (Z.of_nat (bf y)) Hy (Hbnd y (fr_n _ Hy))). lia. }
    destruct Hcases as [Htk|(Hspb & rest & Hlist & Hleft)].
    { eapply (Hdone (bf x) p0 _); [|exact He|exact Hsp|exact Htk|done| |left; by exists c].
      - apply insp_dec.
      - by rewrite Hbp. }
    assert (bf x = d) as Hbxd.
    { pose proof (cnt_le d (onb half co x)) as Hle. change (bf x ≤ d) in Hle.
      destruct (decide (bf x = d)) as [|Hne]; [done|]. exfalso.
      eapply (reach (bf x) c x); try done; try lia. intros o y Ho Hst Hy Hby.
      pose proof (near_low o y Ho Hst Hy) as Hyd.
      assert (bf y = bf x) as Hyx by (pose proof (Hhighest y Hy ltac:(lia) Hyd); lia).
      pose proof (v_near _ _ HI o y Ho Hst Hy) as Hqy. rewrite Hyx in Hqy.
      destruct (insp_dec (Z.of_nat t) (bf x)) as [Hin|Hin]; [by eapply queued_spent, Hsp|].
      destruct Hqy as (q & Hq & Hyq). apply (Hspb y); [|done]. exists q. split; [|done].
      destruct He as (_ & _ & _ & He). by apply (He _ _ Hq). }
    destruct Hlist as [Hin _].
    assert (∀ y, y ∈ s :: rest → y < n ∧ bf y = d ∧ free y) as Hcor.
    { intros y [Hy Hby]%Hin. pose proof (fr_n _ Hy) as Hyn. rewrite (Hbnd y Hyn) in Hby. split; [done|].
      split; [|done]. injection Hby as Hby. lia. }
    destruct (Hcor s) as (Hsn & Hbs & Hfs); [by left|].
    unfold left_with in Hleft. subst p'. rewrite Hbxd in *.
    destruct He as (Hb1 & Hb2 & Hb3 & He).
    split; simpl; try done.
    + intros o Ho Hno. exfalso. by eapply (out_corner n d half co).
    + right. pose proof (bf_cls n d half co Hlt Hsur Hinj s Hsn). pose proof (cnt_le d (touch half co s)) as Hle.
      change (cls s ≤ d) in Hle. lia.
    + rewrite insert_length, Hb3. apply HI.
    + by rewrite Hbs.
    + lia.
    + by rewrite Hbp.
    + intros l q1 Hq1. destruct (decide (d = l)) as [<-|Hne].
      * right. split; [done|]. rewrite list_lookup_insert in Hq1.
        2:{ rewrite Hb3, (v_q _ _ HI). lia. }
        injection Hq1 as <-. split; [intros y Hy; destruct (Hcor y) as (?&?&?); [by right|done]|].
        destruct (insp_dec (Z.of_nat t) d) as [Hi|Hi]; [by apply Hsp|].
        intros e (q & Hq & Heq). apply (Hspb e). exists q. split; [|done]. by apply (He _ _ Hq).
      * rewrite list_lookup_insert_ne in Hq1 by done. left.
        destruct (lookup_lt_is_Some_2 (sp_q p) l) as [q Hql]; [rewrite <- Hb3; by eapply lookup_lt_Some|].
        destruct (He l q Hql) as [H1 H2]. destruct (insp_dec (Z.of_nat t) l) as [Hp|Hp].
        -- rewrite (H1 Hp) in Hq1. injection Hq1 as <-. exists q, q. split; [done|]. split; [by rewrite app_nil_r|].
           intros e Heq. left. apply (Hsp l Hp). by exists q.
        -- rewrite (H2 Hp) in Hq1. injection Hq1 as <-. exists q, []. split; [done|]. split; [done|].
           by intros e ?%elem_of_nil.
    + left. by exists c.
Qed.
End take.

(** ** The cells around a new coarse cell *)

Lemma walk_far (E : nat → nat → Prop) (P : nat → Prop) s k y i j : (∀ a b, E a b → step a b) →
  walk E P (λ z, z = s) k y → i < d → j < d → i ≠ j →
  (co y i - co s i) + (co s i - co y i) + (co y j - co s j) + (co s j - co y j) ≤ k.
Proof.
  clear. intros HE Hw Hi Hj Hij. induction Hw as [x ->|k x y Hw IH Hst _]; [lia|].
  destruct (HE _ _ Hst) as (m & _ & _ & _ & Ho & Hm).
  pose proof (Hm i Hi) as Hmi. pose proof (Hm j Hj) as Hmj.
  destruct (decide (i = m)) as [->|Hi'].
  - specialize (Hmj ltac:(congruence)). lia.
  - specialize (Hmi Hi'). destruct (decide (j = m)) as [->|Hj']; [lia|]. specialize (Hmj Hj'). lia.
Qed.

Section feed.
Context (aggl aggl' : list bool) (p p1 p2 : pool) (s : nat) (X : gset nat) (E : nat → nat → Prop) (dn : gmap nat Z).
Notation free := (is_free aggl).
Notation free' := (is_free aggl').
Hypothesis HI : inv aggl p.
Hypothesis HT : took aggl p s p1.
Hypothesis HX : ∀ x, x ∈ X ↔ x < n ∧ same s x.
Hypothesis HE : ∀ x y, E x y ↔ step x y.
Hypothesis Hlen : length aggl' = length aggl.
Hypothesis Hfree : ∀ x, free' x ↔ free x ∧ x ∉ X.
Hypothesis Hnear : ∀ y z, y ≠ s → step s z → free z → step z y → free y → ∃ v, dn !! y = Some v ∧ (v <= 2)%Z.
Hypothesis Hfar : ∀ y v, dn !! y = Some v → ∃ k, v = Z.of_nat k ∧ walk E free (λ z, z = s) k y.
Notation N := (λ y, free y ∧ y ∉ X ∧ ∃ x, x ∈ X ∧ E x y).
Hypothesis Hfed : fed prio bnd (λ x, dn !! x) N p1 p2.

Lemma s_n : s < n.
Proof. apply (is_free_n aggl); [apply HI|apply HT]. Qed.
Lemma fr2_n x : free' x → x < n.
Proof. intros [Hx _]%Hfree. apply (is_free_n aggl); [apply HI|done]. Qed.
Lemma blk2 x y : y < n → same x y → free' x → free' y.
Proof.
  intros Hy Hs Hx. pose proof (fr2_n _ Hx) as Hxn. apply Hfree in Hx as [Hx HxX]. apply Hfree. split; [by eapply (v_blk _ _ HI)|].
  rewrite HX in HxX |- *. intros [_ Hsy]. apply HxX. split; [done|]. eapply same_trans; [exact Hsy|]. by apply same_sym.
Qed.
(** A cell which is queued: out of [X], beside it. *)
Lemma new_cell x : N x → free' x ∧ ∃ i xx, xx ∈ X ∧ step_on n d co i xx x ∧ ¬ same xx x ∧ ¬ same s x.
Proof.
  intros (Hx & HxX & xx & Hxx & Hst). split; [by apply Hfree|]. apply HE in Hst as [i Hi]. exists i, xx.
  assert (x < n) as Hxn by (by destruct Hi as (?&?&?)).
  assert (¬ same s x) as Hns by (intros Hs; apply HxX, HX; done).
  split_and!; try done. intros Hs. apply Hns. apply HX in Hxx as [_ Hsx]. by eapply same_trans.
Qed.
Lemma new_low x : N x → S (bf x) ≤ d.
Proof.
  intros Hx. destruct (new_cell x Hx) as (_ & i & xx & _ & Hi & Hns & _).
  pose proof (cnt_le d (onb half co x)) as Hle. change (bf x ≤ d) in Hle.
  destruct (decide (bf x = d)) as [He|]; [|lia]. exfalso.
  eapply (out_corner n d half co Hlt Hsur Hinj x xx He); [exists i; by apply step_sym|].
  intros ?. apply Hns. by apply same_sym.
Qed.
Lemma new_level x : N x → level_of p1 (Z.of_nat (bf x)) = Z.of_nat (bf x).
Proof.
  intros Hx. unfold level_of. destruct (sp_bp p1); [done|]. rewrite (tk_top _ _ _ _ HT).
  pose proof (new_low x Hx). destruct (decide (S (S (bf s)) ≤ d)) as [Hl|]; [|lia].
  pose proof (tk_stage _ _ _ _ HT Hl x (proj1 Hx)). lia.
Qed.
Lemma fed_q l q2 : sp_q p2 !! l = Some q2 → ∃ q1 add, sp_q p1 !! l = Some q1 ∧ q2 = q1 ++ add ∧
  (∀ x, x ∈ add ↔ N x ∧ bf x = l) ∧ StronglySorted (queued_before prio bnd (λ x, dn !! x)) add.
Proof.
  intros Hq2. destruct (fd_kind _ _ _ _ _ _ Hfed) as (_ & _ & Hl).
  destruct (lookup_lt_is_Some_2 (sp_q p1) l) as [q1 Hq1]; [rewrite <- Hl; by eapply lookup_lt_Some|].
  destruct (fd_q _ _ _ _ _ _ Hfed l q1 Hq1) as (add & Hadd & Hin & Hsort).
  exists q1, add. split; [done|]. split; [congruence|]. split; [|done]. intros x. rewrite Hin. split.
  - intros [Hx (b & Hb & Hlv)]. split; [done|]. rewrite Hbnd in Hb.
    + injection Hb as <-. rewrite new_level in Hlv by done. lia.
    + apply (is_free_n aggl); [apply HI|apply Hx].
  - intros [Hx <-]. split; [done|]. exists (Z.of_nat (bf x)). split; [|by apply new_level].
    apply Hbnd, (is_free_n aggl); [apply HI|apply Hx].
Qed.
(** Free cells stay in their queues. *)
Lemma stays1 l y : queued p l y → free' y → l < 4 → queued p1 l y.
Proof.
  intros Hq Hy Hl. destruct (lookup_lt_is_Some_2 (sp_q p1) l) as [q1 Hq1]; [by rewrite (tk_len _ _ _ _ HT)|].
  exists q1. split; [done|]. destruct Hq as (q & Hq & Hyq). pose proof Hy as [Hfy HyX]%Hfree.
  destruct (tk_q _ _ _ _ HT l q1 Hq1) as [(q' & w & Hq' & -> & Hw)|(-> & _ & Hsp)].
  - rewrite Hq in Hq'. injection Hq' as ->. apply elem_of_app in Hyq as [Hyw|]; [|done]. exfalso.
    destruct (Hw y Hyw) as [|Heq]; [done|]. apply HyX, HX. rewrite Heq. split; [apply s_n|apply same_refl].
  - exfalso. apply (Hsp y); [by exists q|done].
Qed.
Lemma stays2 l y : queued p1 l y → queued p2 l y.
Proof.
  intros (q1 & Hq1 & Hy). destruct (fd_q _ _ _ _ _ _ Hfed l q1 Hq1) as (add & Hadd & _).
  exists (q1 ++ add). split; [done|]. apply elem_of_app. by left.
Qed.

(** The first of the new cells of a block next to [X]: the one in line with
    the seed. *)
Lemma new_order l x k v add : N x → bf x = l → cls x = l → S (S l) ≤ d → add = k ++ x :: v →
  (∀ x, x ∈ add ↔ N x ∧ bf x = l) → StronglySorted (queued_before prio bnd (λ x, dn !! x)) add →
  (∃ e, e ∈ k ∧ same e x) ∨
  ∀ o, step x o → ¬ same x o → free' o → queued p l o.
Proof.
  intros HN Hbx Hcx Hl -> Hadd Hsort.
  destruct (new_cell x HN) as (Hx' & i & xx & HxxX & Hi & Hnxx & Hnsx).
  pose proof s_n as Hsn. pose proof (HX xx) as [[Hxxn Hsxx] _]; [done|].
  assert (i < d) as Hid by (by destruct Hi as (?&?&?&?)).
  assert (x < n) as Hxn by (by destruct Hi as (?&?&?&?)).
  pose proof Hi as (_ & _ & _ & Hio & Hij).
  destruct (put_ex n d half co Hlt Hsur s i (co x i) Hsn (Hlt x i Hxn Hid)) as (y0 & Hy0n & Hy0i & Hy0j).
  specialize (Hy0i Hid).
  assert (same y0 x) as Hy0x.
  { intros j Hj. destruct (decide (j = i)) as [->|Hji]; [by rewrite Hy0i|]. rewrite Hy0j, <- Hij by done. by apply Hsxx. }
  assert (free' y0) as Hy0f by (eapply (blk2 x); [done|by apply same_sym|done]).
  assert (free y0) as Hy0f1 by (by apply Hfree in Hy0f as [? _]).
  assert (¬ same s y0) as Hny0 by (intros ?; apply Hnsx; by eapply same_trans).
  assert (co xx i / 2 ≠ co x i / 2) as Hdiv by (by rewrite <- (step_same n d co i xx x Hi)).
  assert (co s i / 2 = co xx i / 2) as Hdiv' by (by apply Hsxx).
  assert (co s i ≠ co xx i) as Hne.
  { intros He. apply (tk_out _ _ _ _ HT y0); [|done|done]. exists i. split_and!; try done; [lia|].
    intros j ??. symmetry. by apply Hy0j. }
  destruct (mate_ex n d half co Hlt Hsur Hinj i s Hsn Hid) as (m & Hm & Hsm).
  pose proof Hm as (_ & Hmn & _ & Hmo & Hmj).
  assert (co m i = co xx i) as Hmi.
  { pose proof (Hsm i Hid). clear - H0 Hdiv' Hne Hmo. lia. }
  assert (step m y0) as Hmy.
  { exists i. split_and!; try done; [rewrite Hmi, Hy0i; clear - Hio; lia|]. intros j ??. rewrite Hy0j by done. symmetry. by apply Hmj. }
  assert (free m) as Hmf by (eapply (v_blk _ _ HI s); [done..|apply HT]).
  assert (N y0) as HNy0.
  { split; [done|]. apply Hfree in Hy0f as [_ HyX]. split; [done|]. exists m. split; [by apply HX|by apply HE]. }
  (* boundary faces *)
  assert (∀ j, j < d → j ≠ i → touch half co x j = touch half co s j) as Htouch.
  { intros j Hj Hji. unfold touch. rewrite <- Hij, <- (Hsxx j) by done. done. }
  assert (bf s = cls s) as Hbs.
  { destruct (tk_cls _ _ _ _ HT) as [|Hcs]; [done|]. exfalso. unfold GridT.cls in Hcs. rewrite cnt_all in Hcs.
    assert (d ≤ S (cls x)); [|lia]. apply (cnt_but _ _ i). intros j Hj Hji. rewrite Htouch by done. by apply Hcs. }
  assert (∀ j, j < d → touch half co s j = true → onb half co s j = true) as Hts.
  { apply cnt_same; [intros j Hj; by apply (onb_touch n d half co)|]. change (cls s ≤ bf s). lia. }
  assert (bf y0 = l) as Hby0.
  { apply Nat.le_antisymm.
    - rewrite <- Hcx, <- (cls_same d half co y0 x Hy0x). by apply (bf_cls n d half co).
    - rewrite <- Hbx. apply cnt_mono. intros j Hj Ho. destruct (decide (j = i)) as [->|Hji].
      + unfold onb in *. by rewrite Hy0i.
      + assert (onb half co s j = true) as Hos.
        { apply Hts; [done|]. rewrite <- Htouch by done. by apply (onb_touch n d half co). }
        unfold onb in *. by rewrite Hy0j. }
  destruct (decide (x = y0)) as [Heq|Hne0].
  - (* in line with the seed *)
    right. intros o [j Hj] Hno Ho'. pose proof (fr2_n _ Ho') as Hon.
    assert (j < d) as Hjd by (by destruct Hj as (?&?&?&?)).
    destruct (decide (j = i)) as [->|Hji].
    { exfalso. assert (o = xx) as ->.
      { apply (out_unique n d half co Hlt Hsur Hinj i x); try done; [by apply step_sym|].
        intros ?. apply Hnxx. by apply same_sym. }
      apply Hfree in Ho' as [_ ?]. done. }
    pose proof Hj as (_ & _ & _ & Hjo & Hjj).
    assert (co x j = co s j) as Hxsj by (rewrite Heq; by apply Hy0j).
    destruct (put_ex n d half co Hlt Hsur s j (co o j) Hsn (Hlt o j Hon Hjd)) as (o1 & Ho1n & Ho1j & Ho1k).
    specialize (Ho1j Hjd).
    assert (step_on n d co j s o1) as Hso1.
    { split_and!; try done; [rewrite Ho1j, <- Hxsj; clear - Hjo; lia|]. intros k' ??. symmetry. by apply Ho1k. }
    assert (¬ same s o1) as Hnso1.
    { rewrite (step_same n d co j) by done. rewrite Ho1j, <- Hxsj. by rewrite <- (step_same n d co j x o Hj). }
    pose proof (tk_out _ _ _ _ HT o1 (ex_intro _ j Hso1) Hnso1) as Ho1f.
    destruct (put_ex n d half co Hlt Hsur o i (co xx i) Hon (Hlt xx i Hxxn Hid)) as (z & Hzn & Hzi & Hzj).
    specialize (Hzi Hid).
    assert (same z o1) as Hzo1.
    { intros k' Hk'. destruct (decide (k' = i)) as [->|Hki].
      - rewrite Hzi, Ho1k by congruence. by rewrite Hdiv'.
      - rewrite Hzj by done. destruct (decide (k' = j)) as [->|Hkj]; [by rewrite Ho1j|].
        rewrite Ho1k, <- Hjj by done. rewrite Heq, Hy0j by done. done. }
    assert (¬ free z) as Hzf by (intros ?; apply Ho1f; by eapply (v_blk _ _ HI)).
    assert (step z o) as Hzo.
    { exists i. split_and!; try done.
      rewrite Hzi, <- (Hjj i) by congruence. clear - Hio. lia. }
    assert (bf o = l) as Hbo.
    { rewrite <- Hbx. apply cnt_ext. intros k' Hk'. destruct (decide (k' = j)) as [->|Hkj].
      - rewrite (out_onb n d half co Hlt Hsur Hinj j x o) by done.
        apply (out_onb n d half co Hlt Hsur Hinj j o x); [by apply step_sym|]. intros ?. apply Hno. by apply same_sym.
      - unfold onb. rewrite <- Hjj by done. done. }
    rewrite <- Hbo. apply (v_near _ _ HI z); [done..|]. by apply Hfree in Ho' as [? _].
  - (* the cell in line with the seed comes before *)
    left. exists y0. split; [|done].
    assert (y0 ∈ k ++ x :: v) as Hin by (by apply Hadd).
    apply elem_of_app in Hin as [|Hin]; [done|]. apply elem_of_cons in Hin as [|Hin]; [congruence|]. exfalso.
    assert (queued_before prio bnd (λ x, dn !! x) x y0) as Hqb.
    { clear - Hsort Hin. induction k as [|a k IH]; simpl in Hsort.
      - apply StronglySorted_inv in Hsort as [_ Hf]. rewrite Forall_forall in Hf. by apply Hf.
      - apply StronglySorted_inv in Hsort as [? _]. by apply IH. }
    destruct (Hnear y0 m) as (w & Hw & Hw2); [|by exists i|done..|].
    { intros ->. apply Hny0, same_refl. }
    destruct (differ n d half co Hlt Hsur Hinj x y0 Hxn Hy0n Hne0) as (j & Hj & Hcj).
    assert (j ≠ i) as Hji by congruence. rewrite Hy0j in Hcj by done.
    assert (∀ w', dn !! x = Some w' → (3 <= w')%Z) as Hx3.
    { intros w' Hw'. destruct (Hfar x w' Hw') as (k' & -> & Hwk).
      pose proof (walk_far E free s k' x i j (λ a b, proj1 (HE a b)) Hwk Hid Hj ltac:(congruence)) as Hwf.
      clear - Hwf Hcj Hne Hdiv' Hdiv Hio. lia. }
    unfold queued_before, nearer in Hqb. rewrite Hw in Hqb.
    destruct (dn !! x) as [w'|]; [specialize (Hx3 w' eq_refl)|]; destruct Hqb as [Hq|[Hq _]]; try done; [lia|injection Hq as ->; lia].
Qed.

Lemma feed_ok : inv aggl' p2.
Proof.
  destruct (fd_kind _ _ _ _ _ _ Hfed) as (Hk1 & _ & Hk3).
  assert (length (sp_q p2) = 4) as Hl4 by (rewrite Hk3; apply HT).
  assert (∀ l q1, sp_q p1 !! l = Some q1 → ∀ x, x ∈ q1 → queued p l x ∨ l = d ∧ x < n ∧ bf x = d) as Hold.
  { intros l q1 Hq1 x Hx. destruct (tk_q _ _ _ _ HT l q1 Hq1) as [(q & w & Hq & -> & _)|(-> & Hc & _)].
    - left. eexists. split; [exact Hq|]. apply elem_of_app. by right.
    - right. split; [done|]. by apply Hc. }
  split.
  - rewrite Hlen. apply HI.
  - apply blk2.
  - done.
  - pose proof (fd_top _ _ _ _ _ _ Hfed) as Ht. destruct (sp_bp p1) eqn:Hbp.
    + destruct Ht as (t & t' & Htt & Htt' & Hle & _ & Hw). rewrite (tk_top _ _ _ _ HT) in Htt. injection Htt as <-.
      exists (Z.to_nat t'). rewrite Z2Nat.id by lia. split; [done|].
      assert (bf s ≤ Z.to_nat t' ∧ Z.to_nat t' ≤ d) as [H1 H2].
      { split; [lia|]. destruct Hw as [->|(x & Hx & Hbx)].
        - rewrite Nat2Z.id. apply cnt_le.
        - rewrite Hbnd in Hbx by (apply (is_free_n aggl); [apply HI|apply Hx]). injection Hbx as <-. rewrite Nat2Z.id. apply cnt_le. }
      split; [done|]. split.
      * intros Hl x Hx. etrans; [|exact H1]. apply (tk_stage _ _ _ _ HT); [lia|]. by apply Hfree in Hx as [? _].
      * intros Hf. congruence.
    + exists (bf s). rewrite Ht. split; [apply HT|]. split; [apply cnt_le|]. split.
      * intros Hl x Hx. apply (tk_stage _ _ _ _ HT); [lia|]. by apply Hfree in Hx as [? _].
      * intros _ l Hl x (q2 & Hq2 & Hx) Hfx. destruct (fed_q l q2 Hq2) as (q1 & add & Hq1 & -> & Hadd & _).
        apply elem_of_app in Hx as [Hx|Hx].
        -- apply (tk_above _ _ _ _ HT) with l x; [rewrite <- (tk_bp _ _ _ _ HT); done|done|by exists q1|]. by apply Hfree in Hfx as [? _].
        -- apply Hadd in Hx as [Hx Hbx]. pose proof (new_low x Hx). 
           pose proof (new_level x Hx) as Hlv. unfold level_of in Hlv. rewrite Hbp, (tk_top _ _ _ _ HT) in Hlv. lia.
  - intros l x (q2 & Hq2 & Hx). destruct (fed_q l q2 Hq2) as (q1 & add & Hq1 & -> & Hadd & _).
    apply elem_of_app in Hx as [Hx|Hx].
    + destruct (Hold l q1 Hq1 x Hx) as [Hq|(-> & ? & ?)]; [by apply (v_lev _ _ HI)|done].
    + apply Hadd in Hx as [Hx ?]. split; [|done]. apply (is_free_n aggl); [apply HI|apply Hx].
  - intros l x o (q2 & Hq2 & Hx) Hfx Hl Hst Hns. destruct (fed_q l q2 Hq2) as (q1 & add & Hq1 & -> & Hadd & _).
    pose proof Hfx as [Hfx1 _]%Hfree.
    apply elem_of_app in Hx as [Hx|Hx].
    + destruct (Hold l q1 Hq1 x Hx) as [Hq|(-> & ? & Hb)].
      * intros [Ho _]%Hfree. revert Ho. by apply (v_hi _ _ HI l x).
      * exfalso. by eapply (out_corner n d half co).
    + apply Hadd in Hx as [Hx Hbx]. destruct (new_cell x Hx) as (_ & i & xx & Hxx & Hi & Hn & _).
      assert (o = xx) as ->.
      { eapply (out_last n d half co Hlt Hsur Hinj x); try done; [by rewrite Hbx|exists i; by apply step_sym|].
        intros ?. apply Hn. by apply same_sym. }
      intros [_ ?]%Hfree. done.
  - intros l u x v Hq2 Hfx Hl. destruct (fed_q l _ Hq2) as (q1 & add & Hq1 & Heq & Hadd & Hsort).
    pose proof Hfx as [Hfx1 _]%Hfree.
    assert ((∃ v', q1 = u ++ x :: v') ∨ ∃ k, u = q1 ++ k ∧ add = k ++ x :: v) as [(v' & ->)|(k & -> & ->)].
    { apply app_eq_inv in Heq as [(k & H1 & H2)|(k & H1 & H2)]; [right; by exists k|].
      - destruct k as [|a k]; simpl in H2.
        + right. exists []. rewrite app_nil_r in *. by subst.
        + injection H2 as <- H2. left. by exists k. }
    + destruct (tk_q _ _ _ _ HT l _ Hq1) as [(q & w & Hq & -> & Hw)|(-> & _)]; [|lia].
      assert (∀ e y, e ∈ w ++ u → same e y → free' y → ∃ e, e ∈ u ∧ same e y) as Hwu.
      { intros e y [He|He]%elem_of_app Hs Hy; [|by exists e]. exfalso.
        assert (free' e) as [Hfe HeX]%Hfree.
        { eapply (blk2 y); [|by apply same_sym|done]. apply (v_lev _ _ HI l). eexists. split; [exact Hq|].
          apply elem_of_app. by left. }
        destruct (Hw e He) as [|Hes]; [done|]. apply HeX, HX. rewrite Hes. split; [apply s_n|apply same_refl]. }
      rewrite app_assoc in Hq.
      destruct (v_lo _ _ HI l _ _ _ Hq Hfx1 Hl) as [Hc|[(e & He & Hs)|Hall]].
      * by left.
      * right. left. by eapply Hwu.
      * right. right. intros o Ho Hno Hfo. destruct (Hall o Ho Hno) as [Hc|(e & He & Hs)].
        -- by apply Hfree in Hfo as [? _].
        -- by left.
        -- right. by eapply Hwu.
    + assert (x ∈ k ++ x :: v) as Hx by (apply elem_of_app; right; by left). apply Hadd in Hx as [HN Hbx].
      destruct (decide (l < cls x)) as [|Hc]; [by left|right].
      assert (cls x = l) as Hcx.
      { pose proof (bf_cls n d half co Hlt Hsur Hinj x (fr2_n _ Hfx)). lia. }
      destruct (new_order l x k v _ HN Hbx Hcx Hl eq_refl Hadd Hsort) as [(e & He & Hs)|Hall].
      * left. exists e. split; [|done]. apply elem_of_app. by right.
      * right. intros o Ho Hno Hfo. right. pose proof (Hall o Ho Hno Hfo) as Hqo.
        destruct (stays1 l o Hqo Hfo ltac:(lia)) as (q1' & Hq1' & Hoq). rewrite Hq1 in Hq1'. injection Hq1' as <-.
        exists o. split; [|apply same_refl]. apply elem_of_app. by left.
  - intros o y Ho Hst Hy. pose proof Hy as [Hfy HyX]%Hfree.
    destruct (decide (o ∈ X)) as [HoX|HoX].
    + assert (N y) as HN by (split; [done|]; split; [done|]; exists o; split; [done|by apply HE]).
      pose proof (new_low y HN) as Hlow.
      destruct (lookup_lt_is_Some_2 (sp_q p2) (bf y)) as [q2 Hq2]; [rewrite Hl4; lia|].
      exists q2. split; [done|]. destruct (fed_q _ q2 Hq2) as (q1 & add & Hq1 & -> & Hadd & _).
      apply elem_of_app. right. by apply Hadd.
    + assert (¬ free o) as Hfo by (intros ?; apply Ho, Hfree; done).
      pose proof (v_near _ _ HI o y Hfo Hst Hfy) as Hq. apply stays2, stays1; [done..|].
      destruct Hq as (q & Hq & _). apply lookup_lt_Some in Hq. by rewrite (v_q _ _ HI) in Hq.
  - left. destruct (tk_start _ _ _ _ HT) as [(c & Hc & Hbc & Hfc)|Hbs].
    + exists c. split_and!; [done..|]. by intros [? _]%Hfree.
    + exists s. split_and!; [apply s_n|done|]. intros [_ Hs]%Hfree. apply Hs, HX. split; [apply s_n|apply same_refl].
Qed.
End feed.
End queues.
