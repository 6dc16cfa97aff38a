(** * Lib: reasoning about the error monad, vectors and loops *)

From Verif Require Export Base.

(** [wp m Q]: [m] returns normally and the result satisfies [Q]. *)
Definition wp {A} (m : res A) (Q : A → Prop) : Prop :=
  match m with Ok a => Q a | Err _ => False end.

Lemma wp_ok {A} (a : A) (Q : A → Prop) : Q a → wp (Ok a) Q.
Proof. done. Qed.
Lemma wp_bind {A B} (m : res A) (f : A → res B) (Q : B → Prop) :
  wp m (λ a, wp (f a) Q) → wp (x ← m; f x) Q.
Proof. by destruct m. Qed.
Lemma wp_bind_inv {A B} (m : res A) (f : A → res B) (Q : B → Prop) :
  wp (x ← m; f x) Q → wp m (λ a, wp (f a) Q).
Proof. by destruct m. Qed.
Lemma wp_mono {A} (m : res A) (Q R : A → Prop) :
  wp m Q → (∀ a, Q a → R a) → wp m R.
Proof. destruct m; simpl; auto. Qed.
Lemma wp_eq {A} (m : res A) (Q : A → Prop) : wp m Q ↔ ∃ a, m = Ok a ∧ Q a.
Proof. destruct m; simpl; naive_solver. Qed.
Lemma wp_and {A} (m : res A) (Q R : A → Prop) :
  wp m Q → wp m R → wp m (λ a, Q a ∧ R a).
Proof. destruct m; simpl; auto. Qed.

(** [okp m Q]: if [m] returns normally then the result satisfies [Q]. *)
Definition okp {A} (m : res A) (Q : A → Prop) : Prop :=
  match m with Ok a => Q a | Err _ => True end.
Lemma okp_bind {A B} (m : res A) (f : A → res B) (Q : B → Prop) :
  okp m (λ a, okp (f a) Q) → okp (x ← m; f x) Q.
Proof. by destruct m. Qed.
Lemma okp_mono {A} (m : res A) (Q R : A → Prop) :
  okp m Q → (∀ a, Q a → R a) → okp m R.
Proof. destruct m; simpl; auto. Qed.
Lemma okp_eq {A} (m : res A) (Q : A → Prop) : okp m Q ↔ ∀ a, m = Ok a → Q a.
Proof. destruct m; simpl; naive_solver. Qed.
Lemma okp_True {A} (m : res A) (Q : A → Prop) : (∀ a, Q a) → okp m Q.
Proof. destruct m; simpl; auto. Qed.
Lemma wp_okp {A} (m : res A) (Q : A → Prop) : wp m Q → okp m Q.
Proof. by destruct m. Qed.
Lemma wp_okp_and {A} (m : res A) (Q R : A → Prop) :
  wp m Q → okp m R → wp m (λ a, Q a ∧ R a).
Proof. destruct m; simpl; auto. Qed.

Lemma bind_ok {A B} (a : A) (f : A → res B) : (x ← Ok a; f x) = f a.
Proof. done. Qed.
Lemma bind_Ok_inv {A B} (m : res A) (f : A → res B) b :
  (x ← m; f x) = Ok b → ∃ a, m = Ok a ∧ f a = Ok b.
Proof. destruct m; simpl; [eauto|done]. Qed.
Lemma bind_assoc {A B C} (m : res A) (f : A → res B) (k : B → res C) :
  (y ← (x ← m; f x); k y) = (x ← m; y ← f x; k y).
Proof. by destruct m. Qed.
Lemma bind_ext {A B} (m m' : res A) (f f' : A → res B) :
  m = m' → (∀ a, f a = f' a) → (x ← m; f x) = (x ← m'; f' x).
Proof. intros -> Hf. destruct m'; simpl; [apply Hf|done]. Qed.

(** ** Loops *)

Lemma foldM_app {A B} (f : B → A → res B) l k b :
  foldM f (l ++ k) b = (b' ← foldM f l b; foldM f k b').
Proof.
  revert b. induction l as [|a l IH]; intros b; [done|]. simpl.
  destruct (f b a); simpl; [apply IH|done].
Qed.

(** Invariant rule; the invariant sees the elements already visited. *)
Lemma wp_foldM {A B} (f : B → A → res B) (I : list A → B → Prop) l b :
  I [] b →
  (∀ pre a post b, l = pre ++ a :: post → I pre b → wp (f b a) (I (pre ++ [a]))) →
  wp (foldM f l b) (I l).
Proof.
  intros H0 HI.
  assert (∀ pre post b, l = pre ++ post → I pre b → wp (foldM f post b) (I l)) as H.
  { intros pre post. revert pre. induction post as [|a post IH]; intros pre b' Hl Hb.
    - simpl. by rewrite app_nil_r in Hl; subst.
    - simpl. apply wp_bind. eapply wp_mono; [by eapply HI|]. intros b'' Hb''.
      apply (IH (pre ++ [a])); [|done]. by rewrite <- app_assoc. }
  by apply (H [] l b).
Qed.
Lemma wp_foldM_inv {A B} (f : B → A → res B) (I : B → Prop) l b :
  I b → (∀ a b, a ∈ l → I b → wp (f b a) I) → wp (foldM f l b) I.
Proof.
  intros H0 HI. apply (wp_foldM f (λ _, I)); [done|].
  intros pre a post b' -> Hb. apply HI; [set_solver|done].
Qed.
Lemma okp_foldM {A B} (f : B → A → res B) (I : list A → B → Prop) l b :
  I [] b →
  (∀ pre a post b, l = pre ++ a :: post → I pre b → okp (f b a) (I (pre ++ [a]))) →
  okp (foldM f l b) (I l).
Proof.
  intros H0 HI.
  assert (∀ pre post b, l = pre ++ post → I pre b → okp (foldM f post b) (I l)) as H.
  { intros pre post. revert pre. induction post as [|a post IH]; intros pre b' Hl Hb.
    - simpl. by rewrite app_nil_r in Hl; subst.
    - simpl. apply okp_bind. eapply okp_mono; [by eapply HI|]. intros b'' Hb''.
      apply (IH (pre ++ [a])); [|done]. by rewrite <- app_assoc. }
  by apply (H [] l b).
Qed.
Lemma okp_foldM_inv {A B} (f : B → A → res B) (I : B → Prop) l b :
  I b → (∀ a b, a ∈ l → I b → okp (f b a) I) → okp (foldM f l b) I.
Proof.
  intros H0 HI. apply (okp_foldM f (λ _, I)); [done|].
  intros pre a post b' -> Hb. apply HI; [set_solver|done].
Qed.

Lemma foldM_ext {A B} (f g : B → A → res B) l b :
  (∀ a b, a ∈ l → f b a = g b a) → foldM f l b = foldM g l b.
Proof.
  revert b. induction l as [|a l IH]; intros b Hfg; [done|]. simpl.
  rewrite Hfg by set_solver. destruct (g b a); simpl; [|done].
  apply IH. set_solver.
Qed.
Lemma foldM_pure {A B} (f : B → A → res B) (g : B → A → B) l b :
  (∀ a b, a ∈ l → f b a = Ok (g b a)) → foldM f l b = Ok (foldl g b l).
Proof.
  revert b. induction l as [|a l IH]; intros b Hfg; [done|]. simpl.
  rewrite Hfg by set_solver. simpl. apply IH. set_solver.
Qed.
Lemma foldM_map {A B C} (f : B → A → res B) (h : C → A) l b :
  foldM f (map h l) b = foldM (λ b c, f b (h c)) l b.
Proof.
  revert b. induction l as [|c l IH]; intros b; [done|]. simpl.
  destruct (f b (h c)); simpl; [apply IH|done].
Qed.

(** A loop whose steps commute gives the same result in any order. *)
Lemma foldM_perm {A B} (f : B → A → res B) l k b :
  (∀ b x y, x ∈ l → y ∈ l → (b' ← f b x; f b' y) = (b' ← f b y; f b' x)) →
  l ≡ₚ k → foldM f l b = foldM f k b.
Proof.
  intros Hc Hp. revert b. induction Hp as [|x l k Hp IH|x y l|l k m Hp1 IH1 Hp2 IH2];
    intros b; [done| | |].
  - simpl. apply bind_ext; [done|]. intros b'. apply IH.
    intros. apply Hc; set_solver.
  - simpl. rewrite <- !bind_assoc. apply bind_ext; [|done]. apply Hc; set_solver.
  - rewrite IH1 by done. apply IH2. intros. apply Hc; by rewrite Hp1.
Qed.
Lemma foldl_perm {A B} (f : B → A → B) l k b :
  (∀ b x y, x ∈ l → y ∈ l → f (f b x) y = f (f b y) x) →
  l ≡ₚ k → foldl f b l = foldl f b k.
Proof.
  intros Hc Hp. revert b. induction Hp as [|x l k Hp IH|x y l|l k m Hp1 IH1 Hp2 IH2];
    intros b; [done| | |].
  - simpl. apply IH. intros. apply Hc; set_solver.
  - simpl. f_equal. apply Hc; set_solver.
  - rewrite IH1 by done. apply IH2. intros. apply Hc; by rewrite Hp1.
Qed.
Lemma foldl_inv {A B} (f : B → A → B) (I : list A → B → Prop) l b :
  I [] b →
  (∀ pre a post b, l = pre ++ a :: post → I pre b → I (pre ++ [a]) (f b a)) →
  I l (foldl f b l).
Proof.
  intros H0 HI.
  assert (∀ pre post b, l = pre ++ post → I pre b → I l (foldl f b post)) as H.
  { intros pre post. revert pre. induction post as [|a post IH]; intros pre b' Hl Hb.
    - simpl. by rewrite app_nil_r in Hl; subst.
    - simpl. apply (IH (pre ++ [a])); [|by eapply HI]. by rewrite <- app_assoc. }
  by apply (H [] l b).
Qed.

(** ** Vectors *)

Lemma vget_ok {A} (v : list A) i x : v !! i = Some x → vget v i = Ok x.
Proof. unfold vget. by intros ->. Qed.
Lemma vget_inv {A} (v : list A) i x : vget v i = Ok x → v !! i = Some x.
Proof. unfold vget. by destruct (v !! i); intros [= ->]. Qed.
Lemma wp_vget {A} (v : list A) i (Q : A → Prop) :
  i < length v → (∀ x, v !! i = Some x → Q x) → wp (vget v i) Q.
Proof.
  intros Hi HQ. destruct (lookup_lt_is_Some_2 v i Hi) as [x Hx].
  rewrite (vget_ok _ _ _ Hx). by apply HQ.
Qed.
Lemma okp_vget {A} (v : list A) i (Q : A → Prop) :
  (∀ x, v !! i = Some x → Q x) → okp (vget v i) Q.
Proof. unfold vget. destruct (v !! i); simpl; auto. Qed.
Lemma wp_vset {A} (v : list A) i x (Q : list A → Prop) :
  i < length v → Q (<[i := x]> v) → wp (vset v i x) Q.
Proof. intros Hi HQ. unfold vset. by rewrite decide_True. Qed.
Lemma okp_vset {A} (v : list A) i x (Q : list A → Prop) :
  (i < length v → Q (<[i := x]> v)) → okp (vset v i x) Q.
Proof. intros HQ. unfold vset. case_decide; simpl; auto. Qed.
Lemma vset_ok {A} (v : list A) i x : i < length v → vset v i x = Ok (<[i := x]> v).
Proof. intros Hi. unfold vset. by rewrite decide_True. Qed.
Lemma vset_inv {A} (v w : list A) i x :
  vset v i x = Ok w → i < length v ∧ w = <[i := x]> v.
Proof. unfold vset. case_decide; naive_solver. Qed.
Lemma wp_mapat {A} (m : gmap nat A) i (Q : A → Prop) :
  is_Some (m !! i) → (∀ x, m !! i = Some x → Q x) → wp (mapat m i) Q.
Proof. intros [x Hx] HQ. unfold mapat. rewrite Hx. by apply HQ. Qed.
Lemma mapat_ok {A} (m : gmap nat A) i x : m !! i = Some x → mapat m i = Ok x.
Proof. unfold mapat. by intros ->. Qed.
Lemma okp_mapat {A} (m : gmap nat A) i (Q : A → Prop) :
  (∀ x, m !! i = Some x → Q x) → okp (mapat m i) Q.
Proof. unfold mapat. destruct (m !! i); simpl; auto. Qed.
Lemma wp_massert (b : bool) (Q : unit → Prop) :
  b = true → Q () → wp (massert b) Q.
Proof. by intros ->. Qed.

Lemma vrange_ok {A} (v : list A) a b :
  a ≤ b → b ≤ length v → vrange v a b = Ok (slice v a b).
Proof. intros. unfold vrange. by rewrite decide_True. Qed.
Lemma vrange_inv {A} (v l : list A) a b :
  vrange v a b = Ok l → a ≤ b ∧ b ≤ length v ∧ l = slice v a b.
Proof. unfold vrange. case_decide; naive_solver. Qed.
Lemma slice_length {A} (v : list A) a b :
  b ≤ length v → length (slice v a b) = b - a.
Proof. intros. unfold slice. rewrite take_length, drop_length. lia. Qed.
Lemma slice_lookup {A} (v : list A) a b k :
  k < b - a → slice v a b !! k = v !! (a + k).
Proof. intros. unfold slice. rewrite lookup_take by done. by rewrite lookup_drop. Qed.
Lemma elem_of_slice {A} (v : list A) a b x :
  x ∈ slice v a b ↔ ∃ k, a ≤ k < b ∧ v !! k = Some x.
Proof.
  unfold slice. rewrite elem_of_list_lookup. split.
  - intros [k Hk]. rewrite lookup_take_Some, lookup_drop in Hk.
    destruct Hk as [Hk ?]. exists (a + k). split; [lia|done].
  - intros (k & Hk & Hx). exists (k - a).
    rewrite lookup_take_Some, lookup_drop. split; [|lia].
    by replace (a + (k - a)) with k by lia.
Qed.

(** ** Hash order *)

Section hash.
Context {H : HashOrder}.
Lemma elem_of_hset s (X : gset nat) x : x ∈ hset s X ↔ x ∈ X.
Proof. unfold hset. by rewrite hord_perm, elem_of_elements. Qed.
Lemma NoDup_hset s (X : gset nat) : NoDup (hset s X).
Proof. unfold hset. rewrite hord_perm. apply NoDup_elements. Qed.
Lemma hset_perm s (X : gset nat) : hset s X ≡ₚ elements X.
Proof. apply hord_perm. Qed.
Lemma elem_of_hkeys {A} s (m : gmap nat A) x : x ∈ hkeys s m ↔ is_Some (m !! x).
Proof. unfold hkeys. by rewrite hord_perm, elem_of_elements, elem_of_dom. Qed.
Lemma NoDup_hkeys {A} s (m : gmap nat A) : NoDup (hkeys s m).
Proof. unfold hkeys. rewrite hord_perm. apply NoDup_elements. Qed.
Lemma hset_length s (X : gset nat) : length (hset s X) = size X.
Proof. unfold hset. by rewrite hord_perm. Qed.
Lemma hset_singleton s x : hset s {[x]} = [x].
Proof.
  assert (hset s {[x]} ≡ₚ [x]) as Hp.
  { rewrite hset_perm. by rewrite elements_singleton. }
  by apply Permutation_singleton_r.
Qed.
Lemma hset_empty s : hset s ∅ = [].
Proof.
  assert (hset s ∅ ≡ₚ []) as Hp by (rewrite hset_perm; by rewrite elements_empty).
  by apply Permutation_nil_r.
Qed.
End hash.

(** Stepping through the monad: one [wp_bind], or a pure step. *)
Ltac wstep := first
  [ apply wp_bind | apply okp_bind ].
