(** * SpecDep: the deprecated containers (C48-C50) *)

From Verif Require Import Deprec.

(** ** Queue *)
Inductive qop (T : Type) := QPush (x : T) | QPop.
Arguments QPush {T}. Arguments QPop {T}.

(** The elements pushed and the number of pops. *)
Definition pushed {T} (ops : list (qop T)) : list T :=
  omap (λ o, match o with QPush x => Some x | QPop => None end) ops.
Definition pops {T} (ops : list (qop T)) : nat :=
  length (omap (λ o, match o with QPop => Some () | QPush _ => None end) ops).

(** What the caller sees: the values returned by the pops, and the queue. *)
Definition q_run {T} (m1 : T) (ops : list (qop T)) : list T * list T :=
  fold_left (λ st o,
    match o with
    | QPush x => (st.1, q_push st.2 x)
    | QPop => let r := q_pop m1 st.2 in (st.1 ++ [r.1], r.2)
    end) ops ([], []).

(** ** Bimap: the pairs it holds. *)
Section bimap.
Context {A B : Type} `{Countable A} `{Countable B}.

Inductive bop := BInsert (a : A) (b : B) | BUpdateB (a a' : A) | BUpdateA (b b' : B) | BErase (a : A).

(** The keys handed in do not clash with those of another pair. *)
Definition bop_fits (m : list (A * B)) (o : bop) : Prop :=
  match o with
  | BInsert a b => (a, b) ∈ m ∨ (a ∉ m.*1 ∧ b ∉ m.*2)
  | BUpdateB a a' => a' = a ∨ a ∉ m.*1 ∨ a' ∉ m.*1
  | BUpdateA b b' => b' = b ∨ b ∉ m.*2 ∨ b' ∉ m.*2
  | BErase a => a ∈ m.*1
  end.
(** What each operation does to the list of pairs. *)
Definition bop_spec (m : list (A * B)) (o : bop) : list (A * B) :=
  match o with
  | BInsert a b => if decide ((a, b) ∈ m) then m else (a, b) :: m
  | BUpdateB a a' => map (λ p, if decide (p.1 = a) then (a', p.2) else p) m
  | BUpdateA b b' => map (λ p, if decide (p.2 = b) then (p.1, b') else p) m
  | BErase a => filter (λ p, p.1 ≠ a) m
  end.
(** The operations on the container. *)
Definition bop_run (s : bimap A B) (o : bop) : res (bimap A B) :=
  match o with
  | BInsert a b => Ok (bm_insert s a b)
  | BUpdateB a a' => Ok (bm_updateB s a a')
  | BUpdateA b b' => Ok (bm_updateA s b b')
  | BErase a => bm_eraseB s a
  end.

(** A list of operations which fit one after the other, and the pairs they
    leave. *)
Inductive bops_fit : list bop → list (A * B) → Prop :=
| bf_nil : bops_fit [] []
| bf_snoc l m o : bops_fit l m → bop_fits m o → bops_fit (l ++ [o]) (bop_spec m o).

(** The container holds the pairs of [m]: both ways of looking up are right,
    and undefined for what is not there. *)
Definition holds (s : bimap A B) (m : list (A * B)) : Prop :=
  (∀ a b, bm_getB s a = Ok b ↔ (a, b) ∈ m) ∧ (∀ a, a ∉ m.*1 → bm_getB s a = Err EUB) ∧
  (∀ a b, bm_getA s b = Ok a ↔ (a, b) ∈ m) ∧ (∀ b, b ∉ m.*2 → bm_getA s b = Err EUB) ∧
  bm_lung s = length m ∧ (bm_empty s = true ↔ m = []).
End bimap.
Arguments bop A B : clear implicits.

(** ** Tree: a root, its sons and their sons, each with its index and volume. *)
Section tree.
Context {W : Type}.
Definition shape : Type := list ((nat * W) * list (nat * W)).

(** The sons of node [f] are the nodes [l], from left to right. *)
Definition brothers (h : gmap nat (tnode W)) (f : nat) (l : list nat) : Prop :=
  (∃ n, h !! f = Some n ∧ tn_son n = head l ∧ tn_sonc n = Z.of_nat (length l)) ∧
  ∀ k x, l !! k = Some x → ∃ n, h !! x = Some n ∧ tn_father n = Some f ∧
    tn_left n = (match k with O => None | S j => l !! j end) ∧ tn_right n = l !! S k.
(** The same without the pointers to the left. *)
Definition rightwards (h : gmap nat (tnode W)) (f : nat) (l : list nat) : Prop :=
  (∃ n, h !! f = Some n ∧ tn_son n = head l ∧ tn_sonc n = Z.of_nat (length l)) ∧
  ∀ k x, l !! k = Some x → ∃ n, h !! x = Some n ∧ tn_father n = Some f ∧ tn_right n = l !! S k.
Definition carries (h : gmap nat (tnode W)) (x : nat) (v : nat * W) : Prop :=
  ∃ n, h !! x = Some n ∧ tn_index n = v.1 ∧ tn_volume n = v.2.

(** The tree has the shape [s]; [ids] are the nodes. *)
Definition tree_is (t : tree W) (s : shape) : Prop :=
  ∃ ids : list (nat * list nat),
    NoDup (tr_root t :: concat (map (λ p, p.1 :: p.2) ids)) ∧
    (∀ x, x ∈ tr_root t :: concat (map (λ p, p.1 :: p.2) ids) → x < tr_next t) ∧
    (∀ x, is_Some (tr_heap t !! x) → x < tr_next t) ∧
    brothers (tr_heap t) (tr_root t) ids.*1 ∧
    Forall2 (λ p v, carries (tr_heap t) p.1 v.1 ∧ brothers (tr_heap t) p.1 p.2 ∧
      Forall2 (λ y w, carries (tr_heap t) y w ∧ brothers (tr_heap t) y []) p.2 v.2) ids s.

Inductive top := TRoot (index : nat) (volume : W) | TSon (father index : nat) (volume : W) | TDelete (value : nat).
Definition top_run (t : tree W) (o : top) : res (tree W) :=
  match o with
  | TRoot i v => tr_insert t 0 i v 1
  | TSon f i v => tr_insert t f i v 0
  | TDelete v => tr_delete t v
  end.

(** Position of the first son with index [f]. *)
Definition first_son (s : shape) (f k : nat) : Prop :=
  (∃ v l, s !! k = Some (v, l) ∧ v.1 = f) ∧ ∀ j v l, j < k → s !! j = Some (v, l) → v.1 ≠ f.

(** What each operation does to the shape: a new son comes last; the first
    son with the index is removed. *)
Inductive top_spec : shape → top → shape → Prop :=
| ts_root s i v : top_spec s (TRoot i v) (s ++ [((i, v), [])])
| ts_son s f i v k x l : first_son s f k → s !! k = Some (x, l) →
    top_spec s (TSon f i v) (<[k := (x, l ++ [(i, v)])]> s)
| ts_delete s x k : first_son s x k → top_spec s (TDelete x) (take k s ++ drop (S k) s)
| ts_absent s x : (∀ k, ¬ first_son s x k) → top_spec s (TDelete x) s.

(** The son to delete, if there is one, is the last of several. *)
Definition deletes_last (s : shape) (o : top) : Prop :=
  match o with TDelete x => ∀ k, first_son s x k → 0 < k ∧ S k = length s | _ => True end.
Inductive tops_fit : list top → shape → Prop :=
| tf_nil : tops_fit [] []
| tf_snoc l s o s' : tops_fit l s → top_spec s o s' → deletes_last s o → tops_fit (l ++ [o]) s'.
End tree.
Arguments top W : clear implicits.
Arguments shape W : clear implicits.
