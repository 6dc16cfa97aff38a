(** * Deprec: the deprecated containers (include/CoMMA/deprecated) *)

From Verif Require Export Base.

(** ** Queue.h *)
Section queue.
(** [m1] is [static_cast<T>(-1)]. *)
Context {T : Type} (m1 : T).

(** Queue.h:43 *)
Definition q_push (q : list T) (x : T) : list T := q ++ [x].
(** Queue.h:48-55 *)
Definition q_pop (q : list T) : T * list T :=
  match q with [] => (m1, []) | x :: q => (x, q) end.
(** Queue.h:60-65 *)
Definition q_top (q : list T) : T := match q with [] => m1 | x :: _ => x end.
(** Queue.h:70 *)
Definition q_empty (q : list T) : bool := match q with [] => true | _ => false end.
End queue.

(** ** Priority_Pair.h *)
Section ppair.
(** The operators [<] and [==] of the two types. *)
Context {A B : Type} (lta eqa : A → A → bool) (ltb eqb : B → B → bool).

(** Priority_Pair.h:69-74 *)
Definition pp_lt (a b : A * B) : bool :=
  if lta b.1 a.1 then true else if lta a.1 b.1 then false else ltb a.2 b.2.
(** Priority_Pair.h:81-85 *)
Definition pp_eq (a b : A * B) : bool := eqa a.1 b.1 && eqb a.2 b.2.
End ppair.

(** ** Bimap.h *)

(** The nodes of the two maps live on a heap.  A node has a key and a pointer
    to the key of a node of the other map; [bm_a] ([_mapA]) and [bm_b]
    ([_mapB]) give the node of each key.  The key of a node may be changed
    while it is out of its map (Bimap.h:66-70): pointers to it see the new key. *)
Section bimap.
Context {A B : Type} `{Countable A} `{Countable B}.

Record bimap := Bimap {
  bm_a : gmap B nat;
  bm_b : gmap A nat;
  bm_na : gmap nat (B * option nat);
  bm_nb : gmap nat (A * option nat);
  bm_next : nat;
}.
Definition bm_new : bimap := Bimap ∅ ∅ ∅ ∅ 0.

(** [_mapA.insert({b, nullptr}).first] and [_mapB.insert({a, bp}).first]
    (Bimap.h:45-48): the node with this key, made if there is none. *)
Definition bm_nodeA (s : bimap) (b : B) : nat * bimap :=
  match bm_a s !! b with
  | Some k => (k, s)
  | None => (bm_next s, Bimap (<[b := bm_next s]> (bm_a s)) (bm_b s)
                          (<[bm_next s := (b, None)]> (bm_na s)) (bm_nb s) (S (bm_next s)))
  end.
Definition bm_nodeB (s : bimap) (a : A) (p : nat) : nat * bimap :=
  match bm_b s !! a with
  | Some k => (k, s)
  | None => (bm_next s, Bimap (bm_a s) (<[a := bm_next s]> (bm_b s)) (bm_na s)
                          (<[bm_next s := (a, Some p)]> (bm_nb s)) (S (bm_next s)))
  end.
(** Bimap.h:44-51; the [insert_or_assign] of line 50 finds the node of line 45. *)
Definition bm_insert (s : bimap) (a : A) (b : B) : bimap :=
  let '(ka, s) := bm_nodeA s b in
  let '(kb, s) := bm_nodeB s a ka in
  Bimap (bm_a s) (bm_b s) (<[ka := (b, Some kb)]> (bm_na s)) (bm_nb s) (bm_next s).

(** Bimap.h:65-71; if the new key is taken the node is destroyed with the
    handle it was moved to. *)
Definition bm_updateB (s : bimap) (a_old a_new : A) : bimap :=
  match bm_b s !! a_old with
  | None => s
  | Some k =>
      let mb := delete a_old (bm_b s) in
      match bm_nb s !! k with
      | None => s
      | Some (_, p) =>
          match mb !! a_new with
          | Some _ => Bimap (bm_a s) mb (bm_na s) (delete k (bm_nb s)) (bm_next s)
          | None => Bimap (bm_a s) (<[a_new := k]> mb) (bm_na s) (<[k := (a_new, p)]> (bm_nb s)) (bm_next s)
          end
      end
  end.
(** Bimap.h:78-84 *)
Definition bm_updateA (s : bimap) (b_old b_new : B) : bimap :=
  match bm_a s !! b_old with
  | None => s
  | Some k =>
      let ma := delete b_old (bm_a s) in
      match bm_na s !! k with
      | None => s
      | Some (_, p) =>
          match ma !! b_new with
          | Some _ => Bimap ma (bm_b s) (delete k (bm_na s)) (bm_nb s) (bm_next s)
          | None => Bimap (<[b_new := k]> ma) (bm_b s) (<[k := (b_new, p)]> (bm_na s)) (bm_nb s) (bm_next s)
          end
      end
  end.

(** Bimap.h:90-95 and 101-106: dereferencing the end iterator, a null pointer
    or a pointer to a destroyed node is undefined. *)
Definition bm_getB (s : bimap) (a : A) : res B :=
  match bm_b s !! a with
  | None => Err EUB
  | Some k =>
      match bm_nb s !! k with
      | Some (_, Some p) => match bm_na s !! p with Some (b, _) => Ok b | None => Err EUB end
      | _ => Err EUB
      end
  end.
Definition bm_getA (s : bimap) (b : B) : res A :=
  match bm_a s !! b with
  | None => Err EUB
  | Some k =>
      match bm_na s !! k with
      | Some (_, Some p) => match bm_nb s !! p with Some (a, _) => Ok a | None => Err EUB end
      | _ => Err EUB
      end
  end.

(** Bimap.h:112-120; erasing the end iterator is undefined. *)
Definition bm_eraseB (s : bimap) (a : A) : res bimap :=
  be ← bm_getB s a;
  match bm_b s !! a, bm_a s !! be with
  | Some kb, Some ka => Ok (Bimap (delete be (bm_a s)) (delete a (bm_b s))
                              (delete ka (bm_na s)) (delete kb (bm_nb s)) (bm_next s))
  | _, _ => Err EUB
  end.
(** Bimap.h:125 and 130 *)
Definition bm_empty (s : bimap) : bool := bool_decide (bm_a s = ∅).
Definition bm_lung (s : bimap) : nat := size (bm_b s).
End bimap.
Arguments bimap A B {_ _ _ _}.

(** ** Tree.h *)

(** Nodes live on a heap; shared pointers are never dangling, hence nodes are
    never removed. *)
Section tree.
Context {W : Type}.

(** Tree.h:31-52 [Node] *)
Record tnode := TNode {
  tn_index : nat;
  tn_volume : W;
  tn_sonc : Z;
  tn_father : option nat;
  tn_left : option nat;
  tn_right : option nat;
  tn_son : option nat;
}.
Definition tn_new (index : nat) (volume : W) : tnode := TNode index volume 0 None None None None.
Record tree := Tree { tr_heap : gmap nat tnode; tr_next : nat; tr_root : nat }.
(** Tree.h:73-74: the tree made of a root. *)
Definition tr_new (index : nat) (volume : W) : tree := Tree {[0 := tn_new index volume]} 1 0.

Definition set_sonc (f : Z → Z) (n : tnode) : tnode :=
  TNode (tn_index n) (tn_volume n) (f (tn_sonc n)) (tn_father n) (tn_left n) (tn_right n) (tn_son n).
Definition set_left (p : option nat) (n : tnode) : tnode :=
  TNode (tn_index n) (tn_volume n) (tn_sonc n) (tn_father n) p (tn_right n) (tn_son n).
Definition set_right (p : option nat) (n : tnode) : tnode :=
  TNode (tn_index n) (tn_volume n) (tn_sonc n) (tn_father n) (tn_left n) p (tn_son n).
Definition set_son (p : option nat) (n : tnode) : tnode :=
  TNode (tn_index n) (tn_volume n) (tn_sonc n) (tn_father n) (tn_left n) (tn_right n) p.

(** Reading and writing through a pointer: undefined if it is null. *)
Definition deref (h : gmap nat tnode) (p : option nat) : res tnode :=
  match p with Some k => match h !! k with Some n => Ok n | None => Err EUB end | None => Err EUB end.
Definition update (h : gmap nat tnode) (p : option nat) (f : tnode → tnode) : res (gmap nat tnode) :=
  match p with
  | Some k => match h !! k with Some n => Ok (<[k := f n]> h) | None => Err EUB end
  | None => Err EUB
  end.

(** Tree.h:119-129: the pointer is dereferenced before it is compared with
    null. *)
Fixpoint tr_search (fuel : nat) (h : gmap nat tnode) (p : option nat) (value : nat) : res (option nat) :=
  match fuel with
  | O => Err EFuel
  | S fuel =>
      n ← deref h p;
      if bool_decide (tn_index n = value) && bool_decide (is_Some (tn_father n)) then Ok p
      else match tn_right n with
           | None => Ok None
           | Some q => tr_search fuel h (Some q) value
           end
  end.
(** Tree.h:135-140 *)
Fixpoint tr_transverse (fuel : nat) (h : gmap nat tnode) (p : option nat) : res (option nat) :=
  match fuel with
  | O => Err EFuel
  | S fuel =>
      match p with
      | None => Ok None
      | Some _ => n ← deref h p;
                  match tn_right n with
                  | None => Ok p
                  | Some q => tr_transverse fuel h (Some q)
                  end
      end
  end.

(** Tree.h:91-112 *)
Definition tr_insert (t : tree) (father_index index : nat) (volume : W) (root : Z) : res tree :=
  let h := tr_heap t in
  let k := tr_next t in
  let h := <[k := tn_new index volume]> h in
  r ← deref h (Some (tr_root t));
  father ← (if bool_decide (root = 1%Z) then Ok (Some (tr_root t))
            else tr_search (S (tr_next t)) h (tn_son r) father_index);
  _ ← (match father with None => Err EAssert | Some _ => Ok () end : res unit);
  h ← update h (Some k) (λ n, TNode (tn_index n) (tn_volume n) (tn_sonc n) father (tn_left n) (tn_right n) (tn_son n));
  fn ← deref h father;
  left ← tr_transverse (S (tr_next t)) h (tn_son fn);
  h ← match left with
      | None => update h father (set_son (Some k))
      | Some _ => h ← update h (Some k) (set_left left);
                  update h left (set_right (Some k))
      end;
  h ← update h father (set_sonc (λ z, z + 1)%Z);
  Ok (Tree h (S k) (tr_root t)).

(** The pointer that [searched_node], passed by reference, refers to: the
    first son or the right neighbour of a node. *)
Inductive ptr_loc := LSon (k : nat) | LRight (k : nat).
Definition read (h : gmap nat tnode) (l : ptr_loc) : res (option nat) :=
  match l with
  | LSon k => n ← deref h (Some k); Ok (tn_son n)
  | LRight k => n ← deref h (Some k); Ok (tn_right n)
  end.

(** Tree.h:153-178.  [searched_node] is read again after each assignment as
    the assignment may have changed it. *)
Fixpoint tr_delete_node (fuel : nat) (h : gmap nat tnode) (l : ptr_loc) (value : nat) : res (gmap nat tnode) :=
  match fuel with
  | O => Err EFuel
  | S fuel =>
      s ← read h l;
      match s with
      | None => Ok h
      | Some k =>
          n ← deref h s;
          if bool_decide (tn_index n = value) then
            match tn_left n with
            | None =>
                h ← update h (tn_father n) (set_sonc (λ z, z - 1)%Z);
                n ← deref h s;
                h ← update h (tn_father n) (set_son (tn_right n));
                s ← read h l; n ← deref h s;
                update h (tn_right n) (set_left None)
            | Some _ =>
                match tn_right n with
                | None =>
                    h ← update h (tn_father n) (set_sonc (λ z, z - 1)%Z);
                    n ← deref h s;
                    update h (tn_left n) (set_right None)
                | Some _ =>
                    h ← update h (tn_father n) (set_sonc (λ z, z - 1)%Z);
                    n ← deref h s;
                    h ← update h (tn_left n) (set_right (tn_right n));
                    s ← read h l; n ← deref h s;
                    update h (tn_right n) (set_left (tn_left n))
                end
            end
          else tr_delete_node fuel h (LRight k) value
      end
  end.
(** Tree.h:145-147 *)
Definition tr_delete (t : tree) (value : nat) : res tree :=
  h ← tr_delete_node (S (tr_next t)) (tr_heap t) (LSon (tr_root t)) value;
  Ok (Tree h (tr_next t) (tr_root t)).
End tree.
Arguments tnode W : clear implicits.
Arguments tree W : clear implicits.
