(** * Seeds: the pool of seeds (include/CoMMA/Seeds_Pool.h) *)

From Verif Require Export Graph.

(** CoMMADefs.h:24-31: [N_CELL_TYPES] and [CORNER]. *)
Definition N_CELL_TYPES := 4.
Definition CORNER := 3%Z.

(** Seeds_Pool.h:200-275.  [sp_q] is [_l_of_seeds], [sp_top] is
    [_cur_top_queue]; [sp_one] selects the one-point initializator; [sp_bp]
    tells whether the derived class is [Seeds_Pool_Boundary_Priority] (true)
    or [Seeds_Pool_Neighbourhood_Priority] (false).  The references to the
    priority weights and to the boundary faces are passed as arguments. *)
Record pool := Pool {
  sp_q : list (list nat);
  sp_top : option Z;
  sp_one : bool;
  sp_bp : bool;
}.

(** The constructor, Seeds_Pool.h:256-275. *)
Definition pool_new (bp one : bool) : pool :=
  Pool (replicate N_CELL_TYPES []) None one bp.

Definition set_q (p : pool) q := Pool q (sp_top p) (sp_one p) (sp_bp p).
Definition set_top (p : pool) t := Pool (sp_q p) t (sp_one p) (sp_bp p).

Section seeds.
Context {A : Arith} {H : HashOrder}.
Implicit Types (prio : list W) (bnd : list Z) (aggl : list bool) (p : pool).

(** Append at the back of queue [z]. *)
Definition push_back (q : list (list nat)) (z : Z) (l : list nat)
    : res (list (list nat)) :=
  old ← vgetZ q z; vsetZ q z (old ++ l).

(** Seeds_Pool.h:286-299 [spoil_queue]: the seed, if any, and the rest of the
    queue. *)
Fixpoint spoil_queue aggl (q : list nat) : res (option nat * list nat) :=
  match q with
  | [] => Ok (None, [])
  | s :: q => b ← vget aggl s;
              if b : bool then spoil_queue aggl q else Ok (Some s, q)
  end.

(** [spoil_queue] on the queue of level [z], in place. *)
Definition spoil_level aggl p (z : Z) : res (option nat * pool) :=
  q ← vgetZ (sp_q p) z;
  r ← spoil_queue aggl q;
  q' ← vsetZ (sp_q p) z r.2;
  Ok (r.1, set_q p q').

(** Seeds_Pool.h:335-348 [build_queue]. *)
Definition build_queue prio bnd aggl p (target : Z) : res pool :=
  s ← foldM (λ s i,
    b ← vget aggl i;
    if b : bool then Ok s else
    n ← vget bnd i;
    if bool_decide (n = target) then w ← vget prio i; Ok (pset_insert (i, w) s)
    else Ok s) (seq 0 (length bnd)) [];
  match s with
  | [] => Ok p
  | _ => q ← push_back (sp_q p) target (map fst s); Ok (set_q p q)
  end.

(** Seeds_Pool.h:359-379 [get_highest_n_bnd_yet_to_agglomerate]. *)
Fixpoint highest_loop bnd aggl (expected : Z) (cells : list nat)
    (best : option Z) : res (option Z) :=
  match cells with
  | [] => Ok best
  | i :: cells =>
      b ← vget aggl i;
      if b : bool then highest_loop bnd aggl expected cells best
      else
        n ← vget bnd i;
        let best := match best with None => n | Some m => m end in
        if bool_decide (expected <= n)%Z then Ok (Some n)
        else highest_loop bnd aggl expected cells
               (Some (if bool_decide (best < n)%Z then n else best))
  end.
Definition get_highest bnd aggl (expected : Z) : res (option Z) :=
  highest_loop bnd aggl expected (seq 0 (length bnd)) None.

(** Seeds_Pool.h:385-407 [is_empty()] with its default argument. *)
Definition pool_is_empty p : bool :=
  forallb (λ q, match q with [] => true | _ => false end) (sp_q p).

(** [*std::max_element]: UB on an empty vector. *)
Definition max_bnd bnd : res Z :=
  match bnd with
  | [] => Err EUB
  | b :: l => Ok (foldl (λ m x, if bool_decide (m < x)%Z then x else m) b l)
  end.

(** Seeds_Pool.h:113-129 [SPFullInitializator]: what is appended. *)
Definition full_init prio bnd (mb : Z) : res (list nat) :=
  s ← foldM (λ s i,
    n ← vget bnd i;
    if bool_decide (mb <= n)%Z then w ← vget prio i; Ok (pset_insert (i, w) s)
    else Ok s) (seq 0 (length bnd)) [];
  Ok (map fst s).

(** Seeds_Pool.h:168-186 [SPOnePointInitializator].  The initial index
    [std::numeric_limits<CoMMAIndexType>::max()] is represented by
    [length bnd]: like it, it is larger than any cell index and out of the
    bounds of any vector with one element per cell. *)
Definition one_point_init prio bnd (mb : Z) : res (list nat) :=
  m ← foldM (λ cur i,
    w ← vget prio i;
    n ← vget bnd i;
    Ok (if bool_decide (mb <= n)%Z && pair_gt (i, w) cur then (i, w) else cur))
    (seq 0 (length bnd)) (length bnd, wminv);
  Ok [m.1].

(** Seeds_Pool.h:418-429 [initialize]. *)
Definition pool_initialize prio bnd p : res pool :=
  top ← match sp_top p with Some t => Ok t | None => max_bnd bnd end;
  _ ← vgetZ (sp_q p) top;
  l ← (if sp_one p then one_point_init prio bnd top else full_init prio bnd top);
  q ← push_back (sp_q p) top l;
  Ok (set_top (set_q p q) (Some top)).

(** Seeds_Pool.h:501-524 and 669-692, common to both classes: what is done when
    the queues inspected first are exhausted. *)
Definition choose_rebuild prio bnd aggl p (top : Z) : res (option nat * pool) :=
  o ← get_highest bnd aggl top;
  match o with
  | None => Ok (None, set_top p None)
  | Some cq =>
      let p := set_top p (Some cq) in
      r ← spoil_level aggl p cq;
      match r.1 with
      | Some s => Ok (Some s, r.2)
      | None =>
          p ← build_queue prio bnd aggl r.2 cq;
          q ← vgetZ (sp_q p) cq;
          match q with
          | [] => Err EUB
          | s :: q => qs ← vsetZ (sp_q p) cq q; Ok (Some s, set_q p qs)
          end
      end
  end.

(** Seeds_Pool.h:658-667: the queues from level [lvl] down to level 0. *)
Fixpoint np_scan aggl p (lvl : nat) : res (option nat * pool) :=
  r ← spoil_level aggl p (Z.of_nat lvl);
  match r.1 with
  | Some s => Ok (Some s, set_top r.2 (Some (Z.of_nat lvl)))
  | None => match lvl with O => Ok (None, r.2) | S l => np_scan aggl r.2 l end
  end.

(** Seeds_Pool.h:487-525 and 647-693 [choose_new_seed].  A negative level
    would make both classes leave the bounds of [_l_of_seeds]. *)
Definition choose_new_seed prio bnd aggl p : res (option nat * pool) :=
  match sp_top p with
  | None => Ok (None, p)
  | Some top =>
      r ← (if sp_bp p then spoil_level aggl p top
           else if bool_decide (0 <= top)%Z then np_scan aggl p (Z.to_nat top)
                else Err EUB);
      match r.1 with
      | Some s => Ok (Some s, r.2)
      | None => choose_rebuild prio bnd aggl r.2 top
      end
  end.

(** Seeds_Pool.h:533-547 and 701-712 [update]. *)
Definition pool_update bnd p (new : list nat) : res pool :=
  if sp_bp p then
    match new with
    | [] => Ok p
    | _ =>
        r ← foldM (λ '(mb, q) s,
              n ← vget bnd s;
              q ← push_back q n [s];
              Ok (if bool_decide (mb < n)%Z then n else mb, q))
              new (0%Z, sp_q p);
        let '(mb, q) := r in
        let p := set_q p q in
        Ok (match sp_top p with
            | Some t => if bool_decide (t < mb)%Z then set_top p (Some mb) else p
            | None => set_top p (Some mb)
            end)
    end
  else
    q ← foldM (λ q s,
          n ← vget bnd s;
          push_back q (match sp_top p with Some t => Z.min n t | None => n end) [s])
          new (sp_q p);
    Ok (set_q p q).

(** [std::map<int, set, std::greater<>>], as the list of its entries in
    iteration order (descending keys), and [m[k].emplace(pr)]. *)
Fixpoint bymap_insert (k : Z) (pr : nat * W) (m : list (Z * list (nat * W)))
    : list (Z * list (nat * W)) :=
  match m with
  | [] => [(k, [pr])]
  | (k', s) :: m' =>
      if bool_decide (k' < k)%Z then (k, [pr]) :: m
      else if bool_decide (k < k')%Z then (k', s) :: bymap_insert k pr m'
      else (k', pset_insert pr s) :: m'
  end.
Definition by_bnd prio bnd (new : gset nat) : res (list (Z * list (nat * W))) :=
  foldM (λ m s, n ← vget bnd s; w ← vget prio s; Ok (bymap_insert n (s, w) m))
    (hset s_newseeds new) [].

(** Seeds_Pool.h:554-579 and 719-743 [order_new_seeds_and_update]. *)
Definition order_new_seeds_and_update prio bnd p (new : gset nat) : res pool :=
  m ← by_bnd prio bnd new;
  let p := if sp_bp p then
             match m with
             | [] => p
             | (mb, _) :: _ =>
                 match sp_top p with
                 | Some t => if bool_decide (t < mb)%Z then set_top p (Some mb) else p
                 | None => set_top p (Some mb)
                 end
             end
           else p in
  q ← foldM (λ q '(n, s),
        let lvl := if sp_bp p then n
                   else match sp_top p with Some t => Z.min n t | None => n end in
        push_back q lvl (map fst s)) m (sp_q p);
  Ok (set_q p q).

(** Seeds_Pool.h:587-596 and 749-752 [need_initialization]. *)
Definition need_initialization bnd aggl p : res (bool * pool) :=
  if pool_is_empty p || bool_decide (sp_top p = None) then Ok (true, p)
  else if sp_bp p then
    o ← get_highest bnd aggl CORNER;
    match o, sp_top p with
    | Some mb, Some t =>
        if bool_decide (t < mb)%Z then Ok (true, set_top p (Some mb))
        else Ok (false, p)
    | _, _ => Ok (false, p)
    end
  else Ok (false, p).

End seeds.
