(** * SpecPool: the histories of a pool of seeds, and what a seed should be *)

From Verif Require Import Main.

Section pool.
Context {A : Arith} {H : HashOrder}.
Implicit Types (prio : list W) (bnd : list Z) (aggl : list bool) (p : pool).

(** Everything that happens to a pool during a call, in any order: it is
    initialised (Seeds_Pool.h:418-429) or prepared after the anisotropic phase
    (Agglomerator.h:433-460); seeds are taken; cells are agglomerated; cells
    are added.  [bp] and [one] tell the kind of pool. *)
Inductive pool_hist prio bnd (bp one : bool) : list bool → pool → Prop :=
  | ph_start aggl p :
      length aggl = length bnd →
      pool_initialize prio bnd (pool_new bp one) = Ok p →
      pool_hist prio bnd bp one aggl p
  | ph_lines g ct nb p :
      g_bnd g = bnd → length (ct_aggl ct) = length bnd → (∀ c, c ∈ nb → c < length bnd) →
      update_seeds_pool g prio ct nb (pool_new bp one) = Ok p →
      pool_hist prio bnd bp one (ct_aggl ct) p
  | ph_seed aggl p s p' :
      pool_hist prio bnd bp one aggl p →
      choose_new_seed prio bnd aggl p = Ok (Some s, p') →
      pool_hist prio bnd bp one aggl p'
  | ph_aggl aggl aggl' p :
      pool_hist prio bnd bp one aggl p →
      length aggl' = length aggl → (∀ c, aggl !! c = Some true → aggl' !! c = Some true) →
      pool_hist prio bnd bp one aggl' p
  | ph_new aggl p new p' :
      pool_hist prio bnd bp one aggl p → (∀ c, c ∈ new → c < length bnd) →
      order_new_seeds_and_update prio bnd p new = Ok p' →
      pool_hist prio bnd bp one aggl p'.

(** [c] is not agglomerated. *)
Definition is_free aggl (c : nat) : Prop := aggl !! c = Some false.
(** [c] is in the queue of level [l]. *)
Definition queued p (l c : nat) : Prop := ∃ q, sp_q p !! l = Some q ∧ c ∈ q.

(** [s] is the first free cell of the queue of level [l]. *)
Definition first_of aggl p (l s : nat) : Prop :=
  is_free aggl s ∧ ∃ pre post, sp_q p !! l = Some (pre ++ s :: post) ∧
    ∀ c, c ∈ pre → ¬ is_free aggl c.

(** Among the free cells with [b] boundary faces [s] has the highest priority,
    and the lowest index if there are several. *)
Definition best_of prio bnd aggl (b : Z) (s : nat) : Prop :=
  is_free aggl s ∧ bnd !! s = Some b ∧
  ∀ c ws wc, is_free aggl c → bnd !! c = Some b → c ≠ s →
    prio !! s = Some ws → prio !! c = Some wc →
    wlt wc ws = true ∨ wlt ws wc = false ∧ s < c.

(** No free cell has more than [b] boundary faces, one has that many. *)
Definition highest_free bnd aggl (b : Z) : Prop :=
  (∃ c, is_free aggl c ∧ bnd !! c = Some b) ∧
  ∀ c b', is_free aggl c → bnd !! c = Some b' → (b' <= b)%Z.

(** [b] is the number of boundary faces of the free cell with the lowest index
    among those with at least [t] of them. *)
Definition first_above bnd aggl (t b : Z) : Prop :=
  (t <= b)%Z ∧ ∃ c, is_free aggl c ∧ bnd !! c = Some b ∧
    ∀ c' b', is_free aggl c' → bnd !! c' = Some b' → (t <= b')%Z → c ≤ c'.

(** Boundary counts as they are once clipped to the dimension, at least one cell, one priority per cell,
    no NaN. *)
Record pool_data prio bnd : Prop := {
  pd_pos : 0 < length bnd;
  pd_len : length prio = length bnd;
  pd_bnd : ∀ c b, bnd !! c = Some b → (0 <= b <= 3)%Z;
  pd_ord : ∀ x y z, x ∈ prio → y ∈ prio → z ∈ prio →
    wlt x x = false ∧ (wlt x y = true → wlt y z = true → wlt x z = true) ∧
    (wlt x z = true → wlt x y = true ∨ wlt y z = true);
}.

End pool.
