(** * Base: outcomes, vectors, arithmetic and hash-iteration oracles

    This file fixes the vocabulary used by every other model file.
    Nothing is assumed in here: the weight arithmetic and the iteration order
    of the unordered containers are type-class arguments of the
    model, so that every theorem is universally quantified over them. *)

From stdpp Require Export prelude list gmap sorting.
From Coq Require Export ZArith Lia.
From Coq Require Import ZifyBool.

Global Open Scope Z_scope.
Global Open Scope nat_scope.

(** ** Outcomes *)

(** Outcome of running a piece of C++ code.  [Ok] is a normal return.
    Everything else is an abnormal outcome; the kinds are kept apart because
    they have very different meaning for a user:
    - [EInvalid k]: a [std::invalid_argument] is thrown.  [k] says which of
      the checks of [agglomerate_one_level] (include/CoMMA/CoMMA.h:196-333) or
      of [Agglomerator_Isotropic]'s constructor (Agglomerator.h:1007-1011)
      threw;
    - [EOutOfRange]: a container [.at] throws [std::out_of_range];
    - [EBadOptional]: [std::optional::value] on an empty optional throws
      [std::bad_optional_access];
    - [EUB]: undefined behaviour (out-of-bounds [operator[]], dereferencing an
      end iterator, [front()] of an empty container);
    - [EAssert]: an [assert] fails (abort in debug builds, silently ignored
      in release builds);
    - [EFuel]: the loop fuel of the model ran out.  It corresponds to no C++
      behaviour except non-termination; theorems exclude it. *)
Inductive chk :=
  | KDim | KCard | KCardOrder | KIterMin | KIterMax | KCSREmpty | KCSRCol
  | KCSRVal | KLines | KSing | KSeedsPool | KAR.

Inductive err := EInvalid (k : chk) | EOutOfRange | EBadOptional | EUB
  | EAssert | EFuel.

Inductive res (A : Type) := Ok (a : A) | Err (e : err).
Arguments Ok {_} _.
Arguments Err {_} _.

#[global] Instance res_ret : MRet res := @Ok.
#[global] Instance res_bind : MBind res := λ A B f m,
  match m with Ok a => f a | Err e => Err e end.

(** [assert(b)] *)
Definition massert (b : bool) : res unit := if b then Ok () else Err EAssert.

(** A range-based [for] loop whose body may fail. *)
Fixpoint foldM {A B} (f : B → A → res B) (l : list A) (b : B) : res B :=
  match l with
  | [] => Ok b
  | a :: l => b' ← f b a; foldM f l b'
  end.

(** [std::optional::value()] *)
Definition opt_value {A} (o : option A) : res A :=
  match o with Some a => Ok a | None => Err EBadOptional end.

(** ** Vectors *)

(** [v[i]] (read) on a [std::vector]/[std::deque]: out of bounds is UB. *)
Definition vget {A} (v : list A) (i : nat) : res A :=
  match v !! i with Some a => Ok a | None => Err EUB end.

(** [v[i] = x] on a [std::vector]: out of bounds is UB. *)
Definition vset {A} (v : list A) (i : nat) (x : A) : res (list A) :=
  if decide (i < length v) then Ok (<[i := x]> v) else Err EUB.

(** [v[z]] for an index of the (signed) CoMMA integer type. *)
Definition vgetZ {A} (v : list A) (z : Z) : res A :=
  if bool_decide (0 <= z)%Z then vget v (Z.to_nat z) else Err EUB.
Definition vsetZ {A} (v : list A) (z : Z) (x : A) : res (list A) :=
  if bool_decide (0 <= z)%Z then vset v (Z.to_nat z) x else Err EUB.

(** [std::map::at] / [std::unordered_map::at] *)
Definition mapat {A} (m : gmap nat A) (i : nat) : res A :=
  match m !! i with Some a => Ok a | None => Err EOutOfRange end.

(** The half-open index range [\[a,b)] of a vector, visited by an iterator loop
    [for (it = v.begin()+a; it != v.begin()+b; ++it)].  If [b < a] or [b] is
    past the end the loop leaves the vector: UB. *)
Definition slice {A} (v : list A) (a b : nat) : list A := take (b - a) (drop a v).
Definition vrange {A} (v : list A) (a b : nat) : res (list A) :=
  if decide (a ≤ b ∧ b ≤ length v) then Ok (slice v a b) else Err EUB.

(** ** Weight arithmetic *)

(** The floating-point type [CoMMAWeightType] of the code (default [double])
    is abstracted by an arbitrary type with arbitrary operations.  No law is
    assumed here; theorems that need laws (order laws for priorities, field
    laws for volumes, ...) state them as explicit hypotheses.  In particular a
    theorem stated for all [Arith] without hypotheses holds for IEEE doubles
    including infinities and NaN.
    - [wlt], [wle], [weq]: the C++ [<], [<=] and [==] on weights;
    - [wadd] ... [wsqrt]: arithmetic;
    - [wsum]: [std::reduce(first,last)] whose summation order is unspecified;
    - [wofZ]: conversion from the integer type;
    - [wmaxv]: [std::numeric_limits<W>::max()];
    - [wminv]: [std::numeric_limits<W>::min()] (for floating point types the
      smallest *positive* normalised value);
    - [w090]: the literal [0.90] of Agglomerator.h:741-745;
    - [wdev]: [deviate_thresh] (Util.h:43);
    - [wtol]: the tolerance [1e-12] given to [ARMaxOverMinBaryDistance]
      (Agglomerator.h:999). *)
Class Arith := {
  W : Type;
  wlt : W → W → bool;
  wle : W → W → bool;
  weq : W → W → bool;
  wadd : W → W → W;
  wsub : W → W → W;
  wmul : W → W → W;
  wdiv : W → W → W;
  wsqrt : W → W;
  wabs : W → W;
  wsum : list W → W;
  wofZ : Z → W;
  wmaxv : W;
  wminv : W;
  w090 : W;
  wdev : W;
  wtol : W;
}.

Definition w0 `{Arith} : W := wofZ 0.
Definition w1 `{Arith} : W := wofZ 1.

(** ** Iteration order of unordered containers *)

(** The C++ standard leaves the iteration order of [std::unordered_set] and
    [std::unordered_map] unspecified.  Sets are modelled by [gset nat] and
    maps by [gmap nat _] (canonical representations, hence extensional);
    *iterating* over one goes through an oracle which may permute the elements
    in any way.  The first argument identifies the program point, so that
    different loops over the same set may see different orders.  The model
    and all the theorems are universally quantified over the oracle. *)
Class HashOrder := {
  hord : nat → list nat → list nat;
  hord_perm : ∀ site l, hord site l ≡ₚ l;
}.

(** Iterating over an [unordered_set]. *)
Definition hset `{HashOrder} (site : nat) (X : gset nat) : list nat :=
  hord site (elements X).
(** Iterating over (the keys of) an [unordered_map]. *)
Definition hkeys `{HashOrder} {A} (site : nat) (m : gmap nat A) : list nat :=
  hord site (elements (dom m : gset nat)).
