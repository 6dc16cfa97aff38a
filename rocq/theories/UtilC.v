(** * UtilC: the tools of include/CoMMA/Util.h with bounded integers

    [UtilM] computes with unbounded integers.  Here the two functions which do
    arithmetic on a bounded type are written once more. *)

From Verif Require Export UtilM.

(** ** [filter_cells_by_n_edges], Util.h:311-337

    The indices are unsigned: the difference and the sum are taken modulo 2^64
    and the cast to [int] keeps the last 32 binary digits (by definition of the
    implementations in use; of the language since C++20).  Dropping digits twice
    is the same as once. *)
Definition to_int (z : Z) : Z := ((z + 2147483648) mod 4294967296 - 2147483648)%Z.
Definition filter_cells_c (idx : list nat) (bnd : list Z) (allowed : list Z)
    : res (list nat) :=
  let target := filter (λ n, 0 < n)%Z allowed in
  match target with
  | [] => Ok []
  | _ =>
      foldM (λ acc c,
        a ← vget idx (S c);
        b ← vget idx c;
        n ← vget bnd c;
        Ok (if bool_decide (to_int (Z.of_nat a - Z.of_nat b + n) ∈ allowed)
            then acc ++ [c] else acc)) (seq 0 (length bnd)) []
  end.

(** ** [compute_neighbourhood_based_wall_distance], Util.h:361-399

    [top] is [std::numeric_limits<DistT>::max()], for a type at least as wide as
    [int]; the increment of Util.h:387 is undefined beyond it. *)
Fixpoint wd_loop_c (top : Z) (fuel : nat) (idx col : list nat) (dist : list Z) (q : list nat)
    : res (list Z) :=
  match q with
  | [] => Ok dist
  | c :: q =>
      match fuel with
      | O => Err EFuel
      | S fuel =>
          d ← vget dist c;
          cur ← (if bool_decide (d + 1 <= top)%Z then Ok (d + 1)%Z else Err EUB);
          l ← wd_nbrs idx col c;
          r ← foldM (wd_visit cur) l (dist, q);
          wd_loop_c top fuel idx col r.1 r.2
      end
  end.
Definition wall_distance_c (top : Z) (idx col wall : list nat) (dist0 : list Z) : res (list Z) :=
  match idx with
  | [] => Err EUB
  | _ :: l =>
      let n := length l in
      dist ← foldM (λ d c, vset d c 0%Z) wall (map (λ _, (-1)%Z) (resize n 0%Z dist0));
      wd_loop_c top (n + length wall) idx col dist wall
  end.
