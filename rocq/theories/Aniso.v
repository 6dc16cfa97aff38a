(** * Aniso: anisotropic lines and their agglomeration
    (include/CoMMA/Dual_Graph.h:718-874, Agglomerator.h:161-837) *)

From Verif Require Export Seeds Container.

(** Members of [Agglomerator_Anisotropic] (Agglomerator.h:235-243, 817-836).
    [ap_mindist] tells whether the cell coupling is [MIN_DISTANCE] (true) or
    [MAX_WEIGHT] (false); [ap_max] is [_max_cells_in_line]. *)
Record aniso_params := AnisoP {
  ap_odd : bool;
  ap_max : option Z;
  ap_mindist : bool;
  ap_force : bool;
}.

Section aniso.
Context {A : Arith} {H : HashOrder}.
Implicit Types (g : graph) (ap : aniso_params) (prio : list W).

(** ** Tagging, Dual_Graph.h:739-874 *)

(** [*std::max_element] over a range of weights; UB if the range is empty. *)
Definition wmax_element (l : list W) : res W :=
  match l with
  | [] => Err EUB
  | w :: l => Ok (foldl (λ m x, if wlt m x then x else m) w l)
  end.

(** Dual_Graph.h:769-781 and 847-859: inverse of the squared distances, written
    in [alt_weights], and their maximum. *)
Definition inv_dists g (i : nat) (alt : list W) : res (list W * W) :=
  off ← vget (g_row g) i;
  l ← nbrs g i;
  ci ← vget (g_cen g) i;
  r ← foldM (λ '(alt, m, pos) n,
        cn ← vget (g_cen g) n;
        d ← sqdist ci cn;
        let v := wdiv w1 d in
        alt ← vset alt pos v;
        Ok (alt, if wlt m v then v else m, S pos)) l (alt, w0, off);
  Ok (r.1.1, r.1.2).

(** Dual_Graph.h:791-816: minimum and maximum weight of the faces of [i],
    leaving aside entries of [i] with itself. *)
Definition minmax_weight g (i : nat) : res (W * W) :=
  l ← nbrs_wgts g i;
  Ok (foldl (λ '(mn, mx) '(n, w),
        if bool_decide (n ≠ i)
        then (if wlt w mn then w else mn, if wlt mx w then w else mx)
        else (mn, mx)) (wmaxv, w0) l).

(** Dual_Graph.h:597-603 [_compute_AR]. *)
Definition compute_AR g (mn mx : W) : W :=
  if g_2d g then wdiv mx mn else wsqrt (wdiv mx mn).

(** State of the tagging: [alt_weights], [max_weights], [aniso_w_weights]. *)
Definition tag_state := (list W * list W * list (nat * W))%type.

(** One compliant cell.  Only the value 0 of [preserving], the one used by the
    library (Agglomerator.h:560), is modelled (Dual_Graph.h:821-837). *)
Definition tag_cell ap g prio (thr : W) (st : tag_state) (i : nat)
    : res tag_state :=
  let '(alt, mw, aw) := st in
  aw ← (if wlt thr w0 then
          p ← vget prio i; Ok (pset_insert (i, p) aw)
        else
          mm ← minmax_weight g i;
          if wle thr (compute_AR g mm.1 mm.2)
          then p ← vget prio i; Ok (pset_insert (i, p) aw)
          else Ok aw);
  if ap_mindist ap then
    r ← inv_dists g i alt;
    mw ← vset mw i r.2;
    Ok (r.1, mw, aw)
  else
    m ← (if wlt thr w0 then w ← wgts g i; wmax_element w
         else mm ← minmax_weight g i; Ok mm.2);
    mw ← vset mw i m;
    Ok (alt, mw, aw).

(** [tag_anisotropic_cells]: [alt_weights], [max_weights], [is_anisotropic] and
    [aniso_seeds_pool]. *)
Definition tag_anisotropic_cells ap g prio (thr : W)
    : res (list W * list W * list bool * list nat) :=
  let alt := if ap_mindist ap then replicate (length (g_val g)) w0 else [] in
  r ← foldM (tag_cell ap g prio thr) (hset s_tag (g_compl g))
        (alt, replicate (g_n g) w0, []);
  let '(alt, mw, aw) := r in
  let seeds := map fst aw in
  ia ← foldM (λ v i, vset v i true) seeds (replicate (g_n g) false);
  Ok (alt, mw, ia, seeds).

(** ** Candidates, Agglomerator.h:741-815 *)

Definition is_high_coupling (w ref : W) : bool := wlt (wmul w090 ref) w.

(** The neighbours of [i] paired with the reference weights. *)
Definition nbrs_ref g (ws : list W) (i : nat) : res (list (nat * W)) :=
  off ← vget (g_row g) i;
  l ← nbrs g i;
  w ← vrange ws off (off + length l);
  Ok (zip l w).

(** Agglomerator.h:758-773. *)
Definition cand_max_weight g (seed : nat) (tr : list bool) (ws mw : list W)
    : res (list (nat * W)) :=
  l ← nbrs_ref g ws seed;
  foldM (λ s '(n, w),
    t ← vget tr n;
    if t : bool then
      m ← vget mw seed;
      Ok (if is_high_coupling w m then pset_insert (n, w) s else s)
    else Ok s) l [].

(** Agglomerator.h:790-815. *)
Definition cand_direction g (seed : nat) (tr : list bool) (ws mw : list W)
    (dir : list W) (check : bool) : res (list (nat * W)) :=
  l ← nbrs_ref g ws seed;
  c0 ← vget (g_cen g) 0;
  foldM (λ s '(n, w),
    t ← vget tr n;
    if t : bool then
      ok ← (if check then m ← vget mw seed; Ok (is_high_coupling w m)
            else Ok true);
      if ok : bool then
        cn ← vget (g_cen g) n;
        cs ← vget (g_cen g) seed;
        cur ← get_direction cn cs (replicate (length c0) w0);
        dot ← dot_product dir cur;
        Ok (if wlt w0 dot && negb (dot_deviate dot)
            then pset_insert (n, dot) s else s)
      else Ok s
    else Ok s) l [].

(** ** Building the lines, Agglomerator.h:537-733 *)

(** The variables of the [while (!end)] loop (Agglomerator.h:586-604). *)
Record line_st := LineSt {
  ls_seed : nat;
  ls_line : list nat;
  ls_tt : list bool;                  (* to_treat *)
  ls_opp : bool;                      (* opposite_direction_check *)
  ls_dir : list W;                    (* prev_dir *)
  ls_primal : option (list W);        (* primal_dir *)
  ls_empty : bool;                    (* empty_line *)
}.

Definition wneg (x : W) : W := wmul (wofZ (-1)) x.

(** Agglomerator.h:632-643 and 665-677: adding cell [c] to the line. *)
Definition line_add g (s : line_st) (c : nat) : res line_st :=
  tr ← vset (ls_tt s) c false;
  cn ← vget (g_cen g) c;
  co ← vget (g_cen g) (ls_seed s);
  dir ← get_direction cn co (ls_dir s);
  Ok (LineSt c (if ls_opp s then c :: ls_line s else ls_line s ++ [c]) tr
        (ls_opp s) dir
        (match ls_primal s with Some d => Some d | None => Some dir end) false).

(** Agglomerator.h:682-695 and 702-715: no candidate; turn around or stop.
    [None] stands for [end = true]. *)
Definition line_turn (primal : nat) (s : line_st) : res (option line_st) :=
  if negb (ls_opp s) && bool_decide (ls_seed s ≠ primal) then
    d ← opt_value (ls_primal s);
    if decide (length (ls_dir s) ≤ length d) then
      Ok (Some (LineSt primal (ls_line s) (ls_tt s) true
                  (map wneg (take (length (ls_dir s)) d)) (ls_primal s)
                  (ls_empty s)))
    else Err EUB
  else Ok None.

(** One iteration of the loop. *)
Definition line_step ap g (ws mw : list W) (primal : nat) (s : line_st)
    : res (option line_st) :=
  cs ← (if negb (ap_force ap) || ls_empty s
        then cand_max_weight g (ls_seed s) (ls_tt s) ws mw
        else cand_direction g (ls_seed s) (ls_tt s) ws mw (ls_dir s) true);
  match cs with
  | (c, _) :: _ => s ← line_add g s c; Ok (Some s)
  | [] =>
      if ap_force ap && negb (ls_empty s) then
        cs ← cand_direction g (ls_seed s) (ls_tt s) ws mw (ls_dir s) false;
        match cs with
        | (c, _) :: _ => s ← line_add g s c; Ok (Some s)
        | [] => line_turn primal s
        end
      else line_turn primal s
  end.

(** The loop: each iteration removes a cell from [to_treat], turns around
    (once) or stops, hence the fuel. *)
Fixpoint line_loop (fuel : nat) ap g (ws mw : list W) (primal : nat)
    (s : line_st) : res line_st :=
  match fuel with
  | O => Err EFuel
  | S fuel =>
      o ← line_step ap g ws mw primal s;
      match o with
      | None => Ok s
      | Some s => line_loop fuel ap g ws mw primal s
      end
  end.

(** Agglomerator.h:577-724: the lines and [to_treat]. *)
Definition build_line ap g (ws mw : list W) (pts : nat)
    (st : list bool * list (list nat)) (i : nat)
    : res (list bool * list (list nat)) :=
  let '(tr, lines) := st in
  b ← vget tr i;
  if b : bool then
    tr ← vset tr i false;
    s ← line_loop (length tr + 3) ap g ws mw i
          (LineSt i [i] tr false (replicate pts w0) None true);
    Ok (ls_tt s, if bool_decide (1 < length (ls_line s))
                 then lines ++ [ls_line s] else lines)
  else Ok (tr, lines).

(** Agglomerator.h:537-733 [build_anisotropic_lines]: the lines of level 0. *)
Definition build_anisotropic_lines ap g prio (thr : W) : res (list (list nat)) :=
  t ← tag_anisotropic_cells ap g prio thr;
  let '(alt, mw, tr, seeds) := t in
  let ws := if ap_mindist ap then alt else g_val g in
  match seeds with
  | [] => Ok []
  | _ =>
      c0 ← vget (g_cen g) 0;
      r ← foldM (build_line ap g ws mw (length c0)) seeds (tr, []);
      Ok r.2
  end.

(** ** The constructor, Agglomerator.h:216-285 *)

(** Lines given by the user, Agglomerator.h:265-277.  With an unsigned index
    type a decreasing index yields a huge size and an invalid range: UB. *)
Fixpoint input_lines_from (prev : nat) (idx cells : list nat)
    (acc : list (list nat)) : res (list (list nat)) :=
  match idx with
  | [] => Ok acc
  | i :: idx =>
      if bool_decide (prev ≤ i) then
        if bool_decide (1 < i - prev) then
          l ← vrange cells prev i; input_lines_from i idx cells (acc ++ [l])
        else input_lines_from i idx cells acc
      else Err EUB
  end.
Definition input_lines (idx cells : list nat) : res (list (list nat)) :=
  match idx with
  | [] => Err EUB
  | i :: idx => input_lines_from i idx cells []
  end.

(** The lines at level 0; [_should_agglomerate] is the fact that there is one. *)
Definition lines_of (build : bool) ap g prio (thr : W) (idx cells : list nat)
    : res (list (list nat)) :=
  if build then
    let thr := if wlt w1 thr || wlt thr w0 then thr else wdiv w1 thr in
    build_anisotropic_lines ap g prio thr
  else input_lines idx cells.

(** ** Agglomeration, Agglomerator.h:306-428 *)

(** Agglomerator.h:328-383 [loop_line].  [rest] is the range from [line_it] to
    the end; [nc] is [n_cells]; [nb] is [_aniso_neighbours]; [out] is
    [line_lvl_p_one].  Moving an iterator beyond the end or dereferencing the
    end is UB.  The recursion is structural in [fuel], which is at least the
    length of [rest]. *)
Definition over_limit ap (n : Z) : bool :=
  match ap_max ap with Some m => bool_decide (m < n)%Z | None => false end.
Definition at_limit ap (n : Z) : bool :=
  match ap_max ap with Some m => bool_decide (n = m) | None => false end.
Fixpoint loop_line (fuel : nat) ap g (rest : list nat) (nc : Z)
    (ct : container) (nb out : list nat)
    : res (container * list nat * list nat) :=
  match rest with
  | [] => Ok (ct, nb, out)
  | x :: rest1 =>
  match fuel with
  | O => Err EFuel
  | S fuel =>
      if over_limit ap (nc + 2)%Z then Ok (ct, nb, out) else
      match rest1 with
      | [] => Err EUB
      | y :: rest2 =>
          nx ← nbrs g x;
          ny ← nbrs g y;
          let nb := nb ++ nx ++ ny in
          let nc := (nc + 2)%Z in
          if bool_decide (length rest = 3) || at_limit ap (nc + 1)%Z then
            r ← (if ap_odd ap then
                   z ← vget rest2 0;
                   nz ← nbrs g z;
                   Ok ({[x; y; z]}, (nc + 1)%Z, nb ++ nz)
                 else Ok ({[x; y]}, nc, nb));
            let '(s, nc, nb) := r in
            ct' ← create_cc ct s 1%Z true false;
            match rest2 with
            | [] => Err EUB
            | _ :: rest3 =>
                loop_line fuel ap g rest3 nc ct' nb (out ++ [ct_n ct' - 1])
            end
          else
            ct' ← create_cc ct {[x; y]} 1%Z true false;
            loop_line fuel ap g rest2 nc ct' nb (out ++ [ct_n ct' - 1])
      end
  end end.

(** Agglomerator.h:404-413: from which end the line is agglomerated. *)
Definition forward_line g prio (line : list nat) : res bool :=
  match line, last line with
  | fr :: _, Some bk =>
      bf ← n_bnd g fr;
      bb ← n_bnd g bk;
      wf ← vget prio fr;
      wb ← vget prio bk;
      Ok (bool_decide (bb < bf)%Z
          || (bool_decide (bf = bb)
              && (wlt wb wf || (weq wf wb && bool_decide (fr < bk)))))
  | _, _ => Err EUB
  end.

(** Agglomerator.h:386-420: all the lines.  State: container,
    [_aniso_neighbours], lines of level 1. *)
Definition agglo_line ap g prio (st : container * list nat * list (list nat))
    (line : list nat) : res (container * list nat * list (list nat)) :=
  let '(ct, nb, lines) := st in
  if bool_decide (length line ≤ 1) then Ok st else
  f ← forward_line g prio line;
  r ← loop_line (length line) ap g (if f : bool then line else reverse line) 0%Z
        ct nb [];
  let '(ct, nb, out) := r in
  Ok (ct, nb, lines ++ [out]).

(** Agglomerator.h:433-460 [update_seeds_pool]. *)
Definition update_seeds_pool g prio (ct : container) (nb : list nat) (p : pool)
    : res pool :=
  nb ← foldM (λ acc i, b ← vget (ct_aggl ct) i;
                       Ok (if b : bool then acc else acc ++ [i])) nb [];
  p ← match nb with
      | [] => Ok p
      | i :: _ => b ← n_bnd g i; pool_update (g_bnd g) (set_top p (Some b)) nb
      end;
  r ← need_initialization (g_bnd g) (ct_aggl ct) p;
  if r.1 : bool then pool_initialize prio (g_bnd g) r.2 else Ok r.2.

(** Agglomerator.h:306-428 [Agglomerator_Anisotropic::agglomerate_one_level]:
    container, pool and lines of level 1. *)
Definition aniso_agglomerate ap g prio (lines : list (list nat))
    (ct : container) (p : pool) : res (container * pool * list (list nat)) :=
  match lines with
  | [] => p ← pool_initialize prio (g_bnd g) p; Ok (ct, p, [])
  | _ =>
      r ← foldM (agglo_line ap g prio) lines (ct, [], []);
      let '(ct, nb, out) := r in
      p ← update_seeds_pool g prio ct nb p;
      Ok (ct, p, out)
  end.

(** Agglomerator.h:469-507 [export_anisotropic_lines] at level 1. *)
Definition export_lines (lines : list (list nat)) : list nat * list nat :=
  match lines with
  | [] => ([], [])
  | _ =>
      foldl (λ '(idx, cells) l,
        (idx ++ [length l + length cells], cells ++ l)) ([0], []) lines
  end.

End aniso.
