(** * Main: the library entry point (include/CoMMA/CoMMA.h:128-444) *)

From Verif Require Export Iso Aniso.

(** The arguments of [agglomerate_one_level] (CoMMA.h:137-177), outputs
    excluded.  Enumerations are given by their integer value
    (CoMMADefs.h:36-108): [in_order] is [seed_ordering_type], [in_ar] is
    [aspect_ratio], [in_coupling] is [aniso_cell_coupling], [in_nbh] is
    [neighbourhood_type]. *)
Record input `{Arith} := Input {
  in_row : list nat;
  in_col : list nat;
  in_val : list W;
  in_vol : list W;
  in_cen : list (list W);
  in_prio : list W;
  in_compl : list nat;
  in_bnd : list Z;
  in_build : bool;
  in_aniso : bool;
  in_odd : bool;
  in_thr : W;
  in_order : Z;
  in_corr : bool;
  in_dim : Z;
  in_goal : Z;
  in_min : Z;
  in_max : Z;
  in_ar : Z;
  in_sing : Z;
  in_maxline : option Z;
  in_coupling : Z;
  in_force : bool;
  in_iter : Z;
  in_nbh : Z;
}.

(** The arguments passed by non-const reference: [fc_to_cc],
    [agglomerationLines_Idx], [agglomerationLines]. *)
Record outs := Outs {
  o_fc2cc : list nat;
  o_idx : list nat;
  o_lines : list nat;
}.

(** CoMMA.h:47 *)
Definition iter_agglo_max_iter := 4%Z.

Section main.
Context {A : Arith} {H : HashOrder}.
Implicit Types (i : input) (o : outs).

Definition check (b : bool) (k : chk) : res unit :=
  if b then Err (EInvalid k) else Ok ().

(** CoMMA.h:198-275: the checks made before anything else, in order.  The
    three parts of the condition on the CSR vectors (lines 219-223) throw the
    same exception; they are told apart by their codes.  Returns whether
    anisotropy is still on (line 259). *)
Definition sanity i o : res bool :=
  _ ← check (negb (bool_decide (in_dim i = 2%Z) || bool_decide (in_dim i = 3%Z))) KDim;
  _ ← check (bool_decide (in_min i <= 1)%Z || bool_decide (in_goal i <= 1)%Z
             || bool_decide (in_max i <= 1)%Z) KCard;
  _ ← check (negb (bool_decide (in_min i <= in_goal i)%Z
                   && bool_decide (in_goal i <= in_max i)%Z)) KCardOrder;
  _ ← check (bool_decide (in_iter i < 1)%Z) KIterMin;
  _ ← check (bool_decide (iter_agglo_max_iter < in_iter i)%Z) KIterMax;
  nnz ← match last (in_row i) with
        | Some b => Ok b
        | None => Err (EInvalid KCSREmpty)
        end;
  _ ← check (negb (bool_decide (nnz = length (in_col i)))) KCSRCol;
  _ ← check (negb (bool_decide (nnz = length (in_val i)))) KCSRVal;
  aniso ← (if in_aniso i && negb (in_build i) then
             match last (o_idx o) with
             | Some b =>
                 if bool_decide (length (o_idx o) < 2) || bool_decide (o_lines o = [])
                 then Ok false
                 else _ ← check (negb (bool_decide (b = length (o_lines o)))) KLines;
                      Ok true
             | None => Ok false
             end
           else Ok (in_aniso i));
  _ ← check (bool_decide (in_sing i <= 0)%Z) KSing;
  Ok aniso.

(** CoMMA.h:227-250: the fix-ups of the anisotropic arguments. *)
Definition max_line i : option Z :=
  match in_maxline i with
  | Some m => if in_aniso i && in_build i && bool_decide (m <= 0)%Z then None
              else Some m
  | None => None
  end.
(** Any value but [MIN_DISTANCE] (1) selects [MAX_WEIGHT]; when the lines are
    not built the coupling is not used. *)
Definition aniso_params_of i : aniso_params :=
  AnisoP (in_odd i) (max_line i) (bool_decide (in_coupling i = 1%Z)) (in_force i).

(** CoMMA.h:276-282. *)
Definition sing_thresh i : Z :=
  if bool_decide (in_min i <= in_sing i)%Z then (in_min i - 1)%Z else in_sing i.

(** CoMMA.h:292-300. *)
Definition fixed_bnd i : list Z :=
  map (λ n, if bool_decide (in_dim i < n)%Z then in_dim i else n) (in_bnd i).

(** CoMMA.h:306-333; CoMMADefs.h:47-62. *)
Definition pool_of i : res pool :=
  match in_order i with
  | 0 => Ok (pool_new true false)
  | 1 => Ok (pool_new false false)
  | 10 => Ok (pool_new true true)
  | 11 => Ok (pool_new false true)
  | _ => Err (EInvalid KSeedsPool)
  end%Z.

(** CoMMA.h:286, 339-349. *)
Definition graph_of i : graph :=
  Graph _ (length (in_row i) - 1) (in_row i) (in_col i) (in_val i) (in_vol i)
    (in_cen i) (fixed_bnd i) (list_to_set (in_compl i))
    (bool_decide (in_dim i = 2%Z)).

(** CoMMA.h:405-429 and 1025-1067 of Agglomerator.h.  Any neighbourhood type
    but [EXTENDED] (0) selects the pure front (Agglomerator.h:910-913). *)
Definition iso_params_of i : res iso_params :=
  match ar_of_Z (in_ar i) (in_dim i) with
  | None => Err (EInvalid KAR)
  | Some k =>
      Ok (set_agglomeration_parameter
            (IsoP (in_dim i) 0 0 0 k (negb (bool_decide (in_nbh i = 0%Z)))
               (in_iter i) (bool_decide (1 < in_iter i)%Z))
            (in_goal i) (in_min i) (in_max i))
  end.

(** CoMMA.h:436-443: filling [fc_to_cc]; [value()] throws on an empty optional
    after the previous ones have been written. *)
Fixpoint fill (v : list (option nat)) : list nat * res unit :=
  match v with
  | [] => ([], Ok ())
  | Some c :: v => let '(l, r) := fill v in (c :: l, r)
  | None :: _ => ([], Err EBadOptional)
  end.

(** What happens before the output arguments are touched. *)
Definition phase1 i o : res (container * pool * option (list (list nat))) :=
  aniso ← sanity i o;
  p ← pool_of i;
  let g := graph_of i in
  let ct := cont_new (g_n g) (sing_thresh i) in
  if aniso : bool then
    let ap := aniso_params_of i in
    lines ← lines_of (in_build i) ap g (in_prio i) (in_thr i) (o_idx o) (o_lines o);
    r ← aniso_agglomerate ap g (in_prio i) lines ct p;
    let '(ct, p, out) := r in
    Ok (ct, p, Some out)
  else
    p ← pool_initialize (in_prio i) (g_bnd g) p; Ok (ct, p, None).

(** CoMMA.h:402-433. *)
Definition phase2 i (ct : container) (p : pool) : res container :=
  ip ← iso_params_of i;
  iso_agglomerate ip (graph_of i) (in_prio i) (in_corr i) ct p.

(** CoMMA.h:137-444 [agglomerate_one_level].  Given the values of the reference
    arguments at the call, returns their values at exit (normal or not) and
    the outcome.  The wrapper taking structures (CoMMA.h:471-511) passes its
    arguments unchanged. *)
Definition agglomerate_one_level i o : outs * res unit :=
  match phase1 i o with
  | Err e => (o, Err e)
  | Ok (ct, p, lines) =>
      let o := match lines with
               | None => o
               | Some l => let '(idx, cells) := export_lines l in
                           Outs (o_fc2cc o) idx cells
               end in
      match phase2 i ct p with
      | Err e => (o, Err e)
      | Ok ct =>
          let '(l, r) := fill (ct_fc2cc ct) in
          (Outs l (o_idx o) (o_lines o), r)
      end
  end.

End main.
