(** * Features: cell features and aspect-ratio computers
    (include/CoMMA/ARComputer.h) *)

From Verif Require Export Graph.

(** CoMMADefs.h:73-100 [CoMMAAspectRatioT] together with the template argument
    [dim] selected by the constructor of [Agglomerator_Isotropic]
    (Agglomerator.h:915-1010). *)
Inductive ar_kind :=
  | DiamOverRadius (is2d : bool)
  | DiamOverMinEdge
  | Diameter
  | OverMeasure
  | OverInternal
  | PerimOverRadius (is2d : bool)
  | ExternalW
  | MaxBaryOverRadius (is2d : bool)
  | MaxOverMinBary
  | AlgPerimOverMeasure.

(** Agglomerator.h:915-1010: the [switch] on the aspect ratio; [None] is the
    [default:] branch, which throws. *)
Definition ar_of_Z (z dim : Z) : option ar_kind :=
  let is2d := bool_decide (dim = 2)%Z in
  match z with
  | 0 => Some (DiamOverRadius is2d)
  | 1 => Some DiamOverMinEdge
  | 2 => Some Diameter
  | 3 => Some OverMeasure
  | 4 => Some OverInternal
  | 5 => Some (PerimOverRadius is2d)
  | 6 => Some ExternalW
  | 7 => Some (MaxBaryOverRadius is2d)
  | 8 => Some MaxOverMinBary
  | 9 => Some AlgPerimOverMeasure
  | _ => None
  end%Z.

(** ARComputer.h:36-65 [CellFeatures]. *)
Record feats `{Arith} := Feats {
  f_meas : W;
  f_ext : W;
  f_int : W;
  f_nint : Z;
  f_sqmin : W;
  f_sqdiam : W;
  f_sum : list W;
  f_facets : gmap nat Z;
}.

Section features.
Context {A : Arith} {H : HashOrder}.
Implicit Types (g : graph) (f : feats).

(** ARComputer.h:82-100: the default constructor. *)
Definition feats_default : feats :=
  Feats _ wminv w0 w0 0%Z (wmul wmaxv wmaxv) (wmul wminv wminv) [] ∅.

(** ARComputer.h:104-118: features of a single cell. *)
Definition feats_of_cell g (i : nat) : res feats :=
  vol ← vget (g_vol g) i;
  ext ← estimated_total_weight g i;
  nf ← total_n_faces g i;
  cen ← vget (g_cen g) i;
  Ok (Feats _ vol ext w0 0%Z wmaxv wminv (map (λ x, wmul x vol) cen)
        {[ i := nf ]}).

(** ARComputer.h:218-233 [compute_shared_faces]: the sum of the weights of the
    faces shared with the coarse cell and the set of its cells sharing them. *)
Definition compute_shared_faces g (i : nat) (cc : gset nat)
    : res (W * gset nat) :=
  l ← nbrs_wgts g i;
  Ok (foldl (λ '(sw, sf) '(n, w),
        if bool_decide (n ≠ i) && bool_decide (n ∈ cc)
        then (wadd sw w, {[n]} ∪ sf) else (sw, sf)) (w0, ∅) l).

(** ARComputer.h:242-259 [update_approximated_geometric_features]: new values
    of [_sq_diam] and [_sq_min_edge]. *)
Definition approx_features g (i : nat) f (cc : gset nat) : res (W * W) :=
  c ← vget (g_cen g) i;
  foldM (λ '(md, me) j,
    c' ← vget (g_cen g) j;
    d ← sqdist c c';
    Ok (if wlt md d then d else md, if wlt d me then d else me))
    (hset s_approx cc) (f_sqdiam f, f_sqmin f).

(** ARComputer.h:269-284 [compute_and_update_barycenter]: new [_sum_centers]
    and barycentre.  [new_feats._sum_centers[i]] is read and written for every
    coordinate of the centre of [i]: UB if [_sum_centers] is shorter. *)
Fixpoint bary_loop (sum cen : list W) (vol ovN : W) : res (list W * list W) :=
  match cen, sum with
  | [], _ => Ok (sum, [])
  | _ :: _, [] => Err EUB
  | c :: cen, s :: sum =>
      r ← bary_loop sum cen vol ovN;
      let '(sum', bary) := r in
      let s' := wadd s (wmul vol c) in
      Ok (s' :: sum', wmul s' ovN :: bary)
  end.
Definition update_barycenter g (i : nat) f (cc : gset nat)
    : res (list W * list W) :=
  c ← vget (g_cen g) i;
  vol ← vget (g_vol g) i;
  let ovN := wdiv w1 (wofZ (Z.of_nat (size cc) + 1)) in
  bary_loop (f_sum f) c vol ovN.

(** ARComputer.h:298-325 [update_basic_features<compute_weights,
    update_facets>].  Returns [n_shared_faces] and the new features; features
    which are not touched keep their default-constructed value. *)
Definition update_basic (cw uf : bool) g (i : nat) f (cc : gset nat)
    : res (Z * feats) :=
  vol ← vget (g_vol g) i;
  sh ← compute_shared_faces g i cc;
  let '(sw, sf) := sh in
  let nsf := Z.of_nat (size sf) in
  ext_int ← (if cw then
               tot ← estimated_total_weight g i;
               Ok (wsub (wadd (f_ext f) tot) (wmul (wofZ 2) sw),
                   wadd (f_int f) sw)
             else Ok (f_ext feats_default, f_int feats_default));
  fac ← (if uf then
           m ← foldM (λ m k, v ← mapat m k; Ok (<[k := (v - 1)%Z]> m))
                 (hset s_facets sf) (f_facets f);
           nf ← total_n_faces g i;
           Ok (<[i := (nf - nsf)%Z]> m)
         else Ok ∅);
  Ok (nsf, Feats _ (wadd (f_meas f) vol) (ext_int.1) (ext_int.2)
             (f_nint f + nsf)%Z (f_sqmin feats_default)
             (f_sqdiam feats_default) [] fac).

Definition set_approx f (md me : W) : feats :=
  Feats _ (f_meas f) (f_ext f) (f_int f) (f_nint f) me md (f_sum f) (f_facets f).
Definition set_sum f (s : list W) : feats :=
  Feats _ (f_meas f) (f_ext f) (f_int f) (f_nint f) (f_sqmin f) (f_sqdiam f) s
    (f_facets f).
Definition set_facets f (m : gmap nat Z) : feats :=
  Feats _ (f_meas f) (f_ext f) (f_int f) (f_nint f) (f_sqmin f) (f_sqdiam f)
    (f_sum f) m.

(** Util.h:51-63 [_sq], [_cb]. *)
Definition wsq (x : W) : W := wmul x x.
Definition wcb (x : W) : W := wmul (wmul x x) x.

(** ARComputer.h:336-349 [x_over_radius<dim>] for [dim] 2 and 3. *)
Definition x_over_radius (is2d : bool) (sqx meas : W) : W :=
  if is2d then wdiv sqx meas else wdiv (wcb sqx) (wsq meas).

(** ARComputer.h:812-818: squared distances from the barycentre, maximum. *)
Definition max_bary g (i : nat) (cc : gset nat) (bary : list W) : res W :=
  c ← vget (g_cen g) i;
  d0 ← sqdist bary c;
  foldM (λ m j, c' ← vget (g_cen g) j; d ← sqdist bary c';
                Ok (if wlt m d then d else m)) (hset s_bary cc) d0.

(** [m[k]] on an [unordered_map]: a missing key is inserted with value 0. *)
Definition map_idx (m : gmap nat Z) (k : nat) : Z * gmap nat Z :=
  match m !! k with Some v => (v, m) | None => (0%Z, <[k := 0%Z]> m) end.

(** ARComputer.h:876-901: minimum and maximum (square root) distance from the
    barycentre, skipping totally internal cells and the barycentre itself.
    Returns (min, max, facets). *)
Definition minmax_step (mnmx : W * W) (d : W) : W * W :=
  if wlt wtol d then
    (if wlt d mnmx.1 then d else mnmx.1, if wlt mnmx.2 d then d else mnmx.2)
  else mnmx.
Definition minmax_bary g (i : nat) (cc : gset nat) (bary : list W)
    (m : gmap nat Z) : res ((W * W) * gmap nat Z) :=
  let '(v, m) := map_idx m i in
  init ← (if bool_decide (0 < v)%Z then
            c ← vget (g_cen g) i;
            sq ← sqdist bary c;
            let d := wsqrt sq in
            Ok (if wlt wtol d then (d, d) else (wmaxv, wminv))
          else Ok (wmaxv, wminv));
  foldM (λ '(mm, m) j,
    let '(v, m) := map_idx m j in
    if bool_decide (0 < v)%Z then
      c ← vget (g_cen g) j;
      sq ← sqdist bary c;
      Ok (minmax_step mm (wsqrt sq), m)
    else Ok (mm, m)) (hset s_bary cc) (init, m).

(** The ten [compute_and_update_features] overrides.  Returns the number of
    shared faces, the aspect ratio and the new features.
    - ARDiamOverRadius    ARComputer.h:387-406
    - AROverMeasure       ARComputer.h:441-456
    - ARDiamOverMinEdge   ARComputer.h:492-514
    - ARExternalWeightOverRadius  ARComputer.h:555-597 (dim 1, 2, 3)
    - ARDiameter          ARComputer.h:630-648
    - ARExternalWeights   ARComputer.h:685-700
    - AROverInternalWeights       ARComputer.h:736-751
    - ARMaxBaryDistanceOverRadius ARComputer.h:794-820
    - ARMaxOverMinBaryDistance    ARComputer.h:861-902 *)
Definition compute_features (k : ar_kind) g (i : nat) f (cc : gset nat)
    : res (Z * W * feats) :=
  match k with
  | DiamOverRadius is2d =>
      b ← update_basic false false g i f cc;
      a ← approx_features g i f cc;
      let nf := set_approx b.2 a.1 a.2 in
      Ok (b.1, x_over_radius is2d (f_sqdiam nf) (f_meas nf), nf)
  | OverMeasure =>
      b ← update_basic false false g i f cc;
      Ok (b.1, wdiv w1 (f_meas b.2), b.2)
  | DiamOverMinEdge =>
      b ← update_basic false false g i f cc;
      a ← approx_features g i f cc;
      let nf := set_approx b.2 a.1 a.2 in
      Ok (b.1, if bool_decide (size cc = 1) then f_sqdiam nf
               else wdiv (f_sqdiam nf) (f_sqmin nf), nf)
  | PerimOverRadius is2d =>
      b ← update_basic true false g i f cc;
      let nf := b.2 in
      Ok (b.1, if is2d : bool then wdiv (wsq (f_ext nf)) (f_meas nf)
               else wdiv (wcb (f_ext nf)) (wsq (f_meas nf)), nf)
  | AlgPerimOverMeasure =>
      b ← update_basic true false g i f cc;
      Ok (b.1, wdiv (f_ext b.2) (f_meas b.2), b.2)
  | Diameter =>
      b ← update_basic false false g i f cc;
      a ← approx_features g i f cc;
      let nf := set_approx b.2 a.1 a.2 in
      Ok (b.1, f_sqdiam nf, nf)
  | ExternalW =>
      b ← update_basic true false g i f cc;
      Ok (b.1, f_ext b.2, b.2)
  | OverInternal =>
      b ← update_basic true false g i f cc;
      Ok (b.1, wdiv w1 (f_int b.2), b.2)
  | MaxBaryOverRadius is2d =>
      b ← update_basic false false g i f cc;
      s ← update_barycenter g i f cc;
      let nf := set_sum b.2 s.1 in
      m ← max_bary g i cc s.2;
      Ok (b.1, x_over_radius is2d m (f_meas nf), nf)
  | MaxOverMinBary =>
      b ← update_basic false true g i f cc;
      s ← update_barycenter g i f cc;
      r ← minmax_bary g i cc s.2 (f_facets b.2);
      let nf := set_facets (set_sum b.2 s.1) r.2 in
      Ok (b.1, wdiv (r.1.2) (r.1.1), nf)
  end.

End features.
