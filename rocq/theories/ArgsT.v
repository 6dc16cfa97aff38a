(** * ArgsT: the ways of calling the library agree (C47) *)

From Coq Require Import QArith Qcanon.
From Verif Require Import ArgsM SpecChain Inst ApiE.
#[local] Open Scope Z_scope.
#[local] Open Scope nat_scope.

Section args.
Context {A : Arith} {H : HashOrder}.

Lemma C47_lem (i : input) (o : outs) :
  aol_args
    (graph_ctor (in_row i) (in_col i) (in_val i) (in_vol i) (in_cen i) (in_prio i) (in_bnd i) (in_dim i))
    (agglo_ctor (in_goal i) (in_min i) (in_max i) (in_corr i) (in_order i)
       (Some (in_ar i)) (Some (in_sing i)) (Some (in_iter i)) (Some (in_nbh i)))
    (aniso_ctor (in_aniso i) (in_compl i) (Some (in_build i)) (Some (in_odd i)) (Some (in_thr i))
       (Some (in_maxline i)) (Some (in_coupling i)) (Some (in_force i))) o
  = agglomerate_one_level i o.
Proof. by destruct i. Qed.

Lemma C47_defaults_lem (g : graph_args) row col val vol cen prio compl bnd build aniso odd thr o corr dim goal mn mx order :
  let call ar sing maxl coup dir iter nbh :=
    aol_default row col val vol cen prio compl bnd build aniso odd thr order o corr dim goal mn mx
      ar sing maxl coup dir iter nbh in
  let classes ar sing iter nbh build odd thr maxl coup dir :=
    aol_args g (agglo_ctor goal mn mx corr order ar sing iter nbh)
      (aniso_ctor aniso compl build odd thr maxl coup dir) o in
  (∀ ar sing maxl coup dir iter nbh, call ar sing maxl coup dir iter nbh
    = call (Some (default 0%Z ar)) (Some (default 1%Z sing)) (Some (default None maxl)) (Some (default 0%Z coup))
        (Some (default true dir)) (Some (default 1%Z iter)) (Some (default 0%Z nbh))) ∧
  (∀ ar sing iter nbh build odd thr maxl coup dir, classes ar sing iter nbh build odd thr maxl coup dir
    = classes (Some (default 0%Z ar)) (Some (default 1%Z sing)) (Some (default 1%Z iter)) (Some (default 0%Z nbh))
        (Some (default true build)) (Some (default true odd)) (Some (default (wofZ 4) thr))
        (Some (default None maxl)) (Some (default 0%Z coup)) (Some (default true dir))).
Proof. done. Qed.

Lemma C47_python_defaults_lem row col val vol cen prio compl bnd build aniso odd thr order idx lines corr dim goal mn mx
    ar sing maxl coup dir iter nbh :
  let call := py_aol row col val vol cen prio compl bnd build aniso odd thr order idx lines corr dim goal mn mx in
  call ar sing maxl coup dir iter nbh
  = call (Some (default 0%Z ar)) (Some (default 1%Z sing)) (Some (default None maxl)) (Some (default 0%Z coup))
      (Some (default true dir)) (Some (default 1%Z iter)) (Some (default 0%Z nbh)).
Proof. done. Qed.

Lemma phase1_outs i f o : phase1 i (Outs f (o_idx o) (o_lines o)) = phase1 i o.
Proof. done. Qed.

Lemma C47_python_lem (i : input) (o r : outs) (e : res unit) :
  agglomerate_one_level i o = (r, e) →
  py_aol (in_row i) (in_col i) (in_val i) (in_vol i) (in_cen i) (in_prio i) (in_compl i) (in_bnd i)
    (in_build i) (in_aniso i) (in_odd i) (in_thr i) (in_order i) (o_idx o) (o_lines o) (in_corr i)
    (in_dim i) (in_goal i) (in_min i) (in_max i) (Some (in_ar i)) (Some (in_sing i)) (Some (in_maxline i))
    (Some (in_coupling i)) (Some (in_force i)) (Some (in_iter i)) (Some (in_nbh i))
  = match e with Ok _ => Ok (o_fc2cc r, o_idx r, o_lines r) | Err x => Err x end.
Proof.
  intros E.
  change (py_aol _ _ _ _ _ _ _ _ _ _ _ _ _ _ _ _ _ _ _ _ _ _ _ _ _ _ _) with
    (let c := agglomerate_one_level i (Outs [] (o_idx o) (o_lines o)) in
     match c.2 with Ok _ => Ok (o_fc2cc c.1, o_idx c.1, o_lines c.1) | Err x => Err x end).
  cbv zeta. unfold agglomerate_one_level in *. rewrite phase1_outs.
  destruct (phase1 i o) as [[[ct p] lo]|x].
  - destruct lo as [l|]; [destruct (export_lines l)|]; cbn [o_fc2cc o_idx o_lines] in *;
      (destruct (phase2 i ct p) as [ct'|x]; [|by simplify_eq]).
    all: destruct (fill (ct_fc2cc ct')) as [l' r']; by simplify_eq.
  - by simplify_eq.
Qed.

Lemma C47_python_graph_lem (i : input) f2c :
  py_coarse_graph f2c (in_row i) (in_col i) (in_val i) (in_vol i) (in_cen i) (in_prio i) (in_bnd i)
  = match build_coarse_graph (fine_graph i) f2c with
    | Ok c => Ok (cg_idx c, cg_adj c, cg_wgt c, cg_vol c, cg_cen c, cg_prio c, cg_bnd c)
    | Err x => Err x
    end.
Proof. done. Qed.

Lemma C47_python_tools_lem (idx col wall : list nat) (dist : list Z) (ind : list nat) (bnd allowed : list Z) :
  py_wall_distance idx col wall = wall_distance idx col wall dist ∧
  py_filter_cells ind bnd allowed = filter_cells ind bnd allowed.
Proof.
  split; [|done]. unfold py_wall_distance, wall_distance. destruct idx as [|k l]; [done|].
  assert (∀ d : list Z, map (λ _, (-1)%Z) d = replicate (length d) (-1)%Z) as Hm
    by (intros d; induction d; simpl; by f_equal).
  by rewrite !Hm, !resize_length.
Qed.
End args.

#[local] Existing Instance qarith | 100.
#[local] Existing Instance ord_id | 100.
(** The path of seven cells, with the default arguments. *)
Lemma C47_ex : let i := chain7 true in
  aol_args
    (graph_ctor (in_row i) (in_col i) (in_val i) (in_vol i) (in_cen i) (in_prio i) (in_bnd i) (in_dim i))
    (agglo_ctor 2 2 2 true 0 (Some (in_ar i)) None None None)
    (aniso_ctor false [] None None None None None None) o0
  = (Outs [0;0;1;1;2;2;2] [] [], Ok ()).
Proof. vm_compute. reflexivity. Qed.
Lemma C47_python_ex : let i := chain7 true in
  py_aol (in_row i) (in_col i) (in_val i) (in_vol i) (in_cen i) (in_prio i) [] (in_bnd i)
    false false false (in_thr i) 0 [] [] true (in_dim i) 2 2 2 (Some (in_ar i)) None None None None None None
  = Ok ([0;0;1;1;2;2;2], [], []) ∧
  py_aol (in_row i) (in_col i) (in_val i) (in_vol i) (in_cen i) (in_prio i) [] (in_bnd i)
    false false false (in_thr i) 0 [] [] true 4 2 2 2 None None None None None None None
  = Err (EInvalid KDim).
Proof. split; vm_compute; reflexivity. Qed.
Lemma C47_graph_ex : let i := chain7 true in
  match py_coarse_graph [0;0;1;1;2;2;2] (in_row i) (in_col i) (in_val i) (in_vol i) (in_cen i) (in_prio i) (in_bnd i) with
  | Ok (idx, adj, _, _, _, _, bnd) => idx = [0;1;3;4] ∧ adj = [1;0;2;1] ∧ bnd = [2;1;1]%Z
  | Err _ => False
  end.
Proof. vm_compute. done. Qed.
Lemma C47_tools_ex : py_wall_distance (row_of 0 [[1]; [0; 2]; [1]]) [1; 0; 2; 1] [0] = Ok [0; 1; 2]%Z ∧
  py_filter_cells [0; 1; 3; 4] [2; 1; 1]%Z [3]%Z = Ok [0; 1].
Proof. split; vm_compute; reflexivity. Qed.
