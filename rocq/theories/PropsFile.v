(** * PropsFile: Files of meshes (C79, C80) *)

From Verif Require Import Base ToolsM FileM SpecFile FileT Inst FileE.

From Coq Require Import QArith Qcanon Ascii.
From stdpp Require Import strings.
#[local] Open Scope Z_scope.
#[local] Open Scope nat_scope.
#[local] Open Scope list_scope.
#[local] Existing Instance qarith | 100.
#[local] Existing Instance text1 | 100.

(** C79.  A file with the dimension and six lines of numbers: values too many are discarded, missing ones
    are what the vectors held or zero; the row pointer comes after what its vector held. *)
Theorem C79_read_partial : ∀ {A : Arith} {T : Text} (dim : nat) (g : mesh) (row cols : list nat) (vals vols xs : list W) (bnds : list Z) (tdim trow tcol tval tvol tbnd tcen rest : text) (sz : nat),
  dim = 2 ∨ dim = 3 → writes_nat dim tdim →
  line_of writes_nat row trow → line_of writes_nat cols tcol → line_of writes_w vals tval →
  line_of writes_w vols tvol → line_of writes_Z bnds tbnd → line_of writes_w xs tcen →
  last (ms_row g ++ row) = Some sz →
  let nl := ascii_of_nat 10 in
  let nc := length (ms_row g ++ row) - 1 in
  ∃ cen,
    read_mesh (Some (tdim ++ nl :: trow ++ nl :: tcol ++ nl :: tval ++ nl :: tvol ++ nl :: tbnd ++ nl :: tcen ++ nl :: rest)) g =
      Ok (Z.of_nat dim, Mesh (ms_row g ++ row) (put sz 0 cols (ms_col g)) (put sz w0 vals (ms_val g))
                          (put nc w0 vols (ms_vol g)) (put nc 0%Z bnds (ms_bnd g)) cen) ∧
    length cen = nc ∧ Forall (λ c, length c = dim) cen ∧
    concat cen = take (nc * dim) xs ++ drop (length xs) (concat (map (resize dim w0) (resize nc [] (ms_cen g)))).
Proof. exact @C79_lem. Qed.
Print Assumptions C79_read_partial.

Example C79_read_partial_example :
  writes_nat 2 (tx "2") ∧ line_of writes_nat [0; 1; 2] (tx "0,1,2") ∧ line_of writes_nat [1; 0; 7] (tx "1,0,7") ∧
  line_of writes_w [h 2; h 2] (tx "10e-1,10e-1") ∧ line_of writes_w [h 1] (tx "5e-1") ∧
  line_of writes_Z [3; 0]%Z (tx "3,0") ∧ line_of writes_w [h 0; h 2; h 4; h 2] (tx "0e-1,10e-1,20e-1,10e-1") ∧
  last (ms_row old_mesh ++ [0; 1; 2]) = Some 2 ∧
  read_mesh (Some (tx "2
0,1,2
1,0,7
10e-1,10e-1
5e-1
3,0
0e-1,10e-1,20e-1,10e-1
more")) old_mesh =
    Ok (2%Z, Mesh [0; 1; 2] [1; 0] [h 2; h 2] [h 1; qc 8 1] [3; 0]%Z [[h 0; h 2]; [h 4; h 2]]).
Proof. exact @C79_ex. Qed.

(** C79.  Any file: reading ends; the vectors read go together, or the file is refused, or the behaviour is
    undefined (a value which is missing is used). *)
Theorem C79_any_file : ∀ {A : Arith} {T : Text} (file : option text) (g : mesh),
  (∀ t e, wread t = Err e → e = EUB) →
  match read_mesh file g with
  | Ok (dim, m) => (dim = 2 ∨ dim = 3)%Z ∧ mesh_sizes (Z.to_nat dim) m ∧ ms_row g `prefix_of` ms_row m
  | Err e => e = EInvalid KDim ∨ e = EUB
  end.
Proof. exact @C79_any_lem. Qed.
Print Assumptions C79_any_file.

Example C79_any_file_example :
  (∀ t e, wread t = Err e → e = EUB) ∧
  read_mesh (Some (tx "4")) no_mesh = Err (EInvalid KDim) ∧
  read_mesh (Some (tx "2
")) no_mesh = Err EUB ∧
  (∃ m, read_mesh (Some (tx "2
0,1,2
1,0")) no_mesh = Ok (2%Z, m)).
Proof. exact @C79_any_ex. Qed.

(** C79 at full strength fails: the vector of row pointers is not emptied. *)
Theorem C79_append_refuted :
  ∃ (m g m' : mesh) t, mesh_sizes 2 m ∧ read_as_written m ∧ rounded m = m ∧ dump_mesh m = POk t ∧
  read_mesh (Some t) no_mesh = Ok (2%Z, m) ∧ read_mesh (Some t) g = Ok (2%Z, m') ∧ ms_row m' ≠ ms_row m ∧ length (ms_vol m') ≠ length (ms_vol m).
Proof. exact @C79_ref. Qed.
Print Assumptions C79_append_refuted.

(** C80.  What [dump_graph] writes is read back: the same mesh, its weights rounded. *)
Theorem C80_read_back_partial : ∀ {A : Arith} {T : Text} (dim : nat) (m g : mesh),
  dim = 2 ∨ dim = 3 → mesh_sizes dim m → ms_cen m ≠ [] → read_as_written m → ms_row g = [] →
  ∃ t, dump_mesh m = POk t ∧ read_mesh (Some t) g = Ok (Z.of_nat dim, rounded m).
Proof. exact @C80_lem. Qed.
Print Assumptions C80_read_back_partial.

Example C80_read_back_partial_example :
  mesh_sizes 2 one_mesh ∧ ms_cen one_mesh ≠ [] ∧ read_as_written one_mesh ∧ ms_row no_mesh = [] ∧
  dump_mesh one_mesh = POk one_text.
Proof. exact @C80_ex. Qed.

(** C80 at full strength fails: a positive volume is read back as zero. *)
Theorem C80_rounding_refuted :
  ∃ (m m' : mesh) t, mesh_sizes 2 m ∧ read_as_written m ∧ (∀ v, v ∈ ms_vol m → wlt w0 v = true) ∧
  dump_mesh m = POk t ∧ read_mesh (Some t) no_mesh = Ok (2%Z, m') ∧ w0 ∈ ms_vol m'.
Proof. exact @C80_ref. Qed.
Print Assumptions C80_rounding_refuted.
