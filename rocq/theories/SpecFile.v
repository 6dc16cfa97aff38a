(** * SpecFile: vocabulary for files of meshes (C79, C80) *)

From Coq Require Import Ascii.
From stdpp Require Import strings.
From Verif Require Import Base FileM.
#[local] Open Scope Z_scope.
#[local] Open Scope nat_scope.

(** A text with something in it, neither commas nor ends of lines. *)
Definition plain (f : text) : Prop := f ≠ [] ∧ ascii_of_nat 44 ∉ f ∧ ascii_of_nat 10 ∉ f.

(** The text [t] is made of [fs] with a comma between each and the next. *)
Inductive csv : list text → text → Prop :=
  | csv_nil : csv [] []
  | csv_one f : csv [f] f
  | csv_more f g fs t : csv (g :: fs) t → csv (f :: g :: fs) (f ++ ascii_of_nat 44 :: t).

(** Decimal numerals. *)
Definition writes_nat (n : nat) (f : text) : Prop :=
  ∃ ds, f = map (λ d, ascii_of_nat (48 + d)) ds ∧ ds ≠ [] ∧ Forall (λ d, d < 10) ds ∧ n = foldl (λ a d, 10 * a + d) 0 ds.
Definition writes_Z (z : Z) (f : text) : Prop :=
  (∃ n, z = Z.of_nat n ∧ writes_nat n f) ∨ ∃ n f', f = ascii_of_nat 45 :: f' ∧ z = (- Z.of_nat n)%Z ∧ writes_nat n f'.

(** The line [t] holds the values [l], [ok x f] telling that [f] stands for [x]. *)
Definition line_of {U} (ok : U → text → Prop) (l : list U) (t : text) : Prop :=
  ∃ fs, csv fs t ∧ Forall2 ok l fs.

(** [l] put in a vector of [n] elements which held [old]: more elements are discarded, missing ones
    are what the vector held, or zero. *)
Definition put {U} (n : nat) (zero : U) (l old : list U) : list U :=
  take n l ++ drop (length l) (resize n zero old).

Section spec.
Context {A : Arith} {T : Text}.

Definition writes_w (x : W) (f : text) : Prop := plain f ∧ wread f = Ok x.

(** The vectors of a mesh go together. *)
Record mesh_sizes (dim : nat) (m : mesh) : Prop := {
  mz_row : last (ms_row m) = Some (length (ms_col m));
  mz_val : length (ms_val m) = length (ms_col m);
  mz_vol : S (length (ms_vol m)) = length (ms_row m);
  mz_bnd : S (length (ms_bnd m)) = length (ms_row m);
  mz_cen : S (length (ms_cen m)) = length (ms_row m);
  mz_dim : Forall (λ c, length c = dim) (ms_cen m);
}.

(** All the weights, rounded. *)
Definition rounded (m : mesh) : mesh :=
  Mesh (ms_row m) (ms_col m) (map wround (ms_val m)) (map wround (ms_vol m)) (ms_bnd m) (map (map wround) (ms_cen m)).

(** What is written for the weights of the mesh, rounded, is read as the same numbers. *)
Definition read_as_written (m : mesh) : Prop :=
  ∀ x, x ∈ ms_val m ∨ x ∈ ms_vol m ∨ x ∈ concat (ms_cen m) → writes_w (wround x) (wshow (wround x)).

(** The Python function applied to a mesh. *)
Definition dump_mesh (m : mesh) : pyres text :=
  py_dump (ms_row m) (ms_col m) (ms_val m) (ms_vol m) (ms_bnd m) (ms_cen m).
End spec.
