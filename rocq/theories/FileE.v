(** * FileE: examples and counter-examples for files of meshes (C79, C80) *)

From Coq Require Import QArith Qcanon Qround Ascii String.
From stdpp Require Import strings.
From Verif Require Import Inst Base FileM SpecFile FileT.
#[local] Open Scope Z_scope.
#[local] Open Scope nat_scope.
#[local] Open Scope list_scope.
#[local] Existing Instance qarith | 100.

(** Numbers with one decimal ([precision=1], [float_format] with a fixed exponent): one half is
    written [5e-1]. *)
Definition tenths (x : Qc) : Z := Qfloor (this x * (10 # 1) + (1 # 2))%Q.
Definition round1 (x : @W qarith) : @W qarith := qc (tenths x) 10.
Definition show1 (x : @W qarith) : text := show_Z (tenths x) ++ list_ascii_of_string "e-1".
Definition read1 (t : text) : res (@W qarith) := z ← read_Z t; Ok (qc z 10).
#[local] Instance text1 : @Text qarith := {|
  wround := λ x, round1 x;
  wshow := λ x, show1 x;
  wread := λ t, read1 t;
|}.

Lemma writes_check (x : W) f : bool_decide (plain f) = true → wread f = Ok x → writes_w x f.
Proof. intros H E. split; [by apply bool_decide_eq_true in H|done]. Qed.

Lemma line_join {U} (ok : U → text → Prop) l fs : Forall2 ok l fs → line_of ok l (joinc fs).
Proof. intros H. exists fs. split; [apply joinc_csv|done]. Qed.

Lemma digit_ok d : d < 10 → writes_nat d [digit d].
Proof. intros Hd. exists [d]. split_and!; [done|done|by apply Forall_singleton|cbn; lia]. Qed.

Definition tx (s : string) : text := list_ascii_of_string s.
Definition no_mesh : mesh := Mesh [] [] [] [] [] [].
Definition old_mesh : mesh := Mesh [] [5; 5; 5] [] [qc 9 1; qc 8 1; qc 7 1] [] [].
Definition h (z : Z) : Qc := qc (5 * z) 10.

(** A neighbour too many, a volume missing: the vector keeps what it held.  Lines after the last one are not read. *)
Lemma C79_ex :
  writes_nat 2 (tx "2") ∧ line_of writes_nat [0; 1; 2] (tx "0,1,2") ∧ line_of writes_nat [1; 0; 7] (tx "1,0,7") ∧
  line_of writes_w [h 2; h 2] (tx "10e-1,10e-1") ∧ line_of writes_w [h 1] (tx "5e-1") ∧
  line_of writes_Z [3; 0]%Z (tx "3,0") ∧ line_of writes_w [h 0; h 2; h 4; h 2] (tx "0e-1,10e-1,20e-1,10e-1") ∧
  last (ms_row old_mesh ++ [0; 1; 2]) = Some 2 ∧
  read_mesh (Some (tx "2
0,1,2
1,0,7
10e-1,10e-1
5e-1
3,0
0e-1,10e-1,20e-1,10e-1
more")) old_mesh =
    Ok (2%Z, Mesh [0; 1; 2] [1; 0] [h 2; h 2] [h 1; qc 8 1] [3; 0]%Z [[h 0; h 2]; [h 4; h 2]]).
Proof.
  split_and!.
  - apply (digit_ok 2). lia.
  - apply (line_join _ _ [tx "0"; tx "1"; tx "2"]).
    do 3 (constructor; [match goal with |- writes_nat ?d _ => apply (digit_ok d) end; lia|]). constructor.
  - apply (line_join _ _ [tx "1"; tx "0"; tx "7"]).
    do 3 (constructor; [match goal with |- writes_nat ?d _ => apply (digit_ok d) end; lia|]). constructor.
  - apply (line_join _ _ [tx "10e-1"; tx "10e-1"]). repeat (constructor; [apply writes_check; vm_compute; reflexivity|]). constructor.
  - apply (line_join _ _ [tx "5e-1"]). repeat (constructor; [apply writes_check; vm_compute; reflexivity|]). constructor.
  - apply (line_join _ _ [tx "3"; tx "0"]).
    constructor; [left; exists 3; split; [done|]; apply (digit_ok 3); lia|].
    constructor; [left; exists 0; split; [done|]; apply (digit_ok 0); lia|]. constructor.
  - apply (line_join _ _ [tx "0e-1"; tx "10e-1"; tx "20e-1"; tx "10e-1"]).
    repeat (constructor; [apply writes_check; vm_compute; reflexivity|]). constructor.
  - done.
  - vm_compute. reflexivity.
Qed.

(** The three outcomes. *)
Lemma C79_any_ex : (∀ t e, wread t = Err e → e = EUB) ∧
  read_mesh (Some (tx "4")) no_mesh = Err (EInvalid KDim) ∧
  read_mesh (Some (tx "2
")) no_mesh = Err EUB ∧
  (∃ m, read_mesh (Some (tx "2
0,1,2
1,0")) no_mesh = Ok (2%Z, m)).
Proof.
  split_and!; [|vm_compute; reflexivity..|eexists; vm_compute; reflexivity].
  intros t e. cbn [wread text1]. unfold read1. destruct (read_Z t) eqn:E; cbn [mbind res_bind]; [done|]. intros [= <-]. by eapply read_Z_err.
Qed.

(** The row pointer is appended to what the vector held. *)
Definition one_mesh : mesh := Mesh [0; 1; 2] [1; 0] [h 2; h 2] [h 1; h 3] [3; -1]%Z [[h 0; h 2]; [h 4; h 2]].
Definition one_text : text := tx "2
0,1,2
1,0
10e-1,10e-1
5e-1,15e-1
3,-1
0e-1,10e-1,20e-1,10e-1
".
Lemma one_sizes : mesh_sizes 2 one_mesh.
Proof. constructor; [reflexivity..|repeat constructor]. Qed.
Lemma one_written : read_as_written one_mesh.
Proof.
  intros x Hx. assert (x ∈ [h 2; h 2; h 1; h 3; h 0; h 2; h 4; h 2]) as Hin by (cbn in Hx; set_solver).
  repeat (apply elem_of_cons in Hin as [->|Hin]; [apply writes_check; vm_compute; reflexivity|]). by apply elem_of_nil in Hin.
Qed.
Definition two_mesh : mesh :=
  Mesh [0; 1; 2; 0; 1; 2] [1; 0] [h 2; h 2] [h 1; h 3; qc 0 1; qc 0 1; qc 0 1] [3; -1; 0; 0; 0]%Z
    [[h 0; h 2]; [h 4; h 2]; [qc 0 1; qc 0 1]; [qc 0 1; qc 0 1]; [qc 0 1; qc 0 1]].
Lemma C79_ref : ∃ (m g m' : mesh) t, mesh_sizes 2 m ∧ read_as_written m ∧ rounded m = m ∧ dump_mesh m = POk t ∧
  read_mesh (Some t) no_mesh = Ok (2%Z, m) ∧ read_mesh (Some t) g = Ok (2%Z, m') ∧ ms_row m' ≠ ms_row m ∧ length (ms_vol m') ≠ length (ms_vol m).
Proof.
  exists one_mesh, one_mesh, two_mesh, one_text.
  split; [exact one_sizes|]. split; [exact one_written|].
  split; [vm_compute; reflexivity|]. split; [vm_compute; reflexivity|]. split; [vm_compute; reflexivity|].
  split; [vm_compute; reflexivity|]. split; cbn [ms_row ms_vol one_mesh two_mesh length]; [discriminate|lia].
Qed.

Lemma C80_ex : mesh_sizes 2 one_mesh ∧ ms_cen one_mesh ≠ [] ∧ read_as_written one_mesh ∧ ms_row no_mesh = [] ∧
  dump_mesh one_mesh = POk one_text.
Proof.
  split; [exact one_sizes|]. split; [discriminate|]. split; [exact one_written|]. split; [done|]. vm_compute. reflexivity.
Qed.

(** A small volume is rounded to zero. *)
Definition small_mesh : mesh := Mesh [0; 1; 2] [1; 0] [h 2; h 2] [h 1; qc 1 100] [3; 3]%Z [[h 0; h 2]; [h 4; h 2]].
Lemma C80_ref : ∃ (m m' : mesh) t, mesh_sizes 2 m ∧ read_as_written m ∧ (∀ v, v ∈ ms_vol m → wlt w0 v = true) ∧
  dump_mesh m = POk t ∧ read_mesh (Some t) no_mesh = Ok (2%Z, m') ∧ w0 ∈ ms_vol m'.
Proof.
  exists small_mesh, (Mesh (A:=qarith) [0; 1; 2] [1; 0] [h 2; h 2] [h 1; h 0] [3; 3]%Z [[h 0; h 2]; [h 4; h 2]]), (tx "2
0,1,2
1,0
10e-1,10e-1
5e-1,0e-1
3,3
0e-1,10e-1,20e-1,10e-1
").
  split; [constructor; [reflexivity..|repeat constructor]|]. split.
  { intros x Hx. assert (x ∈ [h 2; h 2; h 1; qc 1 100; h 0; h 2; h 4; h 2]) as Hin by (cbn in Hx; set_solver).
    repeat (apply elem_of_cons in Hin as [->|Hin]; [apply writes_check; vm_compute; reflexivity|]). by apply elem_of_nil in Hin. }
  split.
  { intros v Hin. cbn in Hin.
    repeat (apply elem_of_cons in Hin as [->|Hin]; [vm_compute; reflexivity|]). by apply elem_of_nil in Hin. }
  split; [vm_compute; reflexivity|]. split; [vm_compute; reflexivity|].
  cbn [ms_vol]. apply elem_of_cons. right. apply elem_of_list_singleton. by apply Qc_is_canon.
Qed.
