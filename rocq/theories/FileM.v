(** * FileM: meshes in files

    [dump_graph] of examples/scripts/comma_tools.py, which writes a mesh in a
    file, and [read_mesh_from_file] of misc_scripts/test_util.h, which reads it. *)

From Coq Require Import Ascii.
From stdpp Require Import strings.
From Verif Require Export ToolsM.
#[local] Open Scope Z_scope.
#[local] Open Scope nat_scope.

Notation text := (list ascii).
Definition comma : ascii := ascii_of_nat 44.
Definition newline : ascii := ascii_of_nat 10.
Definition minus : ascii := ascii_of_nat 45.
Definition plus : ascii := ascii_of_nat 43.

(** ** Integers *)

Definition digit (d : nat) : ascii := ascii_of_nat (48 + d).
Definition digit_val (c : ascii) : option nat :=
  let k := nat_of_ascii c in
  if bool_decide (48 ≤ k ∧ k < 58) then Some (k - 48) else None.

(** Python's [str] of an integer. *)
Fixpoint show_fuel (fuel n : nat) : text :=
  match fuel with
  | O => []
  | S fuel => (if bool_decide (n < 10) then [] else show_fuel fuel (n / 10)) ++ [digit (n mod 10)]
  end.
Definition show_nat (n : nat) : text := show_fuel (S n) n.
Definition show_Z (z : Z) : text :=
  if bool_decide (z < 0)%Z then minus :: show_nat (Z.abs_nat z) else show_nat (Z.abs_nat z).

(** [std::istringstream >> num], test_util.h:30-36: blanks are skipped, then the
    sign and the digits are taken.  If there is nothing, [num] is not written and
    its value is undefined; if there is no digit it is 0.  In the code the stream
    is [const], which the compiler does not accept when the template is used:
    the model is for a stream which is not.  Numbers which do not fit are not
    modelled. *)
Definition is_blank (c : ascii) : bool :=
  let k := nat_of_ascii c in bool_decide (k = 32 ∨ 9 ≤ k ∧ k ≤ 13).
Fixpoint skip_blanks (t : text) : text :=
  match t with c :: t' => if is_blank c then skip_blanks t' else t | [] => [] end.
Fixpoint read_digits (acc : nat) (t : text) : nat :=
  match t with
  | [] => acc
  | c :: t => match digit_val c with Some d => read_digits (10 * acc + d) t | None => acc end
  end.
Definition read_Z (t : text) : res Z :=
  match skip_blanks t with
  | [] => Err EUB
  | c :: t' =>
      if bool_decide (c = minus) then Ok (- Z.of_nat (read_digits 0 t'))%Z
      else if bool_decide (c = plus) then Ok (Z.of_nat (read_digits 0 t'))
      else Ok (Z.of_nat (read_digits 0 (c :: t')))
  end.
(** Unsigned: a negative number wraps around. *)
Definition read_nat (t : text) : res nat :=
  z ← read_Z t; Ok (if bool_decide (z < 0)%Z then Z.to_nat (z + 2 ^ 64)%Z else Z.to_nat z).

(** ** Weights

    How numbers are rounded ([np.round]), written ([tofile]) and read is not
    modelled: any functions. *)
Class Text {A : Arith} := {
  wround : W → W;
  wshow : W → text;
  wread : text → res W;
}.

(** ** [dump_graph], comma_tools.py:133-189

    [precision] is in [wround]; the formats are the default ones.  The indices are
    not negative. *)

(** [tofile] with [sep=","]. *)
Fixpoint joinc (l : list text) : text :=
  match l with [] => [] | [x] => x | x :: l => x ++ comma :: joinc l end.

(** Lines 169-189.  Rows of different lengths are no array ([ValueError]); the array
    made of no row has one dimension only ([IndexError]). *)
Definition py_dump {A : Arith} {T : Text} (row col : list nat) (val vol : list W) (bnd : list Z) (cen : list (list W)) : pyres text :=
  let dim := default 0 (length <$> head cen) in
  if bool_decide (Forall (λ c, length c = dim) cen) then
    match cen with
    | [] => PRaise IndexError
    | _ => POk (show_nat dim ++ [newline] ++
                joinc (map show_nat row) ++ [newline] ++
                joinc (map show_nat col) ++ [newline] ++
                joinc (map (λ x, wshow (wround x)) val) ++ [newline] ++
                joinc (map (λ x, wshow (wround x)) vol) ++ [newline] ++
                joinc (map show_Z bnd) ++ [newline] ++
                joinc (map (λ x, wshow (wround x)) (concat cen)) ++ [newline])
    end
  else PRaise ValueError.

(** ** [read_mesh_from_file], test_util.h:67-158 *)

(** A stream: what remains, and whether neither [eofbit] nor [failbit] is set. *)
Record stream := Stream { st_rest : text; st_good : bool }.

(** What comes before the first [d], and what comes after it if there is one. *)
Fixpoint split_at (d : ascii) (t : text) : text * option text :=
  match t with
  | [] => ([], None)
  | c :: t => if bool_decide (c = d) then ([], Some t) else let '(a, b) := split_at d t in (c :: a, b)
  end.

(** [getline(stream, str, d)]: the stream, the string (which is left as it is if the
    stream is not good at the beginning), the result as a condition. *)
Definition getline (d : ascii) (s : stream) (old : text) : stream * text * bool :=
  if st_good s then
    match st_rest s with
    | [] => (Stream [] false, [], false)
    | t => match split_at d t with
           | (a, Some b) => (Stream b true, a, true)
           | (a, None) => (Stream [] false, a, true)
           end
    end
  else (s, old, false).

Section read.
Context {A : Arith} {T : Text}.

(** [while (getline(ssline, val, ',')) v.push_back(convert_to(val))] (lines 96-99). *)
Fixpoint rd_push {U} (rd : text → res U) (fuel : nat) (s : stream) (v : list U) : res (list U) :=
  match fuel with
  | O => Err EFuel
  | S fuel =>
      match getline comma s [] with
      | (s, a, true) => x ← rd a; rd_push rd fuel s (v ++ [x])
      | _ => Ok v
      end
  end.

(** [while (getline(ssline, val, ',') && idx < sz) v[idx++] = convert_to(val)]
    (lines 103-109, 112-118, 122-128, 131-137). *)
Fixpoint rd_fill {U} (rd : text → res U) (sz : nat) (fuel : nat) (s : stream) (idx : nat) (v : list U) : res (list U) :=
  match fuel with
  | O => Err EFuel
  | S fuel =>
      match getline comma s [] with
      | (s, a, true) =>
          if bool_decide (idx < sz) then x ← rd a; v ← vset v idx x; rd_fill rd sz fuel s (S idx) v else Ok v
      | _ => Ok v
      end
  end.

(** The centres (lines 140-152). *)
Fixpoint rd_cen (dim nc : nat) (fuel : nat) (s : stream) (idx k : nat) (v : list (list W)) : res (list (list W)) :=
  match fuel with
  | O => Err EFuel
  | S fuel =>
      match getline comma s [] with
      | (s, a, true) =>
          if bool_decide (idx < nc) then
            x ← wread a;
            c ← vget v idx;
            c ← vset c k x;
            v ← vset v idx c;
            if bool_decide (S k = dim) then rd_cen dim nc fuel s (S idx) 0 v else rd_cen dim nc fuel s idx (S k) v
          else Ok v
      | _ => Ok v
      end
  end.

(** The outputs. *)
Record mesh := Mesh {
  ms_row : list nat;
  ms_col : list nat;
  ms_val : list W;
  ms_vol : list W;
  ms_bnd : list Z;
  ms_cen : list (list W);
}.

(** [getline(file, line)]. *)
Definition next_line (fl : stream * text) : stream * text :=
  let '(s, l, _) := getline newline fl.1 fl.2 in (s, l).

(** [file] is what the file holds, if there is one; [g] is what the output vectors
    hold before.  The dimension is returned first. *)
Definition read_mesh (file : option text) (g : mesh) : res (Z * mesh) :=
  match file with
  | None => Err (EInvalid KDim)
  | Some t =>
      let fl := next_line (Stream t true, []) in
      dim ← read_Z fl.2;
      if bool_decide (dim = 2 ∨ dim = 3)%Z then
        let fl := next_line fl in
        row ← rd_push read_nat (S (length fl.2)) (Stream fl.2 true) (ms_row g);
        sz ← match last row with Some k => Ok k | None => Err EUB end;
        let fl := next_line fl in
        col ← rd_fill read_nat sz (S (length fl.2)) (Stream fl.2 true) 0 (resize sz 0 (ms_col g));
        let fl := next_line fl in
        val ← rd_fill wread sz (S (length fl.2)) (Stream fl.2 true) 0 (resize sz w0 (ms_val g));
        let nc := length row - 1 in
        let fl := next_line fl in
        vol ← rd_fill wread nc (S (length fl.2)) (Stream fl.2 true) 0 (resize nc w0 (ms_vol g));
        let fl := next_line fl in
        bnd ← rd_fill read_Z nc (S (length fl.2)) (Stream fl.2 true) 0 (resize nc 0%Z (ms_bnd g));
        let fl := next_line fl in
        cen ← rd_cen (Z.to_nat dim) nc (S (length fl.2)) (Stream fl.2 true) 0 0
                (map (resize (Z.to_nat dim) w0) (resize nc [] (ms_cen g)));
        Ok (dim, Mesh row col val vol bnd cen)
      else Err (EInvalid KDim)
  end.

End read.
