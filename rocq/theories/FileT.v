(** * FileT: reading and writing meshes (C79, C80) *)

From Coq Require Import Ascii.
From stdpp Require Import strings.
From Verif Require Import Base Lib FileM SpecFile.
#[local] Open Scope Z_scope.
#[local] Open Scope nat_scope.

(** ** Numerals *)

Lemma digit_val_digit d : d < 10 → digit_val (digit d) = Some d.
Proof. intros Hd. do 10 (destruct d as [|d]; [reflexivity|]). lia. Qed.

Lemma digit_plain d : d < 10 → is_blank (digit d) = false ∧ digit d ≠ minus ∧ digit d ≠ plus ∧ digit d ≠ comma ∧ digit d ≠ newline.
Proof. intros Hd. do 10 (destruct d as [|d]; [by vm_compute|]). lia. Qed.

Lemma read_digits_ok ds acc : Forall (λ d, d < 10) ds →
  read_digits acc (map digit ds) = foldl (λ a d, 10 * a + d) acc ds.
Proof.
  intros Hd. revert acc. induction Hd as [|d ds Hd _ IH]; intros acc; [done|].
  cbn [map read_digits foldl]. rewrite digit_val_digit by done. apply IH.
Qed.

Lemma writes_nat_plain n f : writes_nat n f → plain f.
Proof.
  intros (ds & -> & Hne & Hd & _). split; [by destruct ds|].
  split; intros (d & E & Hin)%elem_of_list_fmap;
    destruct (digit_plain d) as (_ & _ & _ & H1 & H2); try (by rewrite Forall_forall in Hd; apply Hd); done.
Qed.
Lemma writes_Z_plain z f : writes_Z z f → plain f.
Proof.
  intros [(n & _ & H)|(n & f' & -> & _ & H)]; [by eapply writes_nat_plain|].
  apply writes_nat_plain in H as (_ & H1 & H2). split_and!; [done| |].
  - intros [E|E]%elem_of_cons; [discriminate E|done].
  - intros [E|E]%elem_of_cons; [discriminate E|done].
Qed.

Lemma read_writes_nat n f : writes_nat n f → read_Z f = Ok (Z.of_nat n).
Proof.
  intros (ds & -> & Hne & Hd & ->). destruct ds as [|d ds]; [done|].
  pose proof Hd as Hd'. rewrite Forall_cons in Hd'. destruct Hd' as [H1 _].
  destruct (digit_plain d H1) as (H2 & H3 & H4 & _).
  change (map (λ d0, ascii_of_nat (48 + d0)) (d :: ds)) with (digit d :: map digit ds).
  unfold read_Z. cbn [skip_blanks]. rewrite H2.
  rewrite bool_decide_eq_false_2 by done. rewrite bool_decide_eq_false_2 by done.
  change (digit d :: map digit ds) with (map digit (d :: ds)).
  by rewrite read_digits_ok.
Qed.
Lemma read_writes_Z z f : writes_Z z f → read_Z f = Ok z.
Proof.
  intros [(n & -> & H)|(n & f' & -> & -> & H)]; [by apply read_writes_nat|].
  destruct H as (ds & -> & Hne & Hd & ->).
  unfold read_Z. change (ascii_of_nat 45) with minus.
  set (t := map _ ds). change (skip_blanks (minus :: t)) with (minus :: t). subst t. cbn iota.
  rewrite bool_decide_eq_true_2 by done.
  change (map (λ d, ascii_of_nat (48 + d)) ds) with (map digit ds).
  by rewrite read_digits_ok.
Qed.
Lemma read_nat_writes n f : writes_nat n f → read_nat f = Ok n.
Proof.
  intros H. unfold read_nat. rewrite (read_writes_nat _ _ H). cbn [mbind res_bind].
  rewrite bool_decide_eq_false_2 by lia. by rewrite Nat2Z.id.
Qed.

Lemma show_fuel_ok fuel n : n < fuel → ∃ ds, show_fuel fuel n = map digit ds ∧ ds ≠ [] ∧ Forall (λ d, d < 10) ds ∧
  n = foldl (λ a d, 10 * a + d) 0 ds.
Proof.
  revert n. induction fuel as [|fuel IH]; intros n Hn; [lia|]. cbn [show_fuel].
  assert (Hm : n mod 10 < 10) by (apply Nat.mod_upper_bound; lia).
  pose proof (Nat.div_mod n 10 ltac:(lia)) as Hdm.
  case_bool_decide as Hb.
  - exists [n mod 10]. split_and!; [done|done|by apply Forall_singleton|]. cbn [foldl].
    rewrite Nat.mod_small by lia. lia.
  - destruct (IH (n / 10)) as (ds & -> & Hne & Hd & E).
    { assert (n / 10 < n) by (apply Nat.div_lt; lia). lia. }
    exists (ds ++ [n mod 10]). split_and!.
    + by rewrite map_app.
    + by destruct ds.
    + apply Forall_app; split; [done|by apply Forall_singleton].
    + rewrite foldl_app. cbn [foldl]. rewrite <- E. lia.
Qed.
Lemma show_nat_ok n : writes_nat n (show_nat n).
Proof. apply (show_fuel_ok (S n) n). lia. Qed.
Lemma show_Z_ok z : writes_Z z (show_Z z).
Proof.
  unfold show_Z. case_bool_decide as Hz.
  - right. exists (Z.abs_nat z), (show_nat (Z.abs_nat z)). split_and!; [done|lia|apply show_nat_ok].
  - left. exists (Z.abs_nat z). split; [lia|apply show_nat_ok].
Qed.

(** ** Lines *)

Lemma split_at_out d f : d ∉ f → split_at d f = (f, None).
Proof.
  induction f as [|c f IH]; intros Hf; [done|]. cbn [split_at].
  rewrite bool_decide_eq_false_2 by set_solver. rewrite IH by set_solver. done.
Qed.
Lemma split_at_in d f t : d ∉ f → split_at d (f ++ d :: t) = (f, Some t).
Proof.
  induction f as [|c f IH]; intros Hf; cbn [app split_at].
  - by rewrite bool_decide_eq_true_2.
  - rewrite bool_decide_eq_false_2 by set_solver. rewrite IH by set_solver. done.
Qed.

Lemma next_line_ok l rest old : newline ∉ l → next_line (Stream (l ++ newline :: rest) true, old) = (Stream rest true, l).
Proof.
  intros Hl. unfold next_line, getline. cbn [fst snd st_good st_rest].
  destruct (l ++ newline :: rest) eqn:E; [by destruct l|]. rewrite <- E.
  by rewrite split_at_in.
Qed.

(** What remains to be read on a line. *)
Inductive left_on : list text → stream → Prop :=
  | left_none : left_on [] (Stream [] false)
  | left_some fs t : csv fs t → left_on fs (Stream t true).

Lemma getline_field fs f s : left_on (f :: fs) s → Forall plain (f :: fs) →
  ∃ s', getline comma s [] = (s', f, true) ∧ left_on fs s'.
Proof.
  intros Hs Hp. inversion Hs as [|? t Hc]; subst. apply Forall_cons in Hp as [(Hne & Hf & _) _].
  unfold getline. cbn [st_good st_rest].
  inversion Hc as [|? |? g fs' t' Hc']; subst.
  - exists (Stream [] false). destruct t as [|c t]; [done|]. rewrite split_at_out by done. split; [done|constructor].
  - exists (Stream t' true). destruct (f ++ ascii_of_nat 44 :: t') eqn:E; [by destruct f|]. rewrite <- E.
    change (ascii_of_nat 44) with comma. rewrite split_at_in by done. split; [done|by constructor].
Qed.
Lemma getline_end s : left_on [] s → ∃ s' a, getline comma s [] = (s', a, false).
Proof.
  intros Hs. inversion Hs as [|? t Hc]; subst; [by eexists _, _|]. inversion Hc; subst. by eexists _, _.
Qed.

Lemma csv_length fs t : csv fs t → Forall plain fs → length fs ≤ length t.
Proof.
  induction 1 as [|f|f g fs t _ IH]; intros Hp; [done| |].
  - apply Forall_cons in Hp as [(Hne & _) _]. destruct f; [done|]. simpl. lia.
  - apply Forall_cons in Hp as [(Hne & _) Hp]. specialize (IH Hp). rewrite app_length. destruct f; [done|].
    cbn [length] in *. lia.
Qed.
Lemma csv_line fs t : csv fs t → Forall plain fs → newline ∉ t.
Proof.
  induction 1 as [|f|f g fs t _ IH]; intros Hp; [by apply not_elem_of_nil| |].
  - apply Forall_cons in Hp as [(_ & _ & H) _]. done.
  - apply Forall_cons in Hp as [(_ & _ & H) Hp]. specialize (IH Hp).
    intros [E|[E|E]%elem_of_cons]%elem_of_app; [done|discriminate E|done].
Qed.
Lemma joinc_csv fs : csv fs (joinc fs).
Proof.
  induction fs as [|f [|g fs] IH]; [constructor|constructor|]. cbn [joinc] in *. by constructor.
Qed.

Section loops.
Context {U : Type} (rd : text → res U) (ok : U → text → Prop).
Hypothesis ok_plain : ∀ x f, ok x f → plain f.
Hypothesis ok_read : ∀ x f, ok x f → rd f = Ok x.

Lemma line_plain l fs : Forall2 ok l fs → Forall plain fs.
Proof. induction 1; constructor; eauto. Qed.

Lemma rd_push_ok l fs : Forall2 ok l fs → ∀ fuel s v, left_on fs s → length fs < fuel → rd_push rd fuel s v = Ok (v ++ l).
Proof.
  induction 1 as [|x f l fs Hx Hl IH]; intros fuel s v Hs Hf; (destruct fuel as [|fuel]; [lia|]); cbn [rd_push].
  - destruct (getline_end s Hs) as (s' & a & ->). by rewrite app_nil_r.
  - destruct (getline_field _ _ _ Hs) as (s' & -> & Hs'); [constructor; eauto using line_plain|].
    rewrite (ok_read _ _ Hx). cbn [mbind res_bind]. cbn [length] in Hf.
    rewrite IH by (done || lia). by rewrite <- app_assoc.
Qed.

Lemma rd_fill_ok sz l fs : Forall2 ok l fs → ∀ fuel s idx v, left_on fs s → length fs < fuel → length v = sz → idx ≤ sz →
  rd_fill rd sz fuel s idx v = Ok (take idx v ++ take (sz - idx) l ++ drop (idx + length l) v).
Proof.
  induction 1 as [|x f l fs Hx Hl IH]; intros fuel s idx v Hs Hf Hv Hi; (destruct fuel as [|fuel]; [lia|]); cbn [rd_fill].
  - destruct (getline_end s Hs) as (s' & a & ->). rewrite take_nil, Nat.add_0_r. cbn [app]. by rewrite take_drop.
  - destruct (getline_field _ _ _ Hs) as (s' & -> & Hs'); [constructor; eauto using line_plain|].
    case_bool_decide as Hlt.
    + rewrite (ok_read _ _ Hx). cbn [mbind res_bind]. cbn [length] in Hf |- *.
      rewrite vset_ok by lia.
      cbn [mbind res_bind]. rewrite IH; [|done|lia|by rewrite insert_length|lia].
      replace (sz - idx) with (S (sz - S idx)) by lia. cbn [take app].
      rewrite (take_S_r _ _ x) by (apply list_lookup_insert; lia).
      rewrite take_insert by lia. rewrite <- app_assoc. cbn [app].
      rewrite drop_insert_gt by lia. by replace (idx + S (length l)) with (S idx + length l) by lia.
    + replace (sz - idx) with 0 by lia. cbn [take app]. rewrite (drop_ge v) by (cbn [length]; lia).
      rewrite app_nil_r, take_ge by lia. done.
Qed.

Lemma rd_fill_put n z l t old : line_of ok l t →
  rd_fill rd n (S (length t)) (Stream t true) 0 (resize n z old) = Ok (put n z l old).
Proof.
  intros (fs & Hc & Hl). pose proof (line_plain _ _ Hl) as Hp.
  pose proof (csv_length _ _ Hc Hp).
  rewrite (rd_fill_ok n l fs Hl); [|by constructor|lia|by rewrite resize_length|lia].
  cbn [take app]. rewrite Nat.sub_0_r, Nat.add_0_l. done.
Qed.
Lemma line_newline l t : line_of ok l t → newline ∉ t.
Proof. intros (fs & Hc & Hl). eapply csv_line, line_plain; done. Qed.
End loops.

(** ** Centres *)

Lemma concat_insert {U} dim k (v : list (list U)) : Forall (λ c, length c = dim) v → k < dim → ∀ idx c x, v !! idx = Some c →
  concat (<[idx := <[k := x]> c]> v) = <[idx * dim + k := x]> (concat v).
Proof.
  intros Hv Hk. induction Hv as [|c0 v Hc Hv IH]; intros idx c x Hi; [done|].
  destruct idx as [|idx].
  - injection Hi as ->. cbn [concat]. change (<[0 := ?y]> (c :: v)) with (y :: v). cbn [concat].
    rewrite insert_app_l by lia. by rewrite Nat.mul_0_l, Nat.add_0_l.
  - change (<[S idx := ?y]> (c0 :: v)) with (c0 :: <[idx := y]> v). cbn [concat].
    rewrite (IH idx c x Hi). replace (S idx * dim + k) with (length c0 + (idx * dim + k)) by lia.
    by rewrite insert_app_r.
Qed.
Lemma concat_len {U} dim (v : list (list U)) : Forall (λ c, length c = dim) v → length (concat v) = length v * dim.
Proof. induction 1 as [|c v Hc _ IH]; [done|]. cbn [concat length]. rewrite app_length, Hc, IH. lia. Qed.

Section cen.
Context {A : Arith} {T : Text}.

Lemma rd_cen_fill dim nc : 0 < dim → ∀ fuel s idx k v,
  Forall (λ c, length c = dim) v → length v = nc → k < dim → (idx = nc → k = 0) → idx ≤ nc →
  match rd_cen dim nc fuel s idx k v with
  | Ok v' => rd_fill wread (nc * dim) fuel s (idx * dim + k) (concat v) = Ok (concat v') ∧
             Forall (λ c, length c = dim) v' ∧ length v' = nc
  | Err e => rd_fill wread (nc * dim) fuel s (idx * dim + k) (concat v) = Err e
  end.
Proof.
  intros Hd. induction fuel as [|fuel IH]; intros s idx k v Hv Hn Hk Hend Hle; cbn [rd_cen rd_fill]; [done|].
  destruct (getline comma s []) as [[s' a] [|]]; [|by split_and!].
  destruct (decide (idx < nc)) as [Hlt|Hge].
  - assert (idx * dim + k < nc * dim) by nia.
    rewrite (bool_decide_eq_true_2 (idx < nc)), (bool_decide_eq_true_2 (idx * dim + k < nc * dim)) by done.
    destruct (wread a) as [x|e]; cbn [mbind res_bind]; [|done].
    destruct (lookup_lt_is_Some_2 v idx) as [c Hc]; [lia|].
    assert (length c = dim) as Hlc by (rewrite Forall_lookup in Hv; eauto).
    unfold vget. rewrite Hc. cbn [mbind res_bind]. rewrite vset_ok by lia. cbn [mbind res_bind].
    rewrite vset_ok by lia. cbn [mbind res_bind].
    rewrite vset_ok by (rewrite (concat_len dim) by done; lia). cbn [mbind res_bind].
    rewrite <- (concat_insert dim k v Hv Hk idx c x Hc).
    assert (Forall (λ c, length c = dim) (<[idx:=<[k:=x]> c]> v)) as Hv'.
    { apply Forall_insert; [done|]. by rewrite insert_length. }
    case_bool_decide as Hkd.
    + specialize (IH s' (S idx) 0 _ Hv'). rewrite insert_length in IH. specialize (IH Hn Hd (λ _, eq_refl) ltac:(lia)).
      replace (S idx * dim + 0) with (S (idx * dim + k)) in IH by lia. exact IH.
    + specialize (IH s' idx (S k) _ Hv'). rewrite insert_length in IH.
      specialize (IH Hn ltac:(lia) ltac:(lia) ltac:(lia)).
      replace (idx * dim + S k) with (S (idx * dim + k)) in IH by lia. exact IH.
  - assert (idx = nc) as -> by lia. rewrite (Hend eq_refl), Nat.add_0_r.
    rewrite !bool_decide_eq_false_2 by lia. by split_and!.
Qed.

Lemma rows_resize dim (v : list (list W)) : Forall (λ c, length c = dim) (map (resize dim w0) v).
Proof. apply Forall_fmap, Forall_true. intros c. apply resize_length. Qed.
End cen.

(** ** Any text *)

Definition todo (s : stream) : nat := if st_good s then length (st_rest s) else 0.
Lemma split_at_len d t a b : split_at d t = (a, Some b) → length b < length t.
Proof.
  revert a. induction t as [|c t IH]; intros a; cbn [split_at]; [done|]. case_bool_decide.
  - intros E. injection E as <- ->. cbn [length]. lia.
  - destruct (split_at d t) as [a' b'] eqn:E. intros E'. injection E' as <- ->.
    specialize (IH _ eq_refl). cbn [length]. lia.
Qed.
Lemma getline_todo d s old s' a : getline d s old = (s', a, true) → todo s' < todo s.
Proof.
  unfold getline, todo. destruct s as [t [|]]; cbn [st_good st_rest]; [|done].
  destruct t as [|c t]; [done|]. destruct (split_at d (c :: t)) as [a' [b|]] eqn:E; intros E'; injection E' as <- <-; cbn [st_good st_rest].
  - by eapply split_at_len.
  - cbn [length]. lia.
Qed.

Section any.
Context {U : Type} (rd : text → res U).
Lemma rd_push_any fuel s v : todo s < fuel →
  match rd_push rd fuel s v with Ok _ => True | Err e => ∃ t, rd t = Err e end.
Proof.
  revert s v. induction fuel as [|fuel IH]; intros s v Hf; [lia|]. cbn [rd_push].
  destruct (getline comma s []) as [[s' a] [|]] eqn:E; [|done]. apply getline_todo in E.
  destruct (rd a) as [x|e] eqn:Ex; cbn [mbind res_bind]; [apply IH; lia|by exists a].
Qed.
Lemma rd_fill_any sz fuel s idx v : todo s < fuel → length v = sz →
  match rd_fill rd sz fuel s idx v with Ok v' => length v' = sz | Err e => ∃ t, rd t = Err e end.
Proof.
  revert s idx v. induction fuel as [|fuel IH]; intros s idx v Hf Hv; [lia|]. cbn [rd_fill].
  destruct (getline comma s []) as [[s' a] [|]] eqn:E; [|done]. apply getline_todo in E.
  case_bool_decide; [|done].
  destruct (rd a) as [x|e] eqn:Ex; cbn [mbind res_bind]; [|by exists a].
  rewrite vset_ok by lia. cbn [mbind res_bind]. apply IH; [lia|]. by rewrite insert_length.
Qed.
End any.

Lemma read_Z_err t e : read_Z t = Err e → e = EUB.
Proof. unfold read_Z. destruct (skip_blanks t); [by intros [= <-]|]. by repeat case_bool_decide. Qed.
Lemma read_nat_err t e : read_nat t = Err e → e = EUB.
Proof.
  unfold read_nat. destruct (read_Z t) as [z|e'] eqn:E; cbn [mbind res_bind]; [done|]. intros [= <-]. by eapply read_Z_err.
Qed.

Section main.
Context {A : Arith} {T : Text}.

(** One reading after the other. *)
Lemma C79_any_lem (file : option text) (g : mesh) :
  (∀ t e, wread t = Err e → e = EUB) →
  match read_mesh file g with
  | Ok (dim, m) => (dim = 2 ∨ dim = 3)%Z ∧ mesh_sizes (Z.to_nat dim) m ∧ ms_row g `prefix_of` ms_row m
  | Err e => e = EInvalid KDim ∨ e = EUB
  end.
Proof.
  intros Hw. destruct file as [t|]; [|by left]. unfold read_mesh.
  set (f1 := next_line (Stream t true, [])). clearbody f1.
  destruct (read_Z f1.2) as [dim|e] eqn:E1; cbn [mbind res_bind]; [|right; by eapply read_Z_err].
  case_bool_decide as Hdim; [|by left].
  set (f2 := next_line f1). clearbody f2.
  pose proof (rd_push_any read_nat (S (length f2.2)) (Stream f2.2 true) (ms_row g) ltac:(cbn; lia)) as Hr.
  destruct (rd_push read_nat _ _ _) as [row|e] eqn:E2; cbn [mbind res_bind].
  2:{ destruct Hr as [? Hr]. right. by eapply read_nat_err. }
  destruct (last row) as [sz|] eqn:E3; cbn [mbind res_bind]; [|by right].
  set (f3 := next_line f2). clearbody f3.
  pose proof (rd_fill_any read_nat sz (S (length f3.2)) (Stream f3.2 true) 0 (resize sz 0 (ms_col g)) ltac:(cbn; lia) (resize_length _ _ _)) as H3.
  destruct (rd_fill read_nat _ _ _ _ _) as [col|e] eqn:E4; cbn [mbind res_bind].
  2:{ destruct H3 as [? Hr3]. right. by eapply read_nat_err. }
  set (f4 := next_line f3). clearbody f4.
  pose proof (rd_fill_any wread sz (S (length f4.2)) (Stream f4.2 true) 0 (resize sz w0 (ms_val g)) ltac:(cbn; lia) (resize_length _ _ _)) as H4.
  destruct (rd_fill wread sz _ _ _ _) as [val|e] eqn:E5; cbn [mbind res_bind].
  2:{ destruct H4 as [? Hr4]. right. by eapply Hw. }
  set (nc := length row - 1).
  set (f5 := next_line f4). clearbody f5.
  pose proof (rd_fill_any wread nc (S (length f5.2)) (Stream f5.2 true) 0 (resize nc w0 (ms_vol g)) ltac:(cbn; lia) (resize_length _ _ _)) as H5.
  destruct (rd_fill wread nc _ _ _ (resize nc w0 (ms_vol g))) as [vol|e] eqn:E6; cbn [mbind res_bind].
  2:{ destruct H5 as [? Hr5]. right. by eapply Hw. }
  set (f6 := next_line f5). clearbody f6.
  pose proof (rd_fill_any read_Z nc (S (length f6.2)) (Stream f6.2 true) 0 (resize nc 0%Z (ms_bnd g)) ltac:(cbn; lia) (resize_length _ _ _)) as H6.
  destruct (rd_fill read_Z nc _ _ _ _) as [bnd|e] eqn:E7; cbn [mbind res_bind].
  2:{ destruct H6 as [? Hr6]. right. by eapply read_Z_err. }
  set (f7 := next_line f6). clearbody f7.
  set (c0 := map (resize (Z.to_nat dim) w0) (resize nc [] (ms_cen g))).
  assert (length c0 = nc) as Hc0 by (unfold c0; rewrite map_length; apply resize_length).
  pose proof (rd_cen_fill (Z.to_nat dim) nc ltac:(lia) (S (length f7.2)) (Stream f7.2 true) 0 0 c0
    (rows_resize _ _) Hc0 ltac:(lia) (λ _, eq_refl) ltac:(lia)) as H7.
  pose proof (rd_fill_any wread (nc * Z.to_nat dim) (S (length f7.2)) (Stream f7.2 true) (0 * Z.to_nat dim + 0) (concat c0) ltac:(cbn; lia)
    ltac:(rewrite (concat_len (Z.to_nat dim)) by apply rows_resize; by rewrite Hc0)) as H8.
  destruct (rd_cen _ _ _ _ _ _ _) as [cen|e]; cbn [mbind res_bind].
  2:{ rewrite H7 in H8. destruct H8 as [? Hr8]. right. by eapply Hw. }
  destruct H7 as (_ & Hrow & Hlen).
  assert (length row ≠ 0) by (destruct row; [done|cbn [length]; lia]).
  assert (ms_row g `prefix_of` row) as Hpre.
  { clear -E2. revert E2. generalize (S (length f2.2)) (Stream f2.2 true) (ms_row g).
    intros fuel. revert row. induction fuel as [|fuel IH]; intros row s v; cbn [rd_push]; [done|].
    destruct (getline comma s []) as [[s' a] [|]]; [|by intros [= ->]].
    destruct (read_nat a) as [x|e]; cbn [mbind res_bind]; [|done]. intros Hx%IH.
    etrans; [|exact Hx]. by apply prefix_app_r. }
  split_and!; [done| |done].
  constructor; cbn [ms_row ms_col ms_val ms_vol ms_bnd ms_cen]; rewrite ?H3, ?H4, ?H5, ?H6, ?Hlen; try done; unfold nc; lia.
Qed.

Lemma C79_lem (dim : nat) (g : mesh) (row cols : list nat) (vals vols xs : list W) (bnds : list Z)
    (tdim trow tcol tval tvol tbnd tcen rest : text) (sz : nat) :
  dim = 2 ∨ dim = 3 → writes_nat dim tdim →
  line_of writes_nat row trow → line_of writes_nat cols tcol → line_of writes_w vals tval →
  line_of writes_w vols tvol → line_of writes_Z bnds tbnd → line_of writes_w xs tcen →
  last (ms_row g ++ row) = Some sz →
  let nl := ascii_of_nat 10 in
  let nc := length (ms_row g ++ row) - 1 in
  ∃ cen,
    read_mesh (Some (tdim ++ nl :: trow ++ nl :: tcol ++ nl :: tval ++ nl :: tvol ++ nl :: tbnd ++ nl :: tcen ++ nl :: rest)) g =
      Ok (Z.of_nat dim, Mesh (ms_row g ++ row) (put sz 0 cols (ms_col g)) (put sz w0 vals (ms_val g))
                          (put nc w0 vols (ms_vol g)) (put nc 0%Z bnds (ms_bnd g)) cen) ∧
    length cen = nc ∧ Forall (λ c, length c = dim) cen ∧
    concat cen = take (nc * dim) xs ++ drop (length xs) (concat (map (resize dim w0) (resize nc [] (ms_cen g)))).
Proof.
  intros Hdim Htd Hrow Hcol Hval Hvol Hbnd Hcen Hsz nl nc.
  assert (∀ x f, writes_w x f → plain f) as Wp by (intros x f [H _]; done).
  assert (∀ x f, writes_w x f → wread f = Ok x) as Wr by (intros x f [_ H]; done).
  unfold read_mesh. change nl with newline.
  rewrite next_line_ok by (by apply writes_nat_plain in Htd as (_ & _ & ?)). cbn [snd].
  rewrite (read_writes_nat _ _ Htd). cbn [mbind res_bind]. rewrite bool_decide_eq_true_2 by lia.
  rewrite next_line_ok by (eapply line_newline; [exact writes_nat_plain|done]). cbn [snd].
  assert (rd_push read_nat (S (length trow)) (Stream trow true) (ms_row g) = Ok (ms_row g ++ row)) as ->.
  { destruct Hrow as (fs & Hc & Hl). apply (rd_push_ok _ writes_nat writes_nat_plain read_nat_writes row fs Hl); [by constructor|].
    pose proof (csv_length _ _ Hc (line_plain _ writes_nat_plain _ _ Hl)). lia. }
  cbn [mbind res_bind]. rewrite Hsz. cbn [mbind res_bind].
  rewrite next_line_ok by (eapply line_newline; [exact writes_nat_plain|done]). cbn [snd].
  rewrite (rd_fill_put _ writes_nat writes_nat_plain read_nat_writes _ _ cols tcol) by done. cbn [mbind res_bind].
  rewrite next_line_ok by (eapply line_newline; [exact Wp|done]). cbn [snd].
  rewrite (rd_fill_put _ writes_w Wp Wr _ _ vals tval) by done. cbn [mbind res_bind]. fold nc.
  rewrite next_line_ok by (eapply line_newline; [exact Wp|done]). cbn [snd].
  rewrite (rd_fill_put _ writes_w Wp Wr _ _ vols tvol) by done. cbn [mbind res_bind].
  rewrite next_line_ok by (eapply line_newline; [exact writes_Z_plain|done]). cbn [snd].
  rewrite (rd_fill_put _ writes_Z writes_Z_plain read_writes_Z _ _ bnds tbnd) by done. cbn [mbind res_bind].
  rewrite next_line_ok by (eapply line_newline; [exact Wp|done]). cbn [snd].
  rewrite Nat2Z.id. set (c0 := map (resize dim w0) (resize nc [] (ms_cen g))).
  assert (length c0 = nc) as Hc0 by (unfold c0; rewrite map_length; apply resize_length).
  pose proof (rd_cen_fill dim nc ltac:(lia) (S (length tcen)) (Stream tcen true) 0 0 c0
    (rows_resize _ _) Hc0 ltac:(lia) (λ _, eq_refl) ltac:(lia)) as H7.
  assert (rd_fill wread (nc * dim) (S (length tcen)) (Stream tcen true) (0 * dim + 0) (concat c0) =
    Ok (take (nc * dim) xs ++ drop (length xs) (concat c0))) as E.
  { destruct Hcen as (fs & Hc & Hl).
    pose proof (csv_length _ _ Hc (line_plain _ Wp _ _ Hl)).
    rewrite (rd_fill_ok _ writes_w Wp Wr _ xs fs Hl); [|by constructor|lia| |lia].
    - rewrite Nat.mul_0_l. cbn [take app Nat.add]. by rewrite Nat.sub_0_r.
    - rewrite (concat_len dim) by apply rows_resize. by rewrite Hc0. }
  rewrite E in H7. destruct (rd_cen _ _ _ _ _ _ _) as [cen|e]; cbn [mbind res_bind]; [|done].
  destruct H7 as (E' & Hr & Hl). exists cen. injection E' as E'. done.
Qed.

Lemma map_line {U V} (ok : V → text → Prop) (sh : U → text) (fn : U → V) (l : list U) :
  (∀ x, x ∈ l → ok (fn x) (sh x)) → line_of ok (map fn l) (joinc (map sh l)).
Proof.
  intros H. exists (map sh l). split; [apply joinc_csv|].
  induction l as [|x l IH]; [constructor|]. cbn [map]. constructor; [apply H; set_solver|apply IH; set_solver].
Qed.
Lemma put_all {U} n (z : U) l old : length l = n → put n z l old = l.
Proof. intros <-. unfold put. rewrite take_ge by lia. rewrite drop_ge by (by rewrite resize_length). apply app_nil_r. Qed.

Lemma concat_inj {U} dim (v w : list (list U)) : 0 < dim → Forall (λ c, length c = dim) v → Forall (λ c, length c = dim) w →
  length v = length w → concat v = concat w → v = w.
Proof.
  intros Hd Hv. revert w. induction Hv as [|c v Hc Hv IH]; intros [|c' w] Hw Hl; try done. cbn [concat].
  apply Forall_cons in Hw as [Hc' Hw]. intros E. apply app_inj_1 in E as [-> E]; [|congruence].
  f_equal. apply IH; [done| |done]. cbn [length] in Hl. lia.
Qed.

Lemma C80_lem (dim : nat) (m g : mesh) :
  dim = 2 ∨ dim = 3 → mesh_sizes dim m → ms_cen m ≠ [] → read_as_written m → ms_row g = [] →
  ∃ t, dump_mesh m = POk t ∧ read_mesh (Some t) g = Ok (Z.of_nat dim, rounded m).
Proof.
  intros Hdim [Hrow Hval Hvol Hbnd Hcen Hd] Hne Hw Hg.
  destruct m as [row col val vol bnd cen]; cbn [ms_row ms_col ms_val ms_vol ms_bnd ms_cen] in *.
  unfold dump_mesh, py_dump; cbn [ms_row ms_col ms_val ms_vol ms_bnd ms_cen].
  destruct cen as [|c cen]; [done|]. set (ce := c :: cen) in *.
  assert (default 0 (length <$> head ce) = dim) as ->.
  { subst ce. cbn. by apply Forall_cons in Hd as [-> _]. }
  rewrite bool_decide_eq_true_2 by done.
  eexists. split; [reflexivity|].
  destruct (C79_lem dim g row col (map wround val) (map wround vol) (map wround (concat ce)) bnd
    (show_nat dim) (joinc (map show_nat row)) (joinc (map show_nat col)) (joinc (map (λ x, wshow (wround x)) val))
    (joinc (map (λ x, wshow (wround x)) vol)) (joinc (map show_Z bnd)) (joinc (map (λ x, wshow (wround x)) (concat ce))) []
    (length col)) as (cen' & E & Hl & Hr & Hc).
  - done.
  - apply show_nat_ok.
  - rewrite <- (map_id row) at 1. apply map_line. intros x _. apply show_nat_ok.
  - rewrite <- (map_id col) at 1. apply map_line. intros x _. apply show_nat_ok.
  - apply map_line. intros x Hx. apply Hw. by left.
  - apply map_line. intros x Hx. apply Hw. right. by left.
  - rewrite <- (map_id bnd) at 1. apply map_line. intros x _. apply show_Z_ok.
  - apply map_line. intros x Hx. apply Hw. right. by right.
  - by rewrite Hg.
  - change (ascii_of_nat 10) with newline in E. cbn [app] in E |- *. rewrite E.
    rewrite Hg in Hl, Hc |- *. cbn [app] in *.
    rewrite !put_all by (rewrite ?map_length; lia).
    do 2 f_equal. unfold rounded. cbn [ms_row ms_col ms_val ms_vol ms_bnd ms_cen]. f_equal.
    assert (Forall (λ c, length c = dim) (map (map wround) ce)) as Hce.
    { apply Forall_fmap. eapply Forall_impl; [exact Hd|]. intros x Hx. cbn. by rewrite map_length. }
    apply (concat_inj dim); [lia|done|done|rewrite map_length; lia|].
    rewrite Hc, take_ge, drop_ge, app_nil_r.
    + by rewrite concat_map.
    + rewrite (concat_len dim) by apply rows_resize. rewrite map_length, resize_length, map_length, (concat_len dim ce) by done.
      assert (length row - 1 = length ce) as -> by lia. done.
    + rewrite map_length, (concat_len dim ce) by done. assert (length row - 1 = length ce) as -> by lia. done.
Qed.
End main.
