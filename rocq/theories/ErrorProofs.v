From Coq Require Import ZArith List String Lia.
From Verif Require Import ErrorModel.
Open Scope Z_scope.

Lemma raise_code_flat ty line file :
  0 <= ty < 256 -> 0 <= line < 8388608 -> 0 <= file < 8192 ->
  raise_code ty line file = ty + line * 256 + file * 262144.
Proof.
  intros Ht Hl Hf. unfold raise_code, u64.
  rewrite (Z.mod_small ty), (Z.mod_small (line * 256)),
    (Z.mod_small (file * 256 * 1024)) by lia.
  rewrite (Z.mod_small (0 + ty)) by lia.
  rewrite (Z.mod_small (0 + ty + line * 256)) by lia.
  rewrite Z.mod_small by lia. lia.
Qed.

Lemma parse_flat ty line file :
  0 <= ty < 256 -> 0 <= line < 1024 ->
  error_parse (ty + line * 256 + file * 262144) = (ty, line, file).
Proof.
  intros Ht Hl. unfold error_parse. change (256 * 1024) with 262144.
  assert (Hq : (ty + line * 256 + file * 262144) / 262144 = file).
  { rewrite Z.div_add by lia. rewrite Z.div_small by lia. lia. }
  rewrite Hq.
  replace (ty + line * 256 + file * 262144 - file * 262144) with (ty + line * 256) by lia.
  assert (Hq2 : (ty + line * 256) / 256 = line).
  { rewrite Z.div_add by lia. rewrite Z.div_small by lia. lia. }
  rewrite Hq2. f_equal. f_equal. lia.
Qed.

Lemma type_code_range t : 1 <= type_code t <= 8.
Proof. destruct t; simpl; lia. Qed.
Lemma file_code_range f : 1 <= file_code f <= 28.
Proof. destruct f; simpl; lia. Qed.

Lemma roundtrip_codes ty line file :
  0 <= ty < 256 -> 0 <= line < 1024 -> 0 <= file < 8192 ->
  error_parse (raise_code ty line file) = (ty, line, file).
Proof.
  intros. rewrite raise_code_flat by lia. now apply parse_flat.
Qed.

Lemma roundtrip t line f :
  0 <= line < 1024 ->
  error_parse (error_raise t line f) = (type_code t, line, file_code f).
Proof.
  intros Hl. unfold error_raise.
  pose proof (type_code_range t). pose proof (file_code_range f).
  apply roundtrip_codes; lia.
Qed.

Lemma raise_nonzero t line f :
  0 <= line < 8388608 -> error_raise t line f <> 0.
Proof.
  intros Hl. unfold error_raise.
  pose proof (type_code_range t). pose proof (file_code_range f).
  rewrite raise_code_flat by lia. lia.
Qed.

(** Behaviour for every line number: the excess spills into the file. *)
Lemma parse_any_line t line f :
  0 <= line < 8388608 ->
  error_parse (error_raise t line f)
  = (type_code t, line mod 1024, file_code f + line / 1024).
Proof.
  intros Hl. unfold error_raise.
  pose proof (type_code_range t). pose proof (file_code_range f).
  rewrite raise_code_flat by lia.
  pose proof (Z.div_mod line 1024 ltac:(lia)) as Hd.
  pose proof (Z.mod_pos_bound line 1024 ltac:(lia)).
  replace (type_code t + line * 256 + file_code f * 262144)
    with (type_code t + (line mod 1024) * 256
          + (file_code f + line / 1024) * 262144) by lia.
  apply parse_flat; lia.
Qed.

Lemma decode_correct_iff t line f :
  0 <= line < 8388608 ->
  (error_parse (error_raise t line f) = (type_code t, line, file_code f)
   <-> line < 1024).
Proof.
  intros Hl. split.
  - rewrite parse_any_line by lia. intros E. injection E as E1 E2.
    pose proof (Z.mod_pos_bound line 1024 ltac:(lia)). lia.
  - intros. apply roundtrip. lia.
Qed.

Lemma raise_injective t1 l1 f1 t2 l2 f2 :
  0 <= l1 < 1024 -> 0 <= l2 < 1024 ->
  error_raise t1 l1 f1 = error_raise t2 l2 f2 -> t1 = t2 /\ l1 = l2 /\ f1 = f2.
Proof.
  intros H1 H2 E.
  assert (P : error_parse (error_raise t1 l1 f1) = error_parse (error_raise t2 l2 f2))
    by now rewrite E.
  rewrite !roundtrip in P by lia. injection P as Pt Pl Pf.
  split; [|split]; auto.
  - destruct t1, t2; simpl in Pt; congruence || lia.
  - destruct f1, f2; simpl in Pf; congruence || lia.
Qed.

Lemma file_names t line f :
  0 <= line < 1024 -> f <> EF_SUZUKI ->
  let '(_, _, file) := error_parse (error_raise t line f) in
  file_str file <> "unknown file"%string
  /\ forall f' l' t', 0 <= l' < 1024 ->
     let '(_, _, file') := error_parse (error_raise t' l' f') in
     file_str file = file_str file' -> f = f'.
Proof.
  intros Hl Hs. rewrite roundtrip by lia. split.
  - destruct f; (discriminate || congruence).
  - intros f' l' t' Hl'. rewrite roundtrip by lia.
    destruct f; try congruence; destruct f'; cbn; intros E; congruence.
Qed.
