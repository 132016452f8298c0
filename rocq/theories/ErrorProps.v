From Coq Require Import ZArith String.
From Verif Require Import ErrorModel ErrorProofs.
Open Scope Z_scope.

(** C01 *)
Theorem error_roundtrip : forall t line f, 0 <= line < 1024 ->
  error_parse (error_raise t line f) = (type_code t, line, file_code f).
Proof. exact roundtrip. Qed.
Print Assumptions error_roundtrip.

Example error_roundtrip_ex :
  error_parse (error_raise ERR_WIENER_ARRAY 188 EF_MCCC_WIENER) = (6, 188, 1).
Proof. reflexivity. Qed.

Theorem error_roundtrip_any_code : forall ty line file,
  0 <= ty < 256 -> 0 <= line < 1024 -> 0 <= file < 8192 ->
  error_parse (raise_code ty line file) = (ty, line, file).
Proof. exact roundtrip_codes. Qed.
Print Assumptions error_roundtrip_any_code.

Theorem error_never_reads_as_success : forall t line f,
  0 <= line < 8388608 -> error_raise t line f <> 0.
Proof. exact raise_nonzero. Qed.
Print Assumptions error_never_reads_as_success.

Theorem error_decode_correct_iff : forall t line f, 0 <= line < 8388608 ->
  (error_parse (error_raise t line f) = (type_code t, line, file_code f)
   <-> line < 1024).
Proof. exact decode_correct_iff. Qed.
Print Assumptions error_decode_correct_iff.

Theorem error_decode_any_line : forall t line f, 0 <= line < 8388608 ->
  error_parse (error_raise t line f)
  = (type_code t, line mod 1024, file_code f + line / 1024).
Proof. exact parse_any_line. Qed.
Print Assumptions error_decode_any_line.

Theorem error_raise_injective : forall t1 l1 f1 t2 l2 f2,
  0 <= l1 < 1024 -> 0 <= l2 < 1024 ->
  error_raise t1 l1 f1 = error_raise t2 l2 f2 -> t1 = t2 /\ l1 = l2 /\ f1 = f2.
Proof. exact raise_injective. Qed.
Print Assumptions error_raise_injective.

(** File names printed for decoded errors identify the file, except suzuki.c. *)
Theorem error_file_names_distinct : forall t line f,
  0 <= line < 1024 -> f <> EF_SUZUKI ->
  let '(_, _, file) := error_parse (error_raise t line f) in
  file_str file <> "unknown file"%string
  /\ forall f' l' t', 0 <= l' < 1024 ->
     let '(_, _, file') := error_parse (error_raise t' l' f') in
     file_str file = file_str file' -> f = f'.
Proof. exact file_names. Qed.
Print Assumptions error_file_names_distinct.

(** Finding: an unphysical marker raised at particle.c:1487 is reported as
    boozer.c line 463. *)
Theorem error_particle_line_refuted : exists line,
  let '(_, l, file) := error_parse (error_raise ERR_MARKER_UNPHYSICAL line EF_PARTICLE) in
  line = 1487 /\ l = 463 /\ file_str file = "boozer.c"%string.
Proof. exists 1487. repeat split. Qed.
Print Assumptions error_particle_line_refuted.

(** Finding: errors from suzuki.c and of type ERR_INTEGRATION have no text. *)
Theorem error_text_missing_refuted :
  file_str (file_code EF_SUZUKI) = "unknown file"%string
  /\ has_message (type_code ERR_INTEGRATION) = false
  /\ forall t, t <> ERR_INTEGRATION -> has_message (type_code t) = true.
Proof. repeat split. intros t H; destruct t; (reflexivity || congruence). Qed.
Print Assumptions error_text_missing_refuted.
