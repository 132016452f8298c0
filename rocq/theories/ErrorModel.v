(** Model of the packed error flags of ASCOT5.  Sources: src/error.h, src/error.c *)
From Coq Require Import ZArith List String.
Import ListNotations.
Open Scope Z_scope.

(** src/error.h:63-73, enum error_type with its numeric codes. *)
Inductive error_type : Set :=
| ERR_INPUT_EVALUATION | ERR_UNKNOWN_INPUT | ERR_INPUT_UNPHYSICAL
| ERR_MARKER_UNPHYSICAL | ERR_INVALID_TIMESTEP | ERR_WIENER_ARRAY
| ERR_INTEGRATION | ERR_ATOMIC_EVALUATION.

Definition type_code (t : error_type) : Z :=
  match t with
  | ERR_INPUT_EVALUATION => 1 | ERR_UNKNOWN_INPUT => 2
  | ERR_INPUT_UNPHYSICAL => 3 | ERR_MARKER_UNPHYSICAL => 4
  | ERR_INVALID_TIMESTEP => 5 | ERR_WIENER_ARRAY => 6
  | ERR_INTEGRATION => 7 | ERR_ATOMIC_EVALUATION => 8
  end.

(** src/error.h:25-54, enum error_file with its numeric codes. *)
Inductive error_file : Set :=
| EF_MCCC_WIENER | EF_MCCC_PUSH | EF_MCCC_COEFS | EF_MCCC | EF_STEP_FO_VPA
| EF_STEP_GC_CASHKARP | EF_STEP_GC_RK4 | EF_N0_1D | EF_N0_3D | EF_N0_ST
| EF_B_3DS | EF_B_2DS | EF_B_STS | EF_B_GS | EF_PLASMA_1D | EF_PLASMA_1DS
| EF_PLASMA | EF_E_FIELD | EF_NEUTRAL | EF_E_1DS | EF_B_FIELD | EF_PARTICLE
| EF_BOOZER | EF_MHD | EF_ATOMIC | EF_ASIGMA | EF_ASIGMA_LOC | EF_SUZUKI.

Definition file_code (f : error_file) : Z :=
  match f with
  | EF_MCCC_WIENER => 1 | EF_MCCC_PUSH => 2 | EF_MCCC_COEFS => 3 | EF_MCCC => 4
  | EF_STEP_FO_VPA => 5 | EF_STEP_GC_CASHKARP => 6 | EF_STEP_GC_RK4 => 7
  | EF_N0_1D => 8 | EF_N0_3D => 9 | EF_N0_ST => 10 | EF_B_3DS => 11
  | EF_B_2DS => 12 | EF_B_STS => 13 | EF_B_GS => 14 | EF_PLASMA_1D => 15
  | EF_PLASMA_1DS => 16 | EF_PLASMA => 17 | EF_E_FIELD => 18 | EF_NEUTRAL => 19
  | EF_E_1DS => 20 | EF_B_FIELD => 21 | EF_PARTICLE => 22 | EF_BOOZER => 23
  | EF_MHD => 24 | EF_ATOMIC => 25 | EF_ASIGMA => 26 | EF_ASIGMA_LOC => 27
  | EF_SUZUKI => 28
  end.

(** a5err is unsigned long (src/error.h:16); unsigned 64-bit arithmetic. *)
Definition u64 (x : Z) : Z := x mod 18446744073709551616.

(** src/error.h:86-92 error_raise on numeric codes.  [line*256] and
    [file*256*1024] are int products in C; they do not overflow int for
    line < 2^23 and file < 2^13, the range in which this model is used. *)
Definition raise_code (ty line file : Z) : Z :=
  let err := 0 in
  let err := u64 (err + u64 ty) in
  let err := u64 (err + u64 (line * 256)) in
  let err := u64 (err + u64 (file * 256 * 1024)) in
  err.

Definition error_raise (t : error_type) (line : Z) (f : error_file) : Z :=
  raise_code (type_code t) line (file_code f).

(** src/error.c:44-50 error_parse: returns (msg, line, file).  The integer
    division happens before floor(), which is then the identity. *)
Definition error_parse (err : Z) : Z * Z * Z :=
  let file := err / (256 * 1024) in
  let err := err - file * (256 * 1024) in
  let line := err / 256 in
  let err := err - line * 256 in
  (err, line, file).

(** src/error.c:63-232 error_parse2str: the file name printed for a code. *)
Definition file_str (code : Z) : string :=
  (if (code =? 1)%Z then "mccc_wiener.c" else if (code =? 2)%Z then "mccc_push.c"
   else if (code =? 3)%Z then "mccc_coefs.c" else if (code =? 4)%Z then "mccc.c"
   else if (code =? 5)%Z then "step_fo_vpa.c" else if (code =? 7)%Z then "step_gc_rk4.c"
   else if (code =? 6)%Z then "step_gc_cashkarp.c" else if (code =? 17)%Z then "plasma.c"
   else if (code =? 15)%Z then "plasma_1D.c" else if (code =? 16)%Z then "plasma_1DS.c"
   else if (code =? 18)%Z then "E_field.c" else if (code =? 20)%Z then "E_1DS.c"
   else if (code =? 19)%Z then "neutral.c" else if (code =? 8)%Z then "N0_1D.c"
   else if (code =? 9)%Z then "N0_3D.c" else if (code =? 10)%Z then "N0_ST.c"
   else if (code =? 21)%Z then "B_field.c" else if (code =? 14)%Z then "B_GS.c"
   else if (code =? 13)%Z then "B_STS.c" else if (code =? 12)%Z then "B_2DS.c"
   else if (code =? 11)%Z then "B_3DS.c" else if (code =? 22)%Z then "particle.c"
   else if (code =? 23)%Z then "boozer.c" else if (code =? 24)%Z then "mhd.c"
   else if (code =? 25)%Z then "atomic.c" else if (code =? 26)%Z then "asigma.c"
   else if (code =? 27)%Z then "asigma_loc.c" else "unknown file")%string.

(** src/error.c:69-115: whether a message exists for the type code. *)
Definition has_message (code : Z) : bool :=
  (code =? 1) || (code =? 2) || (code =? 3) || (code =? 4) || (code =? 5)
  || (code =? 6) || (code =? 8).
