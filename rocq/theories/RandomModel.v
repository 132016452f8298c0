(** Model of the built-in random number generator.
    Source: src/random.c:69-153 (RANDOM_LCG). *)
From Coq Require Import ZArith List Reals Bool.
Import ListNotations.

(** uint64_t arithmetic *)
Definition two64 : Z := 2 ^ 64.
Definition lcg_a : Z := 2862933555777941757.
Definition lcg_b : Z := 3037000493.

(** random.c:80-86 *)
Definition lcg_next (r : Z) : Z := ((lcg_a * r + lcg_b) mod two64)%Z.
Fixpoint lcg_iter (n : nat) (r : Z) : Z :=
  match n with O => r | S n => lcg_next (lcg_iter n r) end.

(** (double) of a uint64: 53-bit significand, round to nearest, ties to even;
    the result is an integer. *)
Definition to_double (r : Z) : Z :=
  (if r <? 2 ^ 53 then r else
   let e := Z.log2 r - 52 in
   let q := r / 2 ^ e in
   let m := r mod 2 ^ e in
   let h := 2 ^ (e - 1) in
   let up := (h <? m) || ((h =? m) && Z.odd q) in
   (if up then q + 1 else q) * 2 ^ e)%Z.

(** random.c:100-107.  UINT64_MAX converts to 2^64, division by it is exact. *)
Definition uniform_of (r : Z) : R := (IZR (to_double r) / IZR two64)%R.
Definition lcg_uniform (st : Z) : R * Z := let st := lcg_next st in (uniform_of st, st).

(** random.c:109-151.  A run of the vectorised normal sampler: [u k] is the
    k-th uniform deviate drawn; [wr] is the array written, as a list of
    (index, value) in program order.  Exact real arithmetic. *)
Section Normal.
Local Open Scope R_scope.
Context (u : nat -> R).

(** common form: two deviates per pair *)
Definition bm_w (k : nat) : R := sqrt (-2 * ln (u k)).
Definition bm_s (k : nat) : R := cos (2 * PI * u (S k)).
Definition bm_pair (n i k : nat) : list (nat * R) :=
  (i, bm_w k * bm_s k) ::
  (if (Z.ltb (Z.of_nat i) (Z.of_nat n - 2)) || Nat.ltb 0 ((n + 1) mod 2)
   then [(S i, if Rlt_dec (u (S k)) (1/2) then bm_w k * sqrt (1 - bm_s k * bm_s k)
               else - bm_w k * sqrt (1 - bm_s k * bm_s k))]
   else []).
(** for(i = 0; i < n; i = i+2), [fuel] >= number of rounds *)
Fixpoint bm_loop (fuel n i k : nat) : list (nat * R) :=
  match fuel with
  | O => []
  | S fuel => if Nat.ltb i n then bm_pair n i k ++ bm_loop fuel n (i + 2) (k + 2) else []
  end.
Definition normal_common (n : nat) : list (nat * R) := bm_loop n n 0 0.

(** geometric form: the rejection loop is any choice of accepted draws: [v i]
    is the pair accepted in round i *)
Context (v : nat -> R * R).
Definition geo_pair (n i : nat) : list (nat * R) :=
  let x1 := 2 * fst (v i) - 1 in
  let x2 := 2 * snd (v i) - 1 in
  let w := x1 * x1 + x2 * x2 in
  let w := sqrt ((-2 * ln w) / w) in
  (i, x1 * w) ::
  (if (Z.ltb (Z.of_nat i) (Z.of_nat n - 2)) || Nat.ltb 0 ((n + 1) mod 2) then [(S i, x2 * w)] else []).
Fixpoint geo_loop (fuel n i : nat) : list (nat * R) :=
  match fuel with
  | O => []
  | S fuel => if Nat.ltb i n then geo_pair n i ++ geo_loop fuel n (i + 2) else []
  end.
Definition normal_geo (n : nat) : list (nat * R) := geo_loop n n 0.
End Normal.
