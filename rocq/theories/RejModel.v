(** The rejection loop of the normal sampler, and drand48.
    Source: src/random.c:109-129 (RANDOM_LCG), 153-217 (no library: drand48), with A5_CCOL_USE_GEOBM = 1 (src/ascot5.h:115). *)
From Coq Require Import ZArith List Reals Bool.
Import ListNotations.
From Verif Require Import RandomModel.

(** random.h:85-90: random_init is srand48 and random_uniform is drand48, which POSIX defines: the state has 48 bits, the seed
    becomes its upper 32 bits, and the number is the new state over 2^48, a double without rounding *)
Definition two48 : Z := 2 ^ 48.
Definition d48_a : Z := 25214903917.
Definition d48_b : Z := 11.
Definition d48_next (r : Z) : Z := ((d48_a * r + d48_b) mod two48)%Z.
Fixpoint d48_iter (n : nat) (r : Z) : Z :=
  match n with O => r | S n => d48_next (d48_iter n r) end.
Definition srand48 (seed : Z) : Z := ((seed mod 2 ^ 32) * 2 ^ 16 + 13070)%Z.
Definition d48_uniform_of (r : Z) : R := (IZR r / IZR two48)%R.

(** random.c:117-122 and 204-209 for a generator with transition [next] and numbers [uni]; [None] = [fuel] rounds were not enough *)
Section Polar.
Local Open Scope R_scope.
Context (next : Z -> Z) (uni : Z -> R).
Fixpoint polar (fuel : nat) (st : Z) : option (R * R * Z) :=
  match fuel with
  | O => None
  | S fuel =>
    let st := next st in let x1 := 2 * uni st - 1 in
    let st := next st in let x2 := 2 * uni st - 1 in
    let w := x1 * x1 + x2 * x2 in
    if Rle_dec 1 w then polar fuel st else Some (x1, x2, st)
  end.
(** random.c:113-129 and 196-217; [rounds] >= number of pairs *)
Fixpoint normal_run (fuel rounds n i : nat) (st : Z) : option (list (nat * R) * Z) :=
  match rounds with
  | O => Some ([], st)
  | S rounds =>
    if Nat.ltb i n then
      match polar fuel st with
      | None => None
      | Some (x1, x2, st) =>
        let w := x1 * x1 + x2 * x2 in
        let w := sqrt ((-2 * ln w) / w) in
        let here := (i, x1 * w) :: (if (Z.ltb (Z.of_nat i) (Z.of_nat n - 2)) || Nat.ltb 0 ((n + 1) mod 2) then [(S i, x2 * w)] else []) in
        match normal_run fuel rounds n (i + 2) st with
        | Some (rest, st) => Some ((here ++ rest)%list, st)
        | None => None
        end
      end
    else Some ([], st)
  end.
Definition normal_simd (fuel n : nat) (st : Z) : option (list (nat * R) * Z) := normal_run fuel n n 0 st.
End Polar.
