(** C14, C15, C57: the built-in random number generator. *)
From Coq Require Import ZArith List Reals Bool Lia Lra.
From Verif Require Import RandomModel RandomProofs.
Import ListNotations.

(** C14: the transition is a bijection of the 64-bit states. *)
Theorem random_lcg_bijective : forall y, (0 <= y < 2 ^ 64)%Z ->
  exists x, (0 <= x < 2 ^ 64)%Z /\ lcg_next x = y /\
            forall x', (0 <= x' < 2 ^ 64)%Z -> lcg_next x' = y -> x' = x.
Proof. exact next_bijective. Qed.
Print Assumptions random_lcg_bijective.

(** C14: a seed recurs after n draws iff 2^64 divides n. *)
Theorem random_lcg_period : forall n r, (0 <= r < 2 ^ 64)%Z ->
  (lcg_iter n r = r <-> (2 ^ 64 | Z.of_nat n)%Z).
Proof. exact period_exact. Qed.
Print Assumptions random_lcg_period.

(** C14: within one period every value is drawn. *)
Theorem random_lcg_visits_all : forall r x, (0 <= r < 2 ^ 64)%Z -> (0 <= x < 2 ^ 64)%Z ->
  exists n, (0 <= n < 2 ^ 64)%Z /\ lcg_iter (Z.to_nat n) r = x.
Proof. exact iter_surj. Qed.
Print Assumptions random_lcg_visits_all.

(** The low k bits recur every 2^k draws, no matter the seed: they are far
    less random than the high bits used for the deviate. *)
Theorem random_lcg_low_bits : forall k n r, (k <= 64)%nat ->
  (lcg_iter n r mod 2 ^ Z.of_nat k = r mod 2 ^ Z.of_nat k <-> (2 ^ Z.of_nat k | Z.of_nat n))%Z.
Proof. exact low_bits_period. Qed.
Print Assumptions random_lcg_low_bits.

Local Open Scope R_scope.
(** C15: range of the deviate and the exact states giving its end points. *)
Theorem random_uniform_range : forall st, 0 <= fst (lcg_uniform st) <= 1.
Proof. intros. apply uniform_range, next_state. Qed.
Print Assumptions random_uniform_range.

Theorem random_uniform_endpoints : forall r, (0 <= r < 2 ^ 64)%Z ->
  (uniform_of r = 0 <-> r = 0%Z) /\ (uniform_of r = 1 <-> (2 ^ 64 - 1024 <= r)%Z).
Proof. intros r H. split; [now apply uniform_zero | now apply uniform_one]. Qed.
Print Assumptions random_uniform_endpoints.

(** C15: the integer is converted to the nearest double, ties to even. *)
Theorem random_to_double_nearest : forall r, (0 <= r < 2 ^ 64)%Z ->
  (r < 2 ^ 53 -> to_double r = r)%Z /\
  (2 ^ 53 <= r -> exists q, to_double r = q * 2 ^ (Z.log2 r - 52) /\
     2 * Z.abs (to_double r - r) <= 2 ^ (Z.log2 r - 52) /\
     (2 * Z.abs (to_double r - r) = 2 ^ (Z.log2 r - 52) -> Z.even q = true) /\ 2 ^ 52 <= q <= 2 ^ 53)%Z.
Proof.
  intros r H. split; intros K; [apply to_double_small; lia | apply to_double_near; unfold two64; lia].
Qed.
Print Assumptions random_to_double_nearest.

(** Finding: code that takes floor(u * n) as an index gets n, one past the end. *)
Theorem random_uniform_index_refuted : forall n, (0 < n)%Z ->
  exists st, (0 <= st < 2 ^ 64)%Z /\ up (fst (lcg_uniform st) * IZR n) = (n + 1)%Z.
Proof.
  intros n Hn. destruct (next_bijective (2 ^ 64 - 1)) as (x & Hx & E & _); [unfold state, two64; lia|].
  exists x. split; [exact Hx|]. unfold lcg_uniform. cbn [fst]. rewrite E.
  assert (U : uniform_of (2 ^ 64 - 1) = 1) by (apply uniform_one; unfold state, two64; lia).
  rewrite U, Rmult_1_l. symmetry. apply tech_up; rewrite plus_IZR; lra.
Qed.
Print Assumptions random_uniform_index_refuted.

(** C57: the vectorised normal samplers write each of the n entries once, in
    order, and nothing else. *)
Theorem random_normal_fills : forall u v n,
  map fst (normal_common u n) = seq 0 n /\ map fst (normal_geo v n) = seq 0 n.
Proof. intros. split; [apply common_indices | apply geo_indices]. Qed.
Print Assumptions random_normal_fills.

(** C57: the common form yields the Box-Muller pair (R cos t, R sin t). *)
Theorem random_normal_box_muller : forall u n i k, 0 <= u (S k) <= 1 ->
  (forall x, In (i, x) (bm_pair u n i k) -> x = sqrt (-2 * ln (u k)) * cos (2 * PI * u (S k))) /\
  (forall x, In (S i, x) (bm_pair u n i k) -> x = sqrt (-2 * ln (u k)) * sin (2 * PI * u (S k))).
Proof. intros u n i k H. split; intros x I; [now apply bm_first in I | eapply bm_second; eauto]. Qed.
Print Assumptions random_normal_box_muller.

(** C57: the geometric form yields a pair on the ray of the accepted point
    with squared radius -2 ln w. *)
Theorem random_normal_polar : forall v n i x y,
  let x1 := 2 * fst (v i) - 1 in let x2 := 2 * snd (v i) - 1 in let w := x1 * x1 + x2 * x2 in
  0 < w < 1 -> geo_pair v n i = [(i, x); (S i, y)] ->
  x * x + y * y = -2 * ln w /\ x * x2 = y * x1.
Proof. exact geo_radius. Qed.
Print Assumptions random_normal_polar.

(** ** Examples *)
Example ex_next : lcg_next 1 = 2862933558814942250%Z /\ lcg_next (2 ^ 64 - 1) = (two64 - lcg_a + lcg_b)%Z.
Proof. split; reflexivity. Qed.
Example ex_low_bit : map (fun n => (lcg_iter n 5 mod 2)%Z) [0;1;2;3]%nat = [1;0;1;0]%Z.
Proof. reflexivity. Qed.
Example ex_double : to_double (2 ^ 53 + 1) = (2 ^ 53)%Z /\ to_double (2 ^ 53 + 3) = (2 ^ 53 + 4)%Z /\
  to_double (2 ^ 64 - 1024) = (2 ^ 64)%Z /\ to_double (2 ^ 64 - 1025) = (2 ^ 64 - 2048)%Z.
Proof. repeat split; reflexivity. Qed.
Example ex_fills : map fst (normal_geo (fun _ => (1, 1/2)) 5) = [0;1;2;3;4]%nat.
Proof. reflexivity. Qed.
Example ex_polar : 0 < (2 * fst (3/4, 1/2) - 1) * (2 * fst (3/4, 1/2) - 1) + (2 * snd (3/4, 1/2) - 1) * (2 * snd (3/4, 1/2) - 1) < 1.
Proof. cbn. lra. Qed.
