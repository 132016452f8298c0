(** the rejection loop of the normal sampler ends, for both built-in generators *)
From Coq Require Import ZArith List Reals Bool Lia Lra.
From Verif Require Import RandomModel RandomProofs RejModel RejProofs.
Import ListNotations.
Import ListNotations.
Local Open Scope R_scope.

(** ** The loop *)
(** from every state the loop returns the first pair of the stream inside the circle, which there is, and which is not the centre *)
Theorem lcg_rejection_ends : forall r, (0 <= r < 2 ^ 64)%Z -> exists k, (Z.of_nat k < 2 ^ 63)%Z /\ let s := Nat.iter (2 * k) lcg_next r in 0 < dist_of lcg_next uniform_of s < 1 /\
  (forall j, (j < k)%nat -> 1 <= dist_of lcg_next uniform_of (Nat.iter (2 * j) lcg_next r)) /\
  forall fuel, (k < fuel)%nat -> polar lcg_next uniform_of fuel r = Some (first_of lcg_next uniform_of s, second_of lcg_next uniform_of s, Nat.iter (2 * S k) lcg_next r).
Proof. exact RejProofs.lcg_polar_ends. Qed.
Print Assumptions lcg_rejection_ends.
(** the same with drand48 *)
Theorem drand48_rejection_ends : forall r, (0 <= r < 2 ^ 48)%Z -> exists k, (Z.of_nat k < 2 ^ 47)%Z /\ let s := Nat.iter (2 * k) d48_next r in 0 < dist_of d48_next d48_uniform_of s < 1 /\
  (forall j, (j < k)%nat -> 1 <= dist_of d48_next d48_uniform_of (Nat.iter (2 * j) d48_next r)) /\
  forall fuel, (k < fuel)%nat -> polar d48_next d48_uniform_of fuel r = Some (first_of d48_next d48_uniform_of s, second_of d48_next d48_uniform_of s, Nat.iter (2 * S k) d48_next r).
Proof. exact RejProofs.d48_polar_ends. Qed.
Print Assumptions drand48_rejection_ends.
(** an array of any length is filled, each entry once, with the two numbers of accepted pairs; no entry is larger than sqrt(252 ln 2), about 13.22 *)
Theorem lcg_normal_array : forall n r, (0 <= r < 2 ^ 64)%Z -> samples_normal lcg_next uniform_of (252 * ln 2) n r.
Proof. exact RejProofs.lcg_normal. Qed.
Print Assumptions lcg_normal_array.
(** the same with drand48, with a bound of sqrt(188 ln 2), about 11.42 *)
Theorem drand48_normal_array : forall n r, (0 <= r < 2 ^ 48)%Z -> samples_normal d48_next d48_uniform_of (188 * ln 2) n r.
Proof. exact RejProofs.d48_normal. Qed.
Print Assumptions drand48_normal_array.

(** ** drand48 *)
(** drand48 returns to its state after 2^48 draws and no fewer *)
Theorem drand48_period : forall n r, (0 <= r < 2 ^ 48)%Z -> (d48_iter n r = r <-> (2 ^ 48 | Z.of_nat n)%Z).
Proof. exact RejProofs.d48_period. Qed.
Print Assumptions drand48_period.
(** and visits every state in between *)
Theorem drand48_visits_all : forall r x, (0 <= r < 2 ^ 48)%Z -> (0 <= x < 2 ^ 48)%Z -> exists n, (0 <= n < 2 ^ 48)%Z /\ d48_iter (Z.to_nat n) r = x.
Proof. exact RejProofs.d48_visits. Qed.
Print Assumptions drand48_visits_all.
(** its numbers are less than 1, unlike those of the other generator (random_uniform_endpoints) *)
Theorem drand48_range : forall r, 0 <= d48_uniform_of (d48_next r) < 1.
Proof. exact RejProofs.d48_range. Qed.
Print Assumptions drand48_range.
(** so that choosing one of n things never yields number n (compare random_uniform_index_refuted) *)
Theorem drand48_index : forall n r, (0 < n)%Z -> (0 <= up (d48_uniform_of (d48_next r) * IZR n) - 1 < n)%Z.
Proof. exact RejProofs.d48_index. Qed.
Print Assumptions drand48_index.
(** the state after seeding is determined by the lower 32 bits of the seed, and determines them *)
Theorem drand48_seeds : forall s t, srand48 s = srand48 t <-> (s mod 2 ^ 32 = t mod 2 ^ 32)%Z.
Proof. exact RejProofs.d48_seeds. Qed.
Print Assumptions drand48_seeds.

(** the first pair of a simulation, which is seeded with 0 (simulate.c:146): accepted at once, with drand48 *)
Example demo_first_pair : srand48 0 = 13070%Z /\ d48_next 13070 = 48083817484545%Z /\ exists x1 x2, forall fuel, polar d48_next d48_uniform_of (S fuel) (srand48 0) = Some (x1, x2, 211078642492280%Z) /\
  x1 = 2 * (48083817484545 / IZR two48) - 1.
Proof.
  split; [reflexivity|]. split; [reflexivity|]. do 2 eexists. intros fuel. split; [|reflexivity]. cbn [polar]. cbv zeta.
  change (d48_next (srand48 0)) with 48083817484545%Z. change (d48_next 48083817484545) with 211078642492280%Z. destruct (Rle_dec 1 _) as [A|A]; [|reflexivity].
  exfalso. unfold d48_uniform_of in A. change two48 with 281474976710656%Z in A. lra.
Qed.
(** with the other generator and seed 0 the first pair is rejected and the second accepted *)
Example demo_rejected : forall fuel, polar lcg_next uniform_of 1 0 = None /\ exists x1 x2, polar lcg_next uniform_of (S (S fuel)) 0 = Some (x1, x2, 8921595095711710844%Z).
Proof.
  intros fuel. assert (A : 1 <= dist_of lcg_next uniform_of 0) by (apply lcg_rej; vm_compute; discriminate). split.
  - cbn [polar]. cbv zeta. unfold dist_of, first_of, second_of in A. destruct (Rle_dec 1 _); [reflexivity|contradiction].
  - do 2 eexists. rewrite (polar_run lcg_next uniform_of 1); [f_equal|lia| |].
    + apply lcg_acc. vm_compute. reflexivity.
    + intros j J. assert (j = 0)%nat as -> by lia. exact A.
Qed.
