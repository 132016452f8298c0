(** thermal fusion reactants drawn with drand48, and the sampler of math.c *)
From Coq Require Import ZArith List Reals Bool Lia Lra.
From Verif Require Import AfsiModel AfsiProofs RandomModel RejModel RejProofs ThmModel ThmProofs.
Import ListNotations.
Import ListNotations.
Local Open Scope R_scope.

(** ** Thermal reactants *)
(** a sample has an infinite energy if, and only if, the first or the second number drawn is zero *)
Theorem thermal_infinite_iff : forall ti m r, fst (thermal_draw ti m r) = None <-> d48_next r = 0%Z \/ d48_next (d48_next r) = 0%Z.
Proof. exact ThmProofs.draw_infinite. Qed.
Print Assumptions thermal_infinite_iff.
(** every other sample has a positive energy of at most 96 ln 2, about 66.5, temperatures *)
Theorem thermal_bounded : forall ti m r pa pp, 0 < ti -> 0 < m -> fst (thermal_draw ti m r) = Some (pa, pp) ->
  0 <= pp /\ 0 < pa * pa + pp * pp <= 2 * m * (96 * ln 2 * ti).
Proof. exact ThmProofs.draw_bounded. Qed.
Print Assumptions thermal_bounded.
(** each sample takes four numbers *)
Theorem thermal_draws : forall ti m n r, length (fst (thermal_loop ti m n r)) = n /\ snd (thermal_loop ti m n r) = d48_iter (4 * n) r.
Proof. exact ThmProofs.loop_length. Qed.
Print Assumptions thermal_draws.
(** after seeding with any number the first logarithm of every sample is finite: the two lowest bits of the state count the draws *)
Theorem thermal_first_log : forall s i, 0 < d48_uniform_of (d48_iter (4 * i + 1) (srand48 s)) < 1.
Proof. exact ThmProofs.first_log. Qed.
Print Assumptions thermal_first_log.
(** the second is not: whatever the seed, exactly one of the first 2^46 samples has an infinite energy *)
Theorem thermal_finite_refuted : forall ti m s, exists i, (Z.of_nat i < 2 ^ 46)%Z /\ forall n, (i < n)%nat ->
  nth_error (fst (thermal_loop ti m n (srand48 s))) i = Some None /\
  forall j, (j < n)%nat -> (Z.of_nat j < 2 ^ 46)%Z -> j <> i -> exists p, nth_error (fst (thermal_loop ti m n (srand48 s))) j = Some (Some p).
Proof. exact ThmProofs.one_infinite. Qed.
Print Assumptions thermal_finite_refuted.
(** and this happens within a call of AFSI: started at 09:03:44 UTC on 3 February 2031, sample 224850 of the first thermal reactant of the first cell *)
Theorem thermal_call_refuted : forall ti m n i, Z.of_nat i = 224850%Z -> (i < n)%nat -> nth_error (fst (thermal_loop ti m n (srand48 1927875824))) i = Some None.
Proof. exact ThmProofs.infinite_in_call. Qed.
Print Assumptions thermal_call_refuted.
(** in a run between two thermal species on one thread every sample has four numbers of its own, after a multiple of four draws, whichever cells are skipped *)
Theorem thermal_run_blocks : forall n m1 m2 cells s, exists k, (k <= 3 * n * length cells)%nat /\ drawn (srand48 s) 0 k (fst (thermal_run n m1 m2 cells (srand48 s))) /\
  snd (thermal_run n m1 m2 cells (srand48 s)) = d48_iter (4 * k) (srand48 s).
Proof. exact ThmProofs.run_blocks. Qed.
Print Assumptions thermal_run_blocks.
(** so that at most one sample of the run is infinite, if it is shorter than the period *)
Theorem thermal_run_at_most_one : forall n m1 m2 cells s, (12 * Z.of_nat n * Z.of_nat (length cells) <= 2 ^ 48)%Z -> (infinite (fst (thermal_run n m1 m2 cells (srand48 s))) <= 1)%nat.
Proof. exact ThmProofs.run_one. Qed.
Print Assumptions thermal_run_at_most_one.

(** ** math.c *)
(** math_normal_rand ends from every state, and returns what random_normal returns *)
Theorem math_normal_rand_ends : forall r, (0 <= r < 2 ^ 48)%Z -> exists fuel x k, x * x <= 188 * ln 2 /\
  (forall f, (fuel <= f)%nat -> normal_rand f r = Some (x, d48_iter (2 * k) r)) /\
  (forall f, (fuel <= f)%nat -> normal_simd d48_next d48_uniform_of f 1 r = Some ([(0%nat, x)], d48_iter (2 * k) r)).
Proof. exact ThmProofs.rand_ends. Qed.
Print Assumptions math_normal_rand_ends.

(** a state from which the sample is infinite, and one from which it is not: that of seed 0 *)
Example demo_infinite : fst (thermal_draw 1 1 120305458776662) = None /\ exists p, fst (thermal_draw 1 1 (srand48 0)) = Some p.
Proof.
  split; [apply draw_infinite; right; reflexivity|]. destruct (fst (thermal_draw 1 1 (srand48 0))) as [p|] eqn:E; [now exists p|]. apply draw_infinite in E. vm_compute in E. destruct E; discriminate.
Qed.
(** a run over three cells, one of which is skipped, with 2 samples each: 8 samples, 48 draws, at most one infinite *)
Example demo_run : let run := thermal_run 2 1 1 [Some (Some (1, 1), Some (1, 1)); None; Some (Some (1, 1), Some (1, 1))] (srand48 0) in
  length (fst run) = 8%nat /\ snd run = d48_iter 48 (srand48 0) /\ (infinite (fst run) <= 1)%nat.
Proof.
  cbv zeta. split; [|split].
  - reflexivity.
  - cbn [thermal_run thermal_cell thermal_reactant thermal_loop]. destruct (Req_EM_T 1 0); [exfalso; lra|]. reflexivity.
  - apply run_one. cbn. lia.
Qed.
