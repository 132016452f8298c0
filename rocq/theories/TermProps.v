(** Simulations end: bounded numbers of passes and of steps of all threads; what never ends *)
From Coq Require Import Reals ZArith List Bool Lia Lra Arith.
From Verif Require Import QueueModel QueueProofs SimModel EndcondModel TermModel TermProofs.
Import ListNotations.
Import ListNotations.
Local Open Scope R_scope.

(** ** The queue *)
Section queue.
Local Open Scope nat_scope.
(** when no marker can be simulated for ever, the threads together take a bounded number of steps, in whatever order *)
Theorem term_queue_bounded : forall (P D : Type), forall n T W chk (load : entry P -> @loaded D) (store : D -> entry P -> entry P) (sim : D -> D -> bool -> Prop) (qs : nat -> entry P),
  proper_queue n chk qs -> limited n load sim qs ->
  exists N, forall m tr s, nsteps n T W chk load store sim (init qs) m tr s -> m <= N.
Proof. exact @TermProofs.queue_bounded. Qed.
(** no endless execution exists, fair or not *)
Theorem term_queue_not_endless : forall (P D : Type), forall n T W chk (load : entry P -> @loaded D) (store : D -> entry P -> entry P) (sim : D -> D -> bool -> Prop) (qs : nat -> entry P),
  proper_queue n chk qs -> limited n load sim qs ->
  forall f : nat -> sys P D, f 0 = init qs -> ~ (forall i, exists e, step n T W chk load store sim (f i) e (f (S i))).
Proof. exact @TermProofs.queue_not_endless. Qed.
(** the end is reachable, and an execution that cannot continue has finished every marker with a result it can have on its own *)
Theorem term_queue_ends : forall (P D : Type), forall n T W chk (load : entry P -> @loaded D) (store : D -> entry P -> entry P) (sim : D -> D -> bool -> Prop) (qs : nat -> entry P),
  proper_queue n chk qs -> limited n load sim qs -> (forall d, exists d' r, sim d d' r) -> 0 < T -> 0 < W ->
  (exists tr s, exec n T W chk load store sim (init qs) tr s /\ all_done T s) /\
  forall tr s, exec n T W chk load store sim (init qs) tr s -> (forall e s', ~ step n T W chk load store sim s e s') ->
    all_done T s /\ fin s = n /\ forall k, k < n -> outcome chk load store sim (qs k) (ents s k).
Proof. exact @TermProofs.queue_ends. Qed.
End queue.
Print Assumptions term_queue_bounded.
Print Assumptions term_queue_not_endless.
Print Assumptions term_queue_ends.

(** ** The loops *)
Section loops.
Context {X : Type}.
Notation marker := (marker X).
(** full orbit, fixed step: after m passes a marker that goes on has m steps of mileage and of time, and is within both limits; so there are at most (limit - mileage) / step such passes *)
Theorem term_fo_passes : forall oo eo h m (p p' : marker), time_limit eo -> going (fo_sim oo eo h) m p p' -> (0 < m)%nat ->
  k_mileage p' = k_mileage p + INR m * h /\ k_time p' = k_time p + dir (o_rev oo) * (INR m * h) /\
  k_mileage p' <= max_mileage eo /\ in_time eo (k_time p').
Proof. exact (@TermProofs.fo_passes X). Qed.
(** and it ends at most one step beyond the limit *)
Theorem term_fo_last_pass : forall oo eo h m (p p' p'' : marker), time_limit eo -> 0 < h -> k_mileage p <= max_mileage eo ->
  going (fo_sim oo eo h) m p p' -> fo_sim oo eo h p' p'' false -> k_mileage p'' <= max_mileage eo + h.
Proof. exact (@TermProofs.fo_last_pass X). Qed.
(** adaptive guiding centre: every pass is paid for, also a rejected one, so a CPU limit bounds their number *)
Theorem term_gca_passes : forall c oo eo m (p : marker) h d', cpu_limit eo -> (0 < k_id p)%Z -> k_err p = 0%Z ->
  going (gca_sim c oo eo) m (p, h) d' -> (0 < m)%nat -> k_cputime p + INR m * c <= k_cputime (fst d') <= max_cputime eo.
Proof. exact (@TermProofs.gca_passes X). Qed.
(** full orbit with a time limit: the whole simulation ends, for every queue and number of threads *)
Theorem term_fo_ends : forall (P : Type), forall n T W chk (load : entry P -> @loaded (marker * R)) store qs oo eo,
  proper_queue n chk qs -> (0 < T)%nat -> (0 < W)%nat -> time_limit eo ->
  (forall k d, (k < n)%nat -> load (qs k) = LOk d -> 0 < snd d) ->
  simulation_ends n T W chk load store (fo_sim_h oo eo) qs.
Proof. exact (@TermProofs.fo_ends X). Qed.
(** guiding centre with fixed step and a time limit, without RF *)
Theorem term_gc_fixed_ends : forall (P : Type), forall n T W chk (load : entry P -> @loaded (marker * (R * R * R))) store qs oo eo,
  proper_queue n chk qs -> (0 < T)%nat -> (0 < W)%nat -> time_limit eo -> o_icrh oo = false ->
  (forall k d, (k < n)%nat -> load (qs k) = LOk d -> exists p h hdef, d = (p, (h, hdef, 1)) /\ 0 < h) ->
  simulation_ends n T W chk load store (gcf_sim oo eo) qs.
Proof. exact (@TermProofs.gcf_ends X). Qed.
(** guiding centre with adaptive step and a CPU limit, markers with positive id *)
Theorem term_gc_adaptive_ends : forall (P : Type), forall n T W chk (load : entry P -> @loaded (marker * R)) store qs c oo eo,
  proper_queue n chk qs -> (0 < T)%nat -> (0 < W)%nat -> cpu_limit eo -> 0 < c ->
  (forall k d, (k < n)%nat -> load (qs k) = LOk d -> (0 < k_id (fst d))%Z /\ k_err (fst d) = 0%Z) ->
  simulation_ends n T W chk load store (gca_sim c oo eo) qs.
Proof. exact (@TermProofs.gca_ends X). Qed.
(** field lines with a CPU limit *)
Theorem term_ml_adaptive_ends : forall (P : Type), forall n T W chk (load : entry P -> @loaded (marker * R)) store qs c lc oo eo,
  proper_queue n chk qs -> (0 < T)%nat -> (0 < W)%nat -> cpu_limit eo -> 0 < c ->
  (forall k d, (k < n)%nat -> load (qs k) = LOk d -> k_err (fst d) = 0%Z) ->
  simulation_ends n T W chk load store (mla_sim c lc oo eo) qs.
Proof. exact (@TermProofs.mla_ends X). Qed.

(** ** What never ends *)
(** finding: a marker with id 0 is accepted by the queue but the adaptive loop never advances its time, mileage or CPU time *)
Theorem term_id_zero : forall c oo eo m (p : marker) h d', (k_id p <= 0)%Z -> going (gca_sim c oo eo) m (p, h) d' ->
  k_time (fst d') = k_time p /\ k_mileage (fst d') = k_mileage p /\ k_cputime (fst d') = k_cputime p.
Proof. exact (@TermProofs.gca_id_zero X). Qed.
(** so neither the time nor the CPU limit ends it *)
Theorem term_id_zero_refuted : forall c oo eo (p : marker) h m, o_orb oo = true -> k_id p = 0%Z -> k_run p = true -> k_err p = 0%Z -> 0 < h ->
  only_limits eo p -> going (gca_sim c oo eo) m (p, h) (p, h).
Proof. exact (@TermProofs.gca_id_zero_endless X). Qed.
(** finding: the fixed-step loop does not count CPU time of passes rejected by the RF module, so the CPU limit does not end a marker whose steps are always rejected *)
Theorem term_rf_rejected_refuted : forall oo eo c (p : marker) h hdef m, o_icrh oo = true -> k_run p = true -> k_err p = 0%Z -> 0 < h -> only_limits eo p ->
  going (fun d d' r => exists v, calm_pass (v_pass v) /\ w_cpu (v_pass v) = c /\ gcf_turn oo eo v d d' r) m (p, (h, hdef, 1)) (p, (h, hdef, 1)).
Proof. exact (@TermProofs.gcf_rejected_endless X). Qed.
(** a time limit alone does not end the adaptive loop: accepted steps may shrink for ever *)
Theorem term_time_limit_refuted : forall (x : X) eo, active eo = 257%Z -> sim_mode eo <> 3%Z -> reverse_time eo = false ->
  2 <= max_mileage eo -> 2 <= lim_simtime eo -> 0 <= max_cputime eo ->
  forall m, going (gca_sim 0 (Opt false false true false 1 1) eo) m (halved x 0) (halved x m) /\
    k_mileage (fst (halved x m)) < k_mileage (fst (halved x (S m))) < 2.
Proof. exact (@TermProofs.gca_time_limit_endless X). Qed.
End loops.
Print Assumptions term_fo_passes.
Print Assumptions term_fo_last_pass.
Print Assumptions term_gca_passes.
Print Assumptions term_fo_ends.
Print Assumptions term_gc_fixed_ends.
Print Assumptions term_gc_adaptive_ends.
Print Assumptions term_ml_adaptive_ends.
Print Assumptions term_id_zero.
Print Assumptions term_id_zero_refuted.
Print Assumptions term_rf_rejected_refuted.
Print Assumptions term_time_limit_refuted.

(** ** Examples *)
(** counters as markers: three markers, of which the second fails to load, two threads of
    two slots *)
Definition ex_q (k : nat) : entry nat := {| e_id := Z.of_nat k; e_endcond := 0; e_err := 0; e_pay := k |}.
Definition ex_load (e : entry nat) : @loaded nat := if Nat.eqb (e_pay e) 1 then LEarly 7%Z else LOk (5 + e_pay e)%nat.
Definition ex_store (d : nat) (e : entry nat) : entry nat := {| e_id := e_id e; e_endcond := 1; e_err := e_err e; e_pay := d |}.
Definition ex_sim (d d' : nat) (r : bool) : Prop := d' = (d - 1)%nat /\ r = Nat.ltb 1 d.
Example ex_limited : limited 3 ex_load ex_sim ex_q.
Proof.
  exists (fun _ => True), (fun d => d). split; [auto|]. intros d d' _ [-> E]. symmetry in E. apply Nat.ltb_lt in E. split; [auto|lia].
Qed.
Example ex_ends : exists tr s, exec 3 2 2 true ex_load ex_store ex_sim (init ex_q) tr s /\ all_done 2 s /\ fin s = 3%nat.
Proof.
  assert (G : proper_queue 3 true ex_q) by (split; [intros k _; cbn; lia|now left]).
  destruct (term_queue_ends nat nat 3 2 2 true ex_load ex_store ex_sim ex_q G ex_limited) as ((tr & s & E & A) & B); try lia.
  - intros d. exists (d - 1)%nat, (Nat.ltb 1 d). split; reflexivity.
  - exists tr, s. split; [exact E|]. split; [exact A|].
    exact (finished_eq 3 2 2 true ex_load ex_store ex_sim ex_q (proj1 G) (proj2 G) tr s ltac:(lia) ltac:(lia) E A).
Qed.
(** steps of one second with a limit of 2.5: two passes go on, the third ends the marker *)
Definition ex_eo : opts := {| active := 1; reverse_time := false; sim_mode := 1; lim_simtime := 10; max_mileage := 2.5; min_ekin := 0; min_thermal := 0;
  max_rho := 0; min_rho := 0; max_tororb := 0; max_polorb := 0; max_cputime := 0; torandpol := false |}.
Definition ex_oo : options := Opt false true true false 1 1.
Definition ex_p (t : R) (b : bool) : marker unit := Mk t t 0 0 0 0 0 b tt.
Lemma ex_turn t : t + 1 <= 10 -> fo_sim ex_oo ex_eo 1 (ex_p t true) (ex_p (t + 1) (if Rlt_dec 2.5 (t + 1) then false else true)) (if Rlt_dec 2.5 (t + 1) then false else true).
Proof.
  intros L. exists (plain (lazy_pass (fun x => x) 0) (ex_p (t + 1) true)). split; [apply lazy_pass_calm|]. unfold fo_turn.
  assert (E : fst (fof_pass ex_oo (lazy_pass (fun x => x) 0) (ex_p t true) 1) = ex_p (t + 1) true).
  { unfold fof_pass, ex_p, add_cpu, advance. cbn. f_equal; ring. }
  cbn [plain v_pass v_kf v_s v_x v_ki v_qi v_wall v_temp v_ekin]. rewrite E. split; [apply plain_sees|]. cbv zeta.
  assert (F : check_fo (fun _ _ _ _ _ _ => (0%Z, 0)) (fun _ _ _ _ _ => (0%Z, 0)) (fun _ _ => 0) ex_eo (plain_kin (ex_p (t + 1) true)) (mkpos 1 0 0 0) (plain_kin (ex_p (t + 1) true)) (plain_st (ex_p (t + 1) true))
    = flag (if Rlt_dec 2.5 (t + 1) then true else false) 1 (plain_st (ex_p (t + 1) true))).
  { unfold check_fo, check_tlim, check_wall_fo, check_energy, check_rho, check_orbits, check_cpu, on, pdotB, plain_kin, plain_st, ex_p. cbn -[Rltb Rlt_dec flag].
    rewrite (Rltb_false ((0 * 0 + 0 * 0 + 0 * 0) * (0 * 0 + 0 * 0 + 0 * 0)) 0), (Rltb_false 10 (t + 1)) by lra. unfold Rltb. cbn -[Rlt_dec]. destruct (Rlt_dec 2.5 (t + 1)); reflexivity. }
  rewrite F. destruct (Rlt_dec 2.5 (t + 1)); cbn; split; reflexivity.
Qed.
Example ex_fo_two : going (fo_sim ex_oo ex_eo 1) 2 (ex_p 0 true) (ex_p (0 + 1 + 1) true) /\ fo_sim ex_oo ex_eo 1 (ex_p (0 + 1 + 1) true) (ex_p (0 + 1 + 1 + 1) false) false.
Proof.
  pose proof (ex_turn 0 ltac:(lra)) as A. pose proof (ex_turn (0 + 1) ltac:(lra)) as B. pose proof (ex_turn (0 + 1 + 1) ltac:(lra)) as C.
  destruct (Rlt_dec 2.5 (0 + 1)); [lra|]. destruct (Rlt_dec 2.5 (0 + 1 + 1)); [lra|]. destruct (Rlt_dec 2.5 (0 + 1 + 1 + 1)); [|lra].
  split; [|exact C]. econstructor; [econstructor; [constructor|exact A]|exact B].
Qed.
Example ex_fo_not_three : forall p', ~ going (fo_sim ex_oo ex_eo 1) 3 (ex_p 0 true) p'.
Proof.
  intros p' G. destruct (term_fo_passes ex_oo ex_eo 1 3 (ex_p 0 true) p' ltac:(discriminate) G ltac:(lia)) as (A & _ & B & _).
  rewrite A in B. cbn in B. lra.
Qed.
(** a simulation of such markers, any queue *)
Example ex_fo_ends : forall n (qs : nat -> entry nat) store, (forall k, 0 <= e_id (qs k))%Z ->
  simulation_ends n 4 8 true (fun e => LOk (ex_p 0 true, 1 + INR (e_pay e))) store (fo_sim_h (X:=unit) ex_oo ex_eo) qs.
Proof. intros. apply term_fo_ends; try lia; [split; auto|discriminate|]. intros k d _ [= <-]. cbn [snd]. pose proof (pos_INR (e_pay (qs k))). lra. Qed.
