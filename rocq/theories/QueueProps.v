(** C05, C06, C07: the shared marker queue under every interleaving. *)
From Coq Require Import ZArith List Bool Arith.
From Verif Require Import QueueModel QueueProofs.
Import ListNotations.

(** Common hypotheses: marker identifiers are nonnegative; loaders that do not
    look at the end condition (guiding centre, field line) are only given
    markers without one. *)
Definition good_queue {P} (n : nat) (chk : bool) (qs : nat -> entry P) : Prop :=
  (forall k, k < n -> (0 <= e_id (qs k))%Z) /\
  (chk = true \/ forall k, k < n -> e_endcond (qs k) = 0%Z).

Section Statements.
Context {P D : Type}.
Implicit Types (n T W k t : nat) (chk : bool) (load : entry P -> @loaded D)
  (store : D -> entry P -> entry P) (sim : D -> D -> bool -> Prop) (qs : nat -> entry P)
  (tr : list (ev D)) (s : sys P D).

(** When all workers have stopped every marker has exactly one complete life:
    taken once, then skipped, failed, or loaded and stored back once by the
    same slot; and its entry is what simulating it alone could give. *)
Theorem queue_every_marker_once : forall n T W chk load store sim qs tr s,
  good_queue n chk qs -> 0 < T -> 0 < W ->
  exec n T W chk load store sim (init qs) tr s -> all_done T s ->
  forall k, k < n -> complete k (hist k tr) /\ outcome chk load store sim (qs k) (ents s k).
Proof.
  exact (fun n T W chk load store sim qs tr s G HT HW =>
    done_all n T W chk load store sim qs (proj1 G) (proj2 G) tr s HT HW).
Qed.

Theorem queue_finished_count : forall n T W chk load store sim qs tr s,
  good_queue n chk qs -> 0 < T -> 0 < W ->
  exec n T W chk load store sim (init qs) tr s -> all_done T s -> fin s = n.
Proof.
  exact (fun n T W chk load store sim qs tr s G HT HW =>
    finished_eq n T W chk load store sim qs (proj1 G) (proj2 G) tr s HT HW).
Qed.

(** At every moment of every execution. *)
Theorem queue_lifecycle_always : forall n T W chk load store sim qs tr s k,
  good_queue n chk qs ->
  exec n T W chk load store sim (init qs) tr s -> k < n -> lifecycle k (hist k tr).
Proof.
  exact (fun n T W chk load store sim qs tr s k G =>
    exec_lifecycle n T W chk load store sim qs (proj1 G) (proj2 G) tr s k).
Qed.

Theorem queue_finished_never_exceeds : forall n T W chk load store sim qs tr s,
  good_queue n chk qs ->
  exec n T W chk load store sim (init qs) tr s -> fin s <= n.
Proof.
  exact (fun n T W chk load store sim qs tr s G =>
    finished_le n T W chk load store sim qs (proj1 G) (proj2 G) tr s).
Qed.

(** The shared index stays below n + (number of slots): no overflow. *)
Theorem queue_next_bounded : forall n T W chk load store sim qs tr s,
  good_queue n chk qs ->
  exec n T W chk load store sim (init qs) tr s -> nxt s <= n + T * W.
Proof.
  exact (fun n T W chk load store sim qs tr s G =>
    next_bound n T W chk load store sim qs (proj1 G) (proj2 G) tr s).
Qed.

Theorem queue_no_data_race : forall n T W chk load store sim qs tr s t1 t2 k,
  good_queue n chk qs ->
  exec n T W chk load store sim (init qs) tr s -> t1 < T -> t2 < T ->
  accesses n s t1 k -> accesses n s t2 k -> t1 = t2.
Proof.
  exact (fun n T W chk load store sim qs tr s t1 t2 k G =>
    no_race n T W chk load store sim qs (proj1 G) (proj2 G) tr s t1 t2 k).
Qed.

(** No thread blocks, whatever conversions fail. *)
Theorem queue_no_thread_blocks : forall n T W chk load store sim qs tr s t,
  good_queue n chk qs -> (forall d, exists d' r, sim d d' r) ->
  exec n T W chk load store sim (init qs) tr s -> t < T -> pcs s t <> PDone ->
  exists e s', step n T W chk load store sim s e s' /\ moved t s s'.
Proof.
  exact (fun n T W chk load store sim qs tr s t G =>
    progress n T W chk load store sim qs (proj1 G) (proj2 G) tr s t).
Qed.

(** C06: a marker whose conversion fails ends with exactly its error recorded. *)
Theorem queue_failed_load_reported : forall n T W chk load store sim qs tr s k x,
  good_queue n chk qs -> 0 < T -> 0 < W ->
  exec n T W chk load store sim (init qs) tr s -> all_done T s -> k < n ->
  e_endcond (qs k) = 0%Z -> (load (qs k) = LEarly x \/ load (qs k) = LLate x) ->
  ents s k = with_err (qs k) x /\ (forall t i, ~ In (ELoad t i k) tr).
Proof. exact failed_reported. Qed.

(** C07: full-orbit loader leaves an already finished marker untouched. *)
Theorem queue_ended_marker_untouched : forall n T W load store sim qs tr s k,
  good_queue n true qs -> 0 < T -> 0 < W ->
  exec n T W true load store sim (init qs) tr s -> all_done T s -> k < n ->
  e_endcond (qs k) <> 0%Z ->
  ents s k = qs k /\ (forall t i, ~ In (ELoad t i k) tr).
Proof. exact ended_untouched. Qed.

(** Finding: a marker with a negative identifier is never written back. *)
Theorem queue_negative_id_never_written_back : forall n T W chk load store sim qs k tr s,
  (e_id (qs k) < 0)%Z ->
  exec n T W chk load store sim (init qs) tr s -> forall t i d, ~ In (EStore t i k d) tr.
Proof.
  exact (fun n T W chk load store sim qs k tr s H =>
    negative_never_stored n T W chk load store sim qs k H tr s).
Qed.
End Statements.

(** Finding: without the end-condition check (guiding-centre and field-line
    loaders) an already finished marker can stop the worker, leaving later
    markers unsimulated and the finished count short. *)
Theorem queue_ended_marker_gc_refuted :
  exists tr s, exec 2 1 1 false ex_load ex_store (simr ex_sim) (init bad_queue) tr s /\
    all_done 1 s /\ fin s = 0 /\ hist 1 tr = [] /\ ents s 1 = bad_queue 1
    /\ (forall t i d, ~ In (EStore t i 0 d) tr).
Proof. exact ended_marker_stops_thread. Qed.

Print Assumptions queue_every_marker_once.
Print Assumptions queue_finished_count.
Print Assumptions queue_lifecycle_always.
Print Assumptions queue_finished_never_exceeds.
Print Assumptions queue_next_bounded.
Print Assumptions queue_no_data_race.
Print Assumptions queue_no_thread_blocks.
Print Assumptions queue_failed_load_reported.
Print Assumptions queue_ended_marker_untouched.
Print Assumptions queue_negative_id_never_written_back.
Print Assumptions queue_ended_marker_gc_refuted.

(** Four markers (one to skip, one failing), two threads of two slots, an
    interleaved schedule that runs to completion. *)
Definition ex_queue (k : nat) : entry Z :=
  match k with
  | 0 => mkentry 10 0 0 2%Z
  | 1 => mkentry 11 8 0 2%Z
  | 2 => mkentry 12 0 0 (-1)%Z
  | _ => mkentry 13 0 0 1%Z
  end.
Example ex_queue_good : good_queue 4 true ex_queue.
Proof.
  split; [|now left]. intros k _. do 3 (destruct k as [|k]; [vm_compute; discriminate|]).
  vm_compute; discriminate.
Qed.
Definition ex_sched : list nat := concat (repeat [0; 1; 1; 0] 40).
Example ex_run_complete :
  exists tr s, exec 4 2 2 true ex_load ex_store (simr ex_sim) (init ex_queue) tr s /\
  all_done 2 s /\ fin s = 4 /\ map (ents s) [0; 1; 2; 3] =
    [mkentry 10 1 0 0%Z; mkentry 11 8 0 2%Z; mkentry 12 0 77 (-1)%Z; mkentry 13 1 0 0%Z].
Proof.
  set (p := run 4 2 2 true ex_load ex_store ex_sim ex_sched (init ex_queue)).
  exists (fst p), (snd p). split; [apply run_exec|]. split; [|vm_compute; auto].
  intros t Ht. do 2 (destruct t as [|t]; [vm_compute; reflexivity|]).
  exfalso. apply (Nat.nlt_0_r t). now do 2 apply Nat.succ_lt_mono.
Qed.
