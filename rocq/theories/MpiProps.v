(** C03, C04: sharing markers over MPI ranks and collecting results. *)
From Coq Require Import ZArith List Arith.
From Verif Require Import StateModel MpiModel MpiProofs.
Import ListNotations.

(** The ranges, written out in rank order, are exactly 0 .. n_tot-1: disjoint,
    ordered, complete. *)
Theorem ranks_cover_markers_in_order : forall n_tot size, 1 <= size ->
  flat_map (fun i => let '(s, n) := my_particles n_tot i size in seq s n) (seq 0 size)
  = seq 0 n_tot.
Proof. exact partition_cover. Qed.
Print Assumptions ranks_cover_markers_in_order.

Theorem every_marker_has_one_rank : forall n_tot size g, 1 <= size -> g < n_tot ->
  exists! i, i < size /\ (let '(s, n) := my_particles n_tot i size in s <= g < s + n).
Proof. exact partition_unique. Qed.
Print Assumptions every_marker_has_one_rank.

Theorem rank_share_bounds : forall n_tot size i, 1 <= size -> i < size ->
  n_tot / size <= snd (my_particles n_tot i size) < n_tot / size + size.
Proof. exact partition_balance. Qed.
Print Assumptions rank_share_bounds.

(** Every field of every marker ends up at its global index. *)
Theorem gathered_states_exact : forall (X : Type) n_tot size (global : nat -> pstate X),
  1 <= size ->
  exists all,
    gather n_tot size (fun i j => global (fst (my_particles n_tot i size) + j)) = Some all
    /\ length all = n_tot /\ forall g, g < n_tot -> rd all g = Some (global g).
Proof. exact @gather_global. Qed.
Print Assumptions gathered_states_exact.

Theorem condor_gather_exact : forall (X : Type) n_tot rank size (ps : nat -> pstate X),
  exists all, gather_condor n_tot rank size ps = Some all
    /\ length all = snd (my_particles n_tot rank size)
    /\ forall j, j < snd (my_particles n_tot rank size) -> rd all j = Some (ps j).
Proof. exact @condor_ok. Qed.
Print Assumptions condor_gather_exact.

(** Finding: ascot5_main.c:214 prints a summary over n_tot entries of that
    array, which reads past its end. *)
Theorem condor_summary_out_of_bounds_refuted :
  forall (X : Type) n_tot rank size (ps : nat -> pstate X) all,
  2 <= size -> size <= n_tot -> rank < size - 1 ->
  gather_condor n_tot rank size ps = Some all -> rd all (n_tot - 1) = None.
Proof. exact @condor_short. Qed.
Print Assumptions condor_summary_out_of_bounds_refuted.

Theorem gathered_orbit_points_exact : forall (X : Type) n_tot size npnt (local : nat -> buf X),
  1 <= size ->
  (forall i, i < size -> length (local i) = snd (my_particles n_tot i size) * npnt) ->
  exists all, orb_gather n_tot size npnt local = Some all /\ length all = n_tot * npnt
    /\ forall i j k, i < size -> j < snd (my_particles n_tot i size) -> k < npnt ->
       nth_error all ((fst (my_particles n_tot i size) + j) * npnt + k)
       = nth_error (local i) (j * npnt + k).
Proof. exact @orb_gather_ok. Qed.
Print Assumptions gathered_orbit_points_exact.

Theorem orbit_messages_paired : forall m pc, orb_sent m pc = orb_received m pc.
Proof. exact orb_send_recv_match. Qed.
Print Assumptions orbit_messages_paired.

(** Finding: exactly in the full-orbit and guiding-centre modes are the
    recorded orbit quantities the ones that are exchanged. *)
Theorem orbit_quantities_exchanged_iff : forall m pc,
  (m = mode_fo \/ m = mode_gc) <->
  (forall f, In f (orb_sent m pc) <-> In f (orb_allocated m pc)).
Proof. exact orb_sent_allocated. Qed.
Print Assumptions orbit_quantities_exchanged_iff.

Example share_ex : map (fun i => my_particles 11 i 4) (seq 0 4)
  = [(0, 2); (2, 2); (4, 2); (6, 5)].
Proof. reflexivity. Qed.
Example share_fewer_markers_than_ranks : map (fun i => my_particles 2 i 4) (seq 0 4)
  = [(0, 0); (0, 0); (0, 0); (0, 2)].
Proof. reflexivity. Qed.
(** A concrete state in which all fields differ. *)
Definition ex_state (k : Z) : pstate Z :=
  (mkps (100*k+1) (100*k+2) (100*k+3) (100*k+4) (100*k+5) (100*k+6) (100*k+7)
  (100*k+8) (100*k+9) (100*k+10) (100*k+11) (100*k+12) (100*k+13) (100*k+14)
  (100*k+15) (100*k+16) (100*k+17) (100*k+18) (100*k+19) (100*k+20) (100*k+21)
  (100*k+22) (100*k+23) (100*k+24) (100*k+25) (100*k+26) (100*k+27) (100*k+28)
  (100*k+29) (100*k+30) (100*k+31) (100*k+32) (100*k+33) (100*k+34) (100*k+35)
  (100*k+36) (100*k+37) (100*k+38))%Z.
Example gather_ex :
  gather 5 2 (fun i j => ex_state (Z.of_nat (fst (my_particles 5 i 2) + j)))
  = Some (map (fun g => Some (ex_state (Z.of_nat g))) (seq 0 5)).
Proof. vm_compute. reflexivity. Qed.
Example orb_gather_ex :
  orb_gather 3 2 2 (fun i => if Nat.eqb i 0 then [Some 10; None]
                             else [Some 20; None; Some 30; Some 31])
  = Some [Some 10; None; Some 20; None; Some 30; Some 31].
Proof. reflexivity. Qed.
