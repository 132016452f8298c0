(** One whole pass of the simulation loops as one step of a marker: the physics and the
    bookkeeping of time, mileage and CPU time, then the end conditions on the same SIMD
    slot (simulate_fo_fixed.c:92-195, simulate_gc_fixed.c:105-240,
    simulate_gc_adaptive.c:120-300, simulate_ml_adaptive.c:98-205, each up to
    particle_cycle).  These steps are what the threads of QueueModel do between two calls of
    particle_cycle; together they are the whole simulation of a queue of markers.

    The passes are those of SimModel, the end conditions those of EndcondModel; what the
    physics modules, the wall and the temperature return is arbitrary and new in every
    pass.  The loop over the slots and the diagnostics do not change a marker. *)
From Coq Require Import Reals ZArith Bool.
From Verif Require Import SimModel EndcondModel.
Local Open Scope R_scope.

Section turns.
Context {X : Type}.
Notation marker := (marker X).

(** the fields of the slot the end conditions read *)
Definition sees (q : marker) (kf : kin) (s : st) : Prop :=
  mileage kf = k_mileage q /\ cputime kf = k_cputime q /\ q_time (at_ s) = k_time q /\
  running s = k_run q /\ err s = k_err q.
(** the slot after the end conditions; the rest of the marker may be anything *)
Definition ended (q : marker) (s : st) (x : X) : marker :=
  Mk (q_time (at_ s)) (k_mileage q) (k_cputime q) (q_phi (at_ s)) (k_rho q) (k_id q) (err s) (running s) x.

(** physics modules leave id, time, mileage and CPU time alone, do not touch stopped
    markers, and stop a marker when they record an error *)
Definition calm (f : physics X) : Prop := forall p h, let q := fst (f p h) in
  k_time q = k_time p /\ k_mileage q = k_mileage p /\ k_cputime q = k_cputime p /\ k_id q = k_id p /\
  (k_run p = false -> q = p) /\ (k_run q = true -> k_err q = k_err p).
Definition calm_pass (w : pass X) : Prop := calm (w_orb w) /\ calm (w_col w) /\ calm (w_rf w).

(** what the outside world answers in one pass *)
Record world := World {
  v_pass : pass X;
  v_wall : R -> R -> R -> R -> R -> R -> Z * R;
  v_temp : R -> R -> R -> R -> R -> Z * R;
  v_ekin : R -> R -> R;
  v_ekpar : R -> R -> R -> R -> R;
  v_ki : kin; v_qi : pos; v_kf : kin; v_s : st; v_x : X }.

(** simulate_fo_fixed.c; the step comes from the options and stays *)
Definition fo_turn (oo : options) (eo : opts) (h : R) (v : world) (p p' : marker) (r : bool) : Prop :=
  let q := fst (fof_pass oo (v_pass v) p h) in
  sees q (v_kf v) (v_s v) /\
  let s := check_fo (v_wall v) (v_temp v) (v_ekin v) eo (v_ki v) (v_qi v) (v_kf v) (v_s v) in
  p' = ended q s (v_x v) /\ r = running s.

(** simulate_gc_fixed.c; the marker comes with its three steps *)
Definition gcf_turn (oo : options) (eo : opts) (v : world) (d d' : marker * (R * R * R)) (r : bool) : Prop :=
  let '(q, hs, _) := gcf_pass oo (v_pass v) (fst d) (snd d) in
  sees q (v_kf v) (v_s v) /\
  let s := check_gc (v_wall v) (v_temp v) (v_ekpar v) eo (v_ki v) (v_qi v) (v_kf v) (v_s v) in
  d' = (ended q s (v_x v), hs) /\ r = running s.

(** simulate_gc_adaptive.c; the marker comes with its step *)
Definition gca_turn (oo : options) (eo : opts) (v : world) (d d' : marker * R) (r : bool) : Prop :=
  let '(q, h', _) := gca_pass oo (v_pass v) (fst d) (snd d) in
  sees q (v_kf v) (v_s v) /\
  let s := check_gc (v_wall v) (v_temp v) (v_ekpar v) eo (v_ki v) (v_qi v) (v_kf v) (v_s v) in
  d' = (ended q s (v_x v), h') /\ r = running s.

(** simulate_ml_adaptive.c; [c] the speed of light *)
Definition mla_turn (c : R) (oo : options) (eo : opts) (v : world) (d d' : marker * R) (r : bool) : Prop :=
  let '(q, h', _) := mla_pass c oo (v_pass v) (fst d) (snd d) in
  sees q (v_kf v) (v_s v) /\
  let s := check_ml (v_wall v) eo (v_qi v) (v_kf v) (v_s v) in
  d' = (ended q s (v_x v), h') /\ r = running s.
End turns.
Arguments world X : clear implicits.
