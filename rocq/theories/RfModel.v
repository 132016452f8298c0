(** Model of the interface to the RF heating library: src/rfof.c (compiled with RFOF), its use in
    simulate_gc_adaptive.c and simulate_gc_fixed.c, and libascot_eval_rfof (libascot.c:984-1026).

    The Fortran routines behind the interface are given from outside: what they do to the values they get pointers
    to, to their own memory of a slot and what they return is arbitrary. Pointers to the time and to the time step
    are taken to be read only. The bounce time is not used when the parallel velocity vanishes (division by zero). *)
From Coq Require Import Reals ZArith List Bool String.
Import ListNotations.
From Verif Require Import Vec PhysModel SimModel AxisModel BfModel LwModel.
Import Verif.Vec.
Local Open Scope string_scope.
Local Open Scope R_scope.

(** the values behind the pointers of call_set_marker_pointers, in the order of its arguments (rfof.c:262-283) *)
Record view := View { v_id : Z; v_weight : R; v_R : R; v_phi : R; v_z : R; v_psi : R; v_charge : R; v_mass : R; v_Ekin : R; v_speed : R; v_mu : R; v_Pphi : R;
  v_vpar : R; v_vperp : R; v_gyrof : R; v_tauB : R; v_vdrift : R; v_acc : R; v_isacc : Z }.

Section kick.
Variables (Y Mem : Type).
(** the part of a guiding centre the time stepping of SimModel does not look at; [x_B] is (B_r, B_phi, B_z) *)
Record rest := Rest { x_r : R; x_z : R; x_ppar : R; x_mu : R; x_mass : R; x_charge : R; x_weight : R; x_B : vec; x_other : Y }.
Notation gc := (marker rest).
(** call_rf_kick: time, step, marker and memory give marker, memory, err, dvpar and RFdt *)
Definition library := R -> R -> view -> Mem -> view * Mem * Z * R * R.
(** B_field_eval_psi at (r, phi, z, time); psi is left uninitialised ([junk]) when it fails *)
Variables (eval_psi : R -> R -> R -> R -> option R) (junk : R).

(** rfof.c:217-283 *)
Definition look (p : gc) : view :=
  let x := k_rest p in
  let psi := 2 * PI * match eval_psi (x_r x) (k_phi p) (x_z x) (k_time p) with Some v => v | None => junk end in
  let B := norm (x_B x) in
  let v_par := x_ppar x / x_mass x in
  let Ekin := x_ppar x * x_ppar x / (2 * x_mass x) + x_mu x * B in
  let vnorm := sqrt ((x_ppar x / x_mass x) * (x_ppar x / x_mass x) + 2 * x_mu x * B / x_mass x) in
  let v_perp := sqrt (2 * x_mu x * B / x_mass x) in
  let P_phi := ptoroid_gc (x_charge x) (x_r x) (x_ppar x) psi B (vy (x_B x)) in
  let gyrof := gyrofreq_ppar (x_mass x) (x_charge x) (x_mu x) (x_ppar x) B in
  let tauB := 2 * PI * 1.0 * x_r x / Rabs v_par * sqrt (2 * 1.65 / 0.6) in
  View 1 (x_weight x) (x_r x) (k_phi p) (x_z x) psi (x_charge x) (x_mass x) Ekin vnorm (x_mu x) P_phi v_par v_perp gyrof tauB 0 1.0 0.

(** rfof.c:210-334, one slot of the array; the second result is the assignment to hout[i] *)
Definition rf_slot (K : library) (p : gc) (h : R) (m : Mem) : gc * option R * Mem :=
  if ((0 <? k_id p)%Z && k_run p)%bool then
    let x := k_rest p in
    let '(v, m', err, dvpar, dt) := K (k_time p) h (look p) m in
    let x' := Rest (v_R v) (v_z v) (x_ppar x + v_mass v * dvpar) (v_mu v) (v_mass v) (v_charge v) (v_weight v) (x_B x) (x_other x) in
    (Mk (k_time p) (k_mileage p) (k_cputime p) (v_phi v) (k_rho p) (k_id p) (k_err p) (k_run p) x',
     Some (if (err =? 7)%Z then - dt else dt), m')
  else (p, None, m).
Record slot := Slot { s_p : gc; s_hin : R; s_hout : R; s_mem : Mem }.
(** the loop over the slots; nothing without the library ([#ifdef RFOF]) *)
Definition rf_all (compiled : bool) (K : library) (l : list slot) : list slot :=
  if compiled then map (fun s => let '(p, ho, m) := rf_slot K (s_p s) (s_hin s) (s_mem s) in
                                 Slot p (s_hin s) (match ho with Some x => x | None => s_hout s end) m) l
  else l.

(** in the two loops: hout_rfof holds the dummy value when the routine does not set it *)
Definition rf_module (compiled : bool) (K : library) (m : Mem) : physics rest := fun p h =>
  if compiled then let '(q, ho, _) := rf_slot K p h m in (q, match ho with Some x => x | None => 1 end) else (p, 1).
Definition with_rf (f : physics rest) (w : pass rest) : pass rest := Pass (w_orb w) (w_col w) f (w_cpu w) (w_acc w).
(** marker and step at the call, simulate_gc_adaptive.c:136-193 *)
Definition rf_input (o : options) (w : pass rest) (p0 : gc) (hin : R) : gc * R :=
  let h1 := if o_rev o then - hin else hin in
  let '(p1, hn1, h2) :=
    if o_orb o then
      let '(p, ho) := w_orb w p0 h1 in
      let '(p, hn) := check p (if o_rev o then - ho else ho) 1 in (p, hn, if o_rev o then - h1 else h1)
    else (p0, 1, h1) in
  let p2 := if o_col o then let '(p, ho) := w_col w p1 h2 in fst (check p ho hn1) else p1 in
  (p2, h2).
(** a pass of the adaptive loop together with the memory of the slot *)
Definition gca_rf_pass (compiled : bool) (K : library) (o : options) (w : pass rest) (p0 : gc) (hin : R) (m : Mem) : gc * R * event * Mem :=
  (gca_pass o (with_rf (rf_module compiled K m) w) p0 hin,
   if (o_icrh o && compiled)%bool then let '(p, h) := rf_input o w p0 hin in snd (rf_slot K p h m) else m).
End kick.
Arguments Rest {Y}. Arguments x_r {Y}. Arguments x_z {Y}. Arguments x_ppar {Y}. Arguments x_mu {Y}. Arguments x_mass {Y}. Arguments x_charge {Y}. Arguments x_weight {Y}. Arguments x_B {Y}. Arguments x_other {Y}.
Arguments look {Y}. Arguments rf_slot {Y Mem}. Arguments rf_all {Y Mem}. Arguments rf_module {Y Mem}. Arguments with_rf {Y}. Arguments rf_input {Y}. Arguments gca_rf_pass {Y Mem}.
Arguments Slot {Y Mem}. Arguments s_p {Y Mem}. Arguments s_hin {Y Mem}. Arguments s_hout {Y Mem}. Arguments s_mem {Y Mem}.

(** ** Objects of the library over a whole simulation *)
(** the calls; [L] labels the markers (ghost) *)
Inductive call (L : Type) := NewMarker (i : nat) | UseMarker (i : nat) | NewMem (i : nat) | NewDiag (i : nat) | Kick (i : nat) (l : L) | ResetMem (i : nat) | FreeMem (i : nat) | FreeDiag (i : nat) | FreeMarker (i : nat).
Arguments NewMarker {L}. Arguments UseMarker {L}. Arguments NewMem {L}. Arguments NewDiag {L}. Arguments Kick {L}. Arguments ResetMem {L}. Arguments FreeMem {L}. Arguments FreeDiag {L}. Arguments FreeMarker {L}.
Section calls.
Context {L : Type}.
Variable nsimd : nat.
(** rfof.c:116-145 *)
Definition set_up : list (call L) := flat_map (fun i => [NewMarker i; NewMem i; NewDiag i]) (seq 0 nsimd).
(** rfof.c:153-164 *)
Definition tear_down : list (call L) := flat_map (fun i => [FreeMem i; FreeDiag i; FreeMarker i]) (seq 0 nsimd).
(** what happens in a pass of the loop, given from outside: the slots running at the call of the kick, and the
    slots that get a new marker (cycle[i] > 0) or become empty (cycle[i] < 0) afterwards *)
Inductive refill := Keep | New (l : L) | Empty.
Record turn := Turn { t_runs : nat -> bool; t_cycle : nat -> refill }.
(** the markers in the slots, [None] for an empty one *)
Definition slots := nat -> option L.
Definition cycled (t : turn) (s : slots) : slots := fun i => match t_cycle t i with Keep => s i | New l => Some l | Empty => None end.
(** rfof.c:210-211, 262-310 *)
Definition kicks (t : turn) (s : slots) : list (call L) :=
  flat_map (fun i => match s i with Some l => if t_runs t i then [UseMarker i; Kick i l] else [] | None => [] end) (seq 0 nsimd).
(** simulate_gc_adaptive.c:294-311, simulate_gc_fixed.c:213-223, rfof.c:177-182 *)
Definition resets (t : turn) : list (call L) :=
  flat_map (fun i => match t_cycle t i with New _ => [ResetMem i] | _ => [] end) (seq 0 nsimd).
Fixpoint loop_calls (s : slots) (ts : list turn) : list (call L) :=
  match ts with [] => [] | t :: ts => (kicks t s ++ resets t ++ loop_calls (cycled t s) ts)%list end.
(** simulate_gc_adaptive.c:92-320, simulate_gc_fixed.c:83-234; [s] are the markers after the first particle_cycle_gc *)
Definition sim_calls (icrh : bool) (s : slots) (ts : list turn) : list (call L) :=
  if icrh then (set_up ++ loop_calls s ts ++ tear_down)%list else [].
End calls.
Arguments refill : clear implicits. Arguments turn : clear implicits. Arguments slots : clear implicits.

(** ** The query of the external library *)
Section query.
(** eval_resonance_function and get_rf_wave_local_v2 *)
Variables (reso : view -> R * Z) (wave : R -> R -> R * R * R * R).
Variables (r phi z : nat -> R) (mass q vpar : R).
(** rfof_set_marker_manually, rfof.c:357-371, as called in libascot.c:1009-1013 *)
Definition manual_view (R_k gyrofreq : R) : view :=
  let d := -999.0 in
  View 1 d R_k d d d d d d d d d vpar d gyrofreq (2 * PI * d * 2.0 / vpar) d d 1.
(** libascot.c:1002-1023 *)
Definition point_rfof (B : bfield) (k : nat) : option assignments :=
  if_ok (B_field_eval_B B (r k) (phi k) (z k)) (fun b =>
    let B_magn := sqrt (vx b * vx b + vy b * vy b + vz b * vz b) in
    let gyrofreq := q * B_magn / mass in
    let '(omega, _) := reso (manual_view (r k) gyrofreq) in
    let '(pr, mr, pi, mi) := wave (r k) (z k) in
    Some [("res_cond", omega); ("Eplus_real", pr); ("Eminus_real", mr); ("Eplus_imag", pi); ("Eminus_imag", mi)]).
End query.
