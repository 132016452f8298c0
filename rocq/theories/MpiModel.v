(** Model of the MPI layer.  Source: src/mpi_interface.c (built with -DMPI). *)
From Coq Require Import ZArith List Arith.
From Verif Require Import StateModel.
Import ListNotations.

(** mpi_interface.c:92-102 mpi_my_particles: (start_index, n).
    C int division of nonnegative values; mpi_size >= 1. *)
Definition my_particles (n_tot rank size : nat) : nat * nat :=
  let n := if Nat.eqb rank (size - 1)
           then n_tot - rank * (n_tot / size) else n_tot / size in
  (rank * (n_tot / size), n).

(** Malloc'ed buffer: length is the allocated size, [None] = never written. *)
Definition buf (A : Type) := list (option A).
Fixpoint set_nth {A} (l : list A) (i : nat) (x : A) : list A :=
  match l, i with
  | [], _ => []
  | _ :: t, O => x :: t
  | h :: t, S i' => h :: set_nth t i' x
  end.
(** Out-of-bounds writes are undefined: [None]. *)
Definition wr {A} (b : buf A) (i : nat) (x : A) : option (buf A) :=
  if Nat.ltb i (length b) then Some (set_nth b i (Some x)) else None.
(** Reads out of bounds or of unwritten memory are undefined: [None]. *)
Definition rd {A} (b : buf A) (i : nat) : option A :=
  match nth_error b i with Some (Some x) => Some x | _ => None end.
Definition malloc (A : Type) (n : nat) : buf A := repeat None n.

Fixpoint wr_all {A} (b : buf A) (w : list (nat * A)) : option (buf A) :=
  match w with
  | [] => Some b
  | (i, x) :: w' => match wr b i x with Some b' => wr_all b' w' | None => None end
  end.

Notation "'let*' x := e 'in' f" :=
  (match e with Some x => f | None => None end) (at level 200, x name, f at level 200).

Section Gather.
Context {X : Type}.

(** mpi_interface.c:213-250: the writes into realdata / intdata / errdata done
    for local marker [j] by a non-root rank, in source order per buffer. *)
Definition real_writes (n : nat) (s : pstate X) (j : nat) : list (nat * X) :=
  [ (0 * n + j, s_r s);
    (1 * n + j, s_phi s);
    (2 * n + j, s_z s);
    (3 * n + j, s_ppar s);
    (4 * n + j, s_mu s);
    (5 * n + j, s_zeta s);
    (6 * n + j, s_rprt s);
    (7 * n + j, s_phiprt s);
    (8 * n + j, s_zprt s);
    (9 * n + j, s_p_r s);
    (10 * n + j, s_p_phi s);
    (11 * n + j, s_p_z s);
    (12 * n + j, s_mass s);
    (13 * n + j, s_charge s);
    (14 * n + j, s_weight s);
    (15 * n + j, s_time s);
    (16 * n + j, s_cputime s);
    (17 * n + j, s_rho s);
    (18 * n + j, s_theta s);
    (19 * n + j, s_B_r s);
    (20 * n + j, s_B_phi s);
    (21 * n + j, s_B_z s);
    (22 * n + j, s_B_r_dr s);
    (23 * n + j, s_B_phi_dr s);
    (24 * n + j, s_B_z_dr s);
    (25 * n + j, s_B_r_dphi s);
    (26 * n + j, s_B_phi_dphi s);
    (27 * n + j, s_B_z_dphi s);
    (28 * n + j, s_B_r_dz s);
    (29 * n + j, s_B_phi_dz s);
    (30 * n + j, s_B_z_dz s);
    (31 * n + j, s_mileage s) ].
Definition int_writes (n : nat) (s : pstate X) (j : nat) : list (nat * Z) :=
  [ (0 * n + j, s_anum s);
    (1 * n + j, s_znum s);
    (2 * n + j, s_id s);
    (3 * n + j, s_endcond s);
    (4 * n + j, s_walltile s) ].
Definition err_writes (n : nat) (s : pstate X) (j : nat) : list (nat * Z) :=
  [ (j, s_err s) ].

(** mpi_interface.c:154-193: the root's assignments for marker [j] of one
    sender; the record literal lists all fields of the struct, so a field that
    is not received would be missing here. *)
Definition unpack_one (n j : nat) (rdata : buf X) (idata edata : buf Z) : option (pstate X) :=
  let* x_r := rd rdata (0 * n + j) in
  let* x_phi := rd rdata (1 * n + j) in
  let* x_z := rd rdata (2 * n + j) in
  let* x_ppar := rd rdata (3 * n + j) in
  let* x_mu := rd rdata (4 * n + j) in
  let* x_zeta := rd rdata (5 * n + j) in
  let* x_rprt := rd rdata (6 * n + j) in
  let* x_phiprt := rd rdata (7 * n + j) in
  let* x_zprt := rd rdata (8 * n + j) in
  let* x_p_r := rd rdata (9 * n + j) in
  let* x_p_phi := rd rdata (10 * n + j) in
  let* x_p_z := rd rdata (11 * n + j) in
  let* x_mass := rd rdata (12 * n + j) in
  let* x_charge := rd rdata (13 * n + j) in
  let* x_anum := rd idata (0 * n + j) in
  let* x_znum := rd idata (1 * n + j) in
  let* x_weight := rd rdata (14 * n + j) in
  let* x_time := rd rdata (15 * n + j) in
  let* x_mileage := rd rdata (31 * n + j) in
  let* x_cputime := rd rdata (16 * n + j) in
  let* x_rho := rd rdata (17 * n + j) in
  let* x_theta := rd rdata (18 * n + j) in
  let* x_id := rd idata (2 * n + j) in
  let* x_endcond := rd idata (3 * n + j) in
  let* x_walltile := rd idata (4 * n + j) in
  let* x_B_r := rd rdata (19 * n + j) in
  let* x_B_phi := rd rdata (20 * n + j) in
  let* x_B_z := rd rdata (21 * n + j) in
  let* x_B_r_dr := rd rdata (22 * n + j) in
  let* x_B_phi_dr := rd rdata (23 * n + j) in
  let* x_B_z_dr := rd rdata (24 * n + j) in
  let* x_B_r_dphi := rd rdata (25 * n + j) in
  let* x_B_phi_dphi := rd rdata (26 * n + j) in
  let* x_B_z_dphi := rd rdata (27 * n + j) in
  let* x_B_r_dz := rd rdata (28 * n + j) in
  let* x_B_phi_dz := rd rdata (29 * n + j) in
  let* x_B_z_dz := rd rdata (30 * n + j) in
  let* x_err := rd edata j in
  Some (mkps x_r x_phi x_z x_ppar x_mu x_zeta x_rprt x_phiprt x_zprt x_p_r x_p_phi x_p_z x_mass x_charge x_anum x_znum x_weight x_time x_mileage x_cputime x_rho x_theta x_id x_endcond x_walltile x_B_r x_B_phi x_B_z x_B_r_dr x_B_phi_dr x_B_z_dr x_B_r_dphi x_B_phi_dphi x_B_z_dphi x_B_r_dz x_B_phi_dz x_B_z_dz x_err).

(** One message per MPI_Send, with its datatype. *)
Inductive msg := MReal (b : buf X) | MInt (b : buf Z) | MErr (b : buf Z).

(** mpi_interface.c:199-254: what a non-root rank sends, in order; [None] if
    filling the buffers is undefined. *)
Definition send_states (n : nat) (ps : nat -> pstate X) : option (list msg) :=
  let* r := wr_all (malloc X (32 * n))
              (flat_map (fun j => real_writes n (ps j) j) (seq 0 n)) in
  let* i := wr_all (malloc Z (5 * n))
              (flat_map (fun j => int_writes n (ps j) j) (seq 0 n)) in
  let* e := wr_all (malloc Z (1 * n))
              (flat_map (fun j => err_writes n (ps j) j) (seq 0 n)) in
  Some [MReal r; MInt i; MErr e].

(** Writing one state into ps_all (malloc'ed with n_tot entries). *)
Definition put (all : buf (pstate X)) (i : nat) (s : pstate X) := wr all i s.

Fixpoint unpack_loop (all : buf (pstate X)) (start n : nat) (r : buf X) (i e : buf Z)
  (js : list nat) : option (buf (pstate X)) :=
  match js with
  | [] => Some all
  | j :: js' =>
      let* s := unpack_one n j r i e in
      let* all' := put all (start + j) s in
      unpack_loop all' start n r i e js'
  end.

(** mpi_interface.c:137-198: receive loop over ranks 1 .. size-1.  A message of
    the wrong datatype or length is an error. *)
Fixpoint recv_ranks (all : buf (pstate X)) (n_tot size : nat)
  (inbox : nat -> option (list msg)) (ranks : list nat) : option (buf (pstate X)) :=
  match ranks with
  | [] => Some all
  | i :: ranks' =>
      let '(start, n) := my_particles n_tot i size in
      match inbox i with
      | Some [MReal r; MInt d; MErr e] =>
          if (Nat.eqb (length r) (32 * n) && Nat.eqb (length d) (5 * n)
              && Nat.eqb (length e) (1 * n))%bool
          then let* all' := unpack_loop all start n r d e (seq 0 n) in
               recv_ranks all' n_tot size inbox ranks'
          else None
      | _ => None
      end
  end.

(** mpi_interface.c:132-135: the root's own markers go to the front. *)
Fixpoint copy_own (all : buf (pstate X)) (ps : nat -> pstate X) (js : list nat)
  : option (buf (pstate X)) :=
  match js with
  | [] => Some all
  | j :: js' => let* all' := put all j (ps j) in copy_own all' ps js'
  end.

(** mpi_interface.c:122-256 seen from the root, which is rank 0
    (mpi_interface_init, mpi_interface.c:41); [local i] are rank i's states. *)
Definition gather (n_tot size : nat) (local : nat -> nat -> pstate X)
  : option (buf (pstate X)) :=
  let '(_, n0) := my_particles n_tot 0 size in
  let* all := copy_own (malloc _ n_tot) (local 0) (seq 0 n0) in
  recv_ranks all n_tot size
    (fun i => send_states (snd (my_particles n_tot i size)) (local i))
    (seq 1 (size - 1)).

(** mpi_interface.c:258-273: build without MPI ("Condor" style): the gathered
    array holds only this process's markers. *)
Definition gather_condor (n_tot rank size : nat) (ps : nat -> pstate X)
  : option (buf (pstate X)) :=
  let '(_, n) := my_particles n_tot rank size in
  copy_own (malloc _ n) ps (seq 0 n).
End Gather.

(** Orbit diagnostics gather.  src/diag/diag_orb.h:22-24 and
    src/simulate.h:34-45: two numberings of simulation modes. *)
Inductive simmode := mode_fo | mode_gc | mode_hybrid | mode_ml.
Definition simulate_mode (m : simmode) : nat :=
  match m with mode_fo => 1 | mode_gc => 2 | mode_hybrid => 3 | mode_ml => 4 end.
Definition DIAG_ORB_FO := 1. Definition DIAG_ORB_GC := 2. Definition DIAG_ORB_ML := 3.

Inductive ofield := o_id | o_mileage | o_r | o_phi | o_z | o_pr | o_pphi | o_pz
  | o_ppar | o_mu | o_zeta | o_charge | o_weight | o_rho | o_theta
  | o_Br | o_Bphi | o_Bz | o_simmode | o_pncrid | o_pncrdi.

(** src/diag/diag_orb.c:26-104: the arrays allocated for a record mode
    (record_mode is a simulate_mode, hdf5io/hdf5_options.c:251-254). *)
Definition orb_allocated (m : simmode) (poincare : bool) : list ofield :=
  [o_id] ++ (if poincare then [o_pncrid; o_pncrdi] else [])
  ++ match m with
     | mode_fo => [o_mileage; o_r; o_phi; o_z; o_pr; o_pphi; o_pz; o_weight;
                   o_charge; o_rho; o_theta; o_Br; o_Bphi; o_Bz; o_simmode]
     | mode_gc => [o_mileage; o_r; o_phi; o_z; o_ppar; o_mu; o_zeta; o_weight;
                   o_charge; o_rho; o_theta; o_Br; o_Bphi; o_Bz; o_simmode]
     | mode_ml => [o_mileage; o_r; o_phi; o_z; o_rho; o_theta; o_Br; o_Bphi;
                   o_Bz; o_simmode]
     | mode_hybrid => [o_mileage; o_r; o_phi; o_z; o_pr; o_pphi; o_pz; o_ppar;
                   o_mu; o_zeta; o_weight; o_charge; o_rho; o_theta; o_Br;
                   o_Bphi; o_Bz; o_simmode]
     end.

(** mpi_interface.c:461-517: the arrays a non-root rank sends, in order. *)
Definition orb_sent (m : simmode) (poincare : bool) : list ofield :=
  [o_id; o_mileage; o_r; o_phi; o_z]
  ++ (if Nat.eqb (simulate_mode m) DIAG_ORB_FO then [o_pr; o_pphi; o_pz] else [])
  ++ (if Nat.eqb (simulate_mode m) DIAG_ORB_GC then [o_ppar; o_mu; o_zeta] else [])
  ++ (if negb (Nat.eqb (simulate_mode m) DIAG_ORB_ML) then [o_charge] else [])
  ++ [o_weight; o_rho; o_theta; o_Br; o_Bphi; o_Bz; o_simmode]
  ++ (if poincare then [o_pncrid; o_pncrdi] else []).

(** mpi_interface.c:371-459: the arrays the root receives into, in order. *)
Definition orb_received (m : simmode) (poincare : bool) : list ofield :=
  [o_id; o_mileage; o_r; o_phi; o_z]
  ++ (if Nat.eqb (simulate_mode m) DIAG_ORB_FO then [o_pr; o_pphi; o_pz] else [])
  ++ (if Nat.eqb (simulate_mode m) DIAG_ORB_GC then [o_ppar; o_mu; o_zeta] else [])
  ++ (if negb (Nat.eqb (simulate_mode m) DIAG_ORB_ML) then [o_charge] else [])
  ++ [o_weight; o_rho; o_theta; o_Br; o_Bphi; o_Bz; o_simmode]
  ++ (if poincare then [o_pncrid; o_pncrdi] else []).

(** One orbit array: rank i's n_i*Npnt values are received at offset
    start_i*Npnt of the root's array of n_tot*Npnt values (mpi_interface.c:336,
    368-381); the root's own values already sit at the front (realloc). *)
Section OrbGather.
Context {X : Type}.
Fixpoint blit (all : buf X) (off : nat) (vals : list (option X)) : option (buf X) :=
  match vals with
  | [] => Some all
  | v :: vs =>
      if Nat.ltb off (length all) then blit (set_nth all off v) (S off) vs else None
  end.
Fixpoint orb_recv (all : buf X) (n_tot size npnt : nat)
  (sent : nat -> buf X) (ranks : list nat) : option (buf X) :=
  match ranks with
  | [] => Some all
  | i :: ranks' =>
      let '(start, n) := my_particles n_tot i size in
      let* all' := blit all (start * npnt) (firstn (n * npnt) (sent i)) in
      orb_recv all' n_tot size npnt sent ranks'
  end.
Definition orb_gather (n_tot size npnt : nat) (local : nat -> buf X)
  : option (buf X) :=
  let '(_, n0) := my_particles n_tot 0 size in
  let all := local 0 ++ malloc X (n_tot * npnt - n0 * npnt) in
  orb_recv all n_tot size npnt local (seq 1 (size - 1)).
End OrbGather.
