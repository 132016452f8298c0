(** Reading the inputs: what the readers of hdf5io/ hand to the initialisation of each input.

    A reader is a straight-line program over local variables; it ends with a call of the initialisation
    function, whose arguments are matched to the parameters by position.  Scalars are arrays of one entry.
    Reading an array whose length differs from the size of the buffer is undefined: a longer dataset overruns
    the buffer, a shorter one leaves entries unset.  The sizes of buffers are computed without wrap-around,
    and the memory leaks on error returns are not modelled. *)
From Coq Require Import Reals ZArith List String.
Import ListNotations.
From Verif Require Import MainModel HdfModel HmkModel OptModel.
Local Open Scope string_scope.

(** local variables *)
Record loc := mkloc { li : string -> list Z; lr : string -> list R }.
Definition setli (k : string) (v : list Z) (s : loc) : loc := mkloc (upd (li s) k v) (lr s).
Definition setlr (k : string) (v : list R) (s : loc) : loc := mkloc (li s) (upd (lr s) k v).

(** sizes: a constant times a product of scalars, or the sum over the entries of the products of some arrays, or
    a buffer of v times the product of scalars from which the initialisation takes only that product: a dataset of
    this length is read completely and leaves behind it entries that are never looked at *)
Inductive size := Prod (k : nat) (vs : list string) | Sum (vs : list string) | Part (v : string) (vs : list string).
Definition vz (s : loc) (v : string) (i : nat) : Z := nth i (li s v) 0%Z.
Definition mul (l : list Z) : Z := fold_left Z.mul l 1%Z.
Definition len (s : loc) (z : size) : nat :=
  match z with
  | Prod k vs => Z.to_nat (Z.of_nat k * mul (map (fun v => vz s v 0) vs))
  | Sum vs => Z.to_nat (fold_left Z.add (map (fun i => mul (map (fun v => vz s v i) vs)) (seq 0 (List.length (li s (hd "" vs))))) 0%Z)
  | Part v vs => if (1 <=? vz s v 0)%Z then Z.to_nat (mul (map (fun v => vz s v 0) vs)) else 0%nat
  end.

(** consts.h:41 *)
Definition CONST_M_E : R := 9.1094e-31.
Definition scale (u : R) (n : nat) (l : list R) : list R := (map (fun x => x * u)%R (firstn n l) ++ skipn n l)%list.

Inductive rstmt :=
  | RdI (ds var : string) (z : size)     (* hdf5_read_int(PATH ds, var, ...) *)
  | RdR (ds var : string) (z : size)     (* hdf5_read_double(PATH ds, var, ...) *)
  | Deg (var : string)                   (* var = math_deg2rad(var) *)
  | ByE (var : string) (z : size)        (* for i < z: var[i] *= CONST_E *)
  | Charges (var q : string) (z : size)  (* var[0] = -1 * CONST_E; for i < z: var[i+1] = q[i] * CONST_E *)
  | Masses (var : string) (z : size).    (* read into &var[1]; var[0] = CONST_M_E; for i < z: var[i+1] *= CONST_U *)
Definition rexec (f : h5) (pre qid : string) (d : rstmt) (s : loc) : outcome loc :=
  match d with
  | RdI ds v z => bind (read_int f (pre ++ ds) qid (len s z)) (fun l => Ok (setli v l s))
  | RdR ds v z => bind (read_double f (pre ++ ds) qid (len s z)) (fun l => Ok (setlr v l s))
  | Deg v => Ok (setlr v (map deg2rad (lr s v)) s)
  | ByE v z => Ok (setlr v (scale HmkModel.CONST_E (len s z) (lr s v)) s)
  | Charges v q z => Ok (setlr v (- HmkModel.CONST_E :: map (fun x => IZR x * HmkModel.CONST_E) (firstn (len s z) (li s q)))%R s)
  | Masses v z => Ok (setlr v (CONST_M_E :: scale HmkModel.CONST_U (len s z) (lr s v)) s)
  end.
Fixpoint rrun (f : h5) (pre qid : string) (p : list rstmt) (s : loc) : outcome loc :=
  match p with [] => Ok s | d :: t => bind (rexec f pre qid d s) (rrun f pre qid t) end.

(** a reader: path, body, arguments of the call, parameters of the function that is called *)
Record reader := mkreader { rpath : string; rbody : list rstmt; rargs : list string; rparams : list string }.
Definition arg (s : loc) (v : string) : list Z * list R := (li s v, lr s v).
Definition read_input (r : reader) (f : h5) (qid : string) (s : loc) : outcome (list (string * (list Z * list R))) :=
  bind (rrun f (rpath r) qid (rbody r) s) (fun s => Ok (combine (rparams r) (map (arg s) (rargs r)))).

(** hdf5_bfield_read_2DS, hdf5_bfield.c:136-187; parameters of B_2DS_init: B_2DS.c:55-59 *)
Definition rB_2DS : reader := mkreader "/bfield/B_2DS_XXXXXXXXXX/"
  [RdI "nr" "n_r" (Prod 1 []);
   RdI "nz" "n_z" (Prod 1 []);
   RdR "rmin" "r_min" (Prod 1 []);
   RdR "rmax" "r_max" (Prod 1 []);
   RdR "zmin" "z_min" (Prod 1 []);
   RdR "zmax" "z_max" (Prod 1 []);
   RdR "psi" "psi" (Prod 1 ["n_r"; "n_z"]);
   RdR "br" "br" (Prod 1 ["n_r"; "n_z"]);
   RdR "bphi" "bphi" (Prod 1 ["n_r"; "n_z"]);
   RdR "bz" "bz" (Prod 1 ["n_r"; "n_z"]);
   RdR "psi0" "psi0" (Prod 1 []);
   RdR "psi1" "psi1" (Prod 1 []);
   RdR "axisr" "axisr" (Prod 1 []);
   RdR "axisz" "axisz" (Prod 1 [])]
  ["n_r"; "r_min"; "r_max"; "n_z"; "z_min"; "z_max"; "axisr"; "axisz"; "psi0"; "psi1"; "psi"; "br"; "bphi"; "bz"]
  ["n_r"; "r_min"; "r_max"; "n_z"; "z_min"; "z_max"; "axis_r"; "axis_z"; "psi0"; "psi1"; "psi"; "B_r"; "B_phi"; "B_z"].
(** hdf5_bfield_read_3DS, hdf5_bfield.c:236-319; parameters of B_3DS_init: B_3DS.c:106-113 *)
Definition rB_3DS : reader := mkreader "/bfield/B_3DS_XXXXXXXXXX/"
  [RdI "b_nr" "b_n_r" (Prod 1 []);
   RdI "b_nz" "b_n_z" (Prod 1 []);
   RdR "b_rmin" "b_r_min" (Prod 1 []);
   RdR "b_rmax" "b_r_max" (Prod 1 []);
   RdR "b_zmin" "b_z_min" (Prod 1 []);
   RdR "b_zmax" "b_z_max" (Prod 1 []);
   RdI "b_nphi" "b_n_phi" (Prod 1 []);
   RdR "b_phimin" "b_phi_min" (Prod 1 []);
   RdR "b_phimax" "b_phi_max" (Prod 1 []);
   Deg "b_phi_min";
   Deg "b_phi_max";
   RdI "psi_nr" "p_n_r" (Prod 1 []);
   RdI "psi_nz" "p_n_z" (Prod 1 []);
   RdR "psi_rmin" "p_r_min" (Prod 1 []);
   RdR "psi_rmax" "p_r_max" (Prod 1 []);
   RdR "psi_zmin" "p_z_min" (Prod 1 []);
   RdR "psi_zmax" "p_z_max" (Prod 1 []);
   RdR "psi" "psi" (Prod 1 ["p_n_r"; "p_n_z"]);
   RdR "br" "br" (Prod 1 ["b_n_r"; "b_n_phi"; "b_n_z"]);
   RdR "bphi" "bphi" (Prod 1 ["b_n_r"; "b_n_phi"; "b_n_z"]);
   RdR "bz" "bz" (Prod 1 ["b_n_r"; "b_n_phi"; "b_n_z"]);
   RdR "psi0" "psi0" (Prod 1 []);
   RdR "psi1" "psi1" (Prod 1 []);
   RdR "axisr" "axisr" (Prod 1 []);
   RdR "axisz" "axisz" (Prod 1 [])]
  ["p_n_r"; "p_r_min"; "p_r_max"; "p_n_z"; "p_z_min"; "p_z_max"; "b_n_r"; "b_r_min"; "b_r_max"; "b_n_phi"; "b_phi_min"; "b_phi_max"; "b_n_z"; "b_z_min"; "b_z_max"; "axisr"; "axisz"; "psi0"; "psi1"; "psi"; "br"; "bphi"; "bz"]
  ["p_n_r"; "p_r_min"; "p_r_max"; "p_n_z"; "p_z_min"; "p_z_max"; "b_n_r"; "b_r_min"; "b_r_max"; "b_n_phi"; "b_phi_min"; "b_phi_max"; "b_n_z"; "b_z_min"; "b_z_max"; "axis_r"; "axis_z"; "psi0"; "psi1"; "psi"; "B_r"; "B_phi"; "B_z"].
(** hdf5_bfield_read_STS, hdf5_bfield.c:378-491; parameters of B_STS_init: B_STS.c:81-90 *)
Definition rB_STS : reader := mkreader "/bfield/B_STS_XXXXXXXXXX/"
  [RdI "b_nr" "b_n_r" (Prod 1 []);
   RdI "b_nz" "b_n_z" (Prod 1 []);
   RdR "b_rmin" "b_r_min" (Prod 1 []);
   RdR "b_rmax" "b_r_max" (Prod 1 []);
   RdR "b_zmin" "b_z_min" (Prod 1 []);
   RdR "b_zmax" "b_z_max" (Prod 1 []);
   RdI "b_nphi" "b_n_phi" (Prod 1 []);
   RdR "b_phimin" "b_phi_min" (Prod 1 []);
   RdR "b_phimax" "b_phi_max" (Prod 1 []);
   Deg "b_phi_min";
   Deg "b_phi_max";
   RdI "psi_nr" "p_n_r" (Prod 1 []);
   RdI "psi_nz" "p_n_z" (Prod 1 []);
   RdR "psi_rmin" "p_r_min" (Prod 1 []);
   RdR "psi_rmax" "p_r_max" (Prod 1 []);
   RdR "psi_zmin" "p_z_min" (Prod 1 []);
   RdR "psi_zmax" "p_z_max" (Prod 1 []);
   RdI "psi_nphi" "p_n_phi" (Prod 1 []);
   RdR "psi_phimin" "p_phi_min" (Prod 1 []);
   RdR "psi_phimax" "p_phi_max" (Prod 1 []);
   Deg "p_phi_min";
   Deg "p_phi_max";
   RdI "axis_nphi" "naxis" (Prod 1 []);
   RdR "axis_phimin" "axis_min" (Prod 1 []);
   RdR "axis_phimax" "axis_max" (Prod 1 []);
   Deg "axis_min";
   Deg "axis_max";
   RdR "psi0" "psi0" (Prod 1 []);
   RdR "psi1" "psi1" (Prod 1 []);
   RdR "br" "br" (Prod 1 ["b_n_r"; "b_n_phi"; "b_n_z"]);
   RdR "bphi" "bphi" (Prod 1 ["b_n_r"; "b_n_phi"; "b_n_z"]);
   RdR "bz" "bz" (Prod 1 ["b_n_r"; "b_n_phi"; "b_n_z"]);
   RdR "psi" "psi" (Prod 1 ["p_n_r"; "p_n_phi"; "p_n_z"]);
   RdR "axisr" "axisr" (Prod 1 ["naxis"]);
   RdR "axisz" "axisz" (Prod 1 ["naxis"])]
  ["p_n_r"; "p_r_min"; "p_r_max"; "p_n_phi"; "p_phi_min"; "p_phi_max"; "p_n_z"; "p_z_min"; "p_z_max"; "b_n_r"; "b_r_min"; "b_r_max"; "b_n_phi"; "b_phi_min"; "b_phi_max"; "b_n_z"; "b_z_min"; "b_z_max"; "naxis"; "axis_min"; "axis_max"; "axisr"; "axisz"; "psi0"; "psi1"; "psi"; "br"; "bphi"; "bz"]
  ["p_n_r"; "p_r_min"; "p_r_max"; "p_n_phi"; "p_phi_min"; "p_phi_max"; "p_n_z"; "p_z_min"; "p_z_max"; "b_n_r"; "b_r_min"; "b_r_max"; "b_n_phi"; "b_phi_min"; "b_phi_max"; "b_n_z"; "b_z_min"; "b_z_max"; "naxis"; "axis_min"; "axis_max"; "axis_r"; "axis_z"; "psi0"; "psi1"; "psi"; "B_r"; "B_phi"; "B_z"].
(** hdf5_bfield_read_TC, hdf5_bfield.c:520-539; parameters of B_TC_init: B_TC.c:46-47 *)
Definition rB_TC : reader := mkreader "/bfield/B_TC_XXXXXXXXXX/"
  [RdR "axisr" "axisr" (Prod 1 []);
   RdR "axisz" "axisz" (Prod 1 []);
   RdR "psival" "psival" (Prod 1 []);
   RdR "rhoval" "rhoval" (Prod 1 []);
   RdR "bxyz" "B" (Prod 3 []);
   RdR "jacobian" "dB" (Prod 9 [])]
  ["axisr"; "axisz"; "psival"; "rhoval"; "B"; "dB"]
  ["axisr"; "axisz"; "psival"; "rhoval"; "B"; "dB"].
(** hdf5_bfield_read_GS, hdf5_bfield.c:568-607; parameters of B_GS_init: B_GS.c:96-98 *)
Definition rB_GS : reader := mkreader "/bfield/B_GS_XXXXXXXXXX/"
  [RdR "r0" "R0" (Prod 1 []);
   RdR "z0" "z0" (Prod 1 []);
   RdR "raxis" "raxis" (Prod 1 []);
   RdR "zaxis" "zaxis" (Prod 1 []);
   RdR "bphi0" "B_phi0" (Prod 1 []);
   RdR "psi0" "psi0" (Prod 1 []);
   RdR "psi1" "psi1" (Prod 1 []);
   RdR "psimult" "psi_mult" (Prod 1 []);
   RdR "coefficients" "psi_coeff" (Prod 14 []);
   RdR "delta0" "delta0" (Prod 1 []);
   RdR "alpha0" "alpha0" (Prod 1 []);
   RdR "a0" "a0" (Prod 1 []);
   RdI "nripple" "Nripple" (Prod 1 [])]
  ["R0"; "z0"; "raxis"; "zaxis"; "B_phi0"; "psi0"; "psi1"; "psi_mult"; "psi_coeff"; "Nripple"; "a0"; "alpha0"; "delta0"]
  ["R0"; "z0"; "raxis"; "zaxis"; "B_phi0"; "psi0"; "psi1"; "psi_mult"; "c"; "Nripple"; "a0"; "alpha0"; "delta0"].
(** hdf5_efield_read_1DS, hdf5_efield.c:80-101; parameters of E_1DS_init: E_1DS.c:29-30 *)
Definition rE_1DS : reader := mkreader "/efield/E_1DS_XXXXXXXXXX/"
  [RdI "nrho" "nrho" (Prod 1 []);
   RdR "rhomin" "rhomin" (Prod 1 []);
   RdR "rhomax" "rhomax" (Prod 1 []);
   RdR "reff" "reff" (Prod 1 []);
   RdR "dvdrho" "dvdrho" (Prod 1 ["nrho"])]
  ["nrho"; "rhomin"; "rhomax"; "reff"; "dvdrho"]
  ["nrho"; "rhomin"; "rhomax"; "reff"; "dvdrho"].
(** hdf5_efield_read_TC, hdf5_efield.c:120-129; parameters of E_TC_init: E_TC.c:25-25 *)
Definition rE_TC : reader := mkreader "/efield/E_TC_XXXXXXXXXX/"
  [RdR "exyz" "exyz" (Prod 3 [])]
  ["exyz"]
  ["exyz"].
(** hdf5_plasma_read_1D, hdf5_plasma.c:69-138; parameters of plasma_1D_init: plasma_1D.c:25-27 *)
Definition rplasma_1D : reader := mkreader "/plasma/plasma_1D_XXXXXXXXXX/"
  [RdI "nion" "n_ions" (Prod 1 []);
   RdI "nrho" "n_rho" (Prod 1 []);
   RdI "znum" "znum" (Prod 1 ["n_ions"]);
   RdI "anum" "anum" (Prod 1 ["n_ions"]);
   RdI "charge" "q" (Prod 1 ["n_ions"]);
   RdR "mass" "mass" (Prod 1 ["n_ions"]);
   Charges "charge" "q" (Prod 1 ["n_ions"]);
   Masses "mass" (Prod 1 ["n_ions"]);
   RdR "rho" "rho" (Prod 1 ["n_rho"]);
   RdR "vtor" "vtor" (Prod 1 ["n_rho"]);
   RdR "etemperature" "Te" (Prod 1 ["n_rho"]);
   RdR "edensity" "ne" (Prod 1 ["n_rho"]);
   RdR "itemperature" "Ti" (Prod 1 ["n_rho"]);
   RdR "idensity" "ni" (Prod 1 ["n_rho"; "n_ions"]);
   ByE "Te" (Prod 1 ["n_rho"]);
   ByE "Ti" (Prod 1 ["n_rho"])]
  ["n_rho"; "n_ions"; "rho"; "anum"; "znum"; "mass"; "charge"; "Te"; "Ti"; "ne"; "ni"; "vtor"]
  ["nrho"; "nion"; "rho"; "anum"; "znum"; "mass"; "charge"; "Te"; "Ti"; "ne"; "ni"; "vtor"].
(** hdf5_plasma_read_1Dt, hdf5_plasma.c:149-227; parameters of plasma_1Dt_init: plasma_1Dt.c:22-25 *)
Definition rplasma_1Dt : reader := mkreader "/plasma/plasma_1Dt_XXXXXXXXXX/"
  [RdI "nion" "n_ions" (Prod 1 []);
   RdI "nrho" "n_rho" (Prod 1 []);
   RdI "ntime" "n_time" (Prod 1 []);
   RdI "znum" "znum" (Prod 1 ["n_ions"]);
   RdI "anum" "anum" (Prod 1 ["n_ions"]);
   RdI "charge" "q" (Prod 1 ["n_ions"]);
   RdR "mass" "mass" (Prod 1 ["n_ions"]);
   Charges "charge" "q" (Prod 1 ["n_ions"]);
   Masses "mass" (Prod 1 ["n_ions"]);
   RdR "rho" "rho" (Prod 1 ["n_rho"]);
   RdR "time" "time" (Prod 1 ["n_time"]);
   RdR "etemperature" "Te" (Prod 1 ["n_time"; "n_rho"]);
   RdR "itemperature" "Ti" (Prod 1 ["n_time"; "n_rho"]);
   RdR "vtor" "vtor" (Prod 1 ["n_time"; "n_rho"]);
   ByE "Te" (Prod 1 ["n_time"; "n_rho"]);
   ByE "Ti" (Prod 1 ["n_time"; "n_rho"]);
   RdR "edensity" "ne" (Prod 1 ["n_time"; "n_rho"]);
   RdR "idensity" "ni" (Prod 1 ["n_time"; "n_ions"; "n_rho"])]
  ["n_rho"; "n_time"; "n_ions"; "rho"; "time"; "anum"; "znum"; "mass"; "charge"; "Te"; "Ti"; "ne"; "ni"; "vtor"]
  ["nrho"; "ntime"; "nion"; "rho"; "time"; "anum"; "znum"; "mass"; "charge"; "Te"; "Ti"; "ne"; "ni"; "vtor"].
(** hdf5_plasma_read_1DS, hdf5_plasma.c:238-312; parameters of plasma_1DS_init: plasma_1DS.c:43-45 *)
Definition rplasma_1DS : reader := mkreader "/plasma/plasma_1DS_XXXXXXXXXX/"
  [RdI "nion" "n_ions" (Prod 1 []);
   RdI "nrho" "n_rho" (Prod 1 []);
   RdR "rhomin" "rhomin" (Prod 1 []);
   RdR "rhomax" "rhomax" (Prod 1 []);
   RdI "znum" "znum" (Prod 1 ["n_ions"]);
   RdI "anum" "anum" (Prod 1 ["n_ions"]);
   RdI "charge" "q" (Prod 1 ["n_ions"]);
   RdR "mass" "mass" (Prod 1 ["n_ions"]);
   Charges "charge" "q" (Prod 1 ["n_ions"]);
   Masses "mass" (Prod 1 ["n_ions"]);
   RdR "vtor" "vtor" (Prod 1 ["n_rho"]);
   RdR "etemperature" "Te" (Prod 1 ["n_rho"]);
   RdR "edensity" "ne" (Prod 1 ["n_rho"]);
   RdR "itemperature" "Ti" (Prod 1 ["n_rho"]);
   RdR "idensity" "ni" (Prod 1 ["n_rho"; "n_ions"]);
   ByE "Te" (Prod 1 ["n_rho"]);
   ByE "Ti" (Prod 1 ["n_rho"])]
  ["n_rho"; "rhomin"; "rhomax"; "n_ions"; "anum"; "znum"; "mass"; "charge"; "Te"; "Ti"; "ne"; "ni"; "vtor"]
  ["nrho"; "rhomin"; "rhomax"; "nion"; "anum"; "znum"; "mass"; "charge"; "Te"; "Ti"; "ne"; "ni"; "vtor"].
(** hdf5_neutral_init_1D, hdf5_neutral.c:66-115; parameters of N0_1D_init: N0_1D.c:30-32 *)
Definition rN0_1D : reader := mkreader "/neutral/N0_1D_XXXXXXXXXX/"
  [RdI "nrho" "n_rho" (Prod 1 []);
   RdR "rhomin" "rho_min" (Prod 1 []);
   RdR "rhomax" "rho_max" (Prod 1 []);
   RdI "nspecies" "n_species" (Prod 1 []);
   RdI "anum" "anum" (Prod 1 ["n_species"]);
   RdI "znum" "znum" (Prod 1 ["n_species"]);
   RdI "maxwellian" "maxwellian" (Prod 1 ["n_species"]);
   RdR "density" "density" (Prod 1 ["n_species"; "n_rho"]);
   RdR "temperature" "temperature" (Prod 1 ["n_species"; "n_rho"]);
   ByE "temperature" (Prod 1 ["n_species"; "n_rho"])]
  ["n_rho"; "rho_min"; "rho_max"; "n_species"; "anum"; "znum"; "maxwellian"; "density"; "temperature"]
  ["n_rho"; "rho_min"; "rho_max"; "n_species"; "anum"; "znum"; "maxwellian"; "density"; "temperature"].
(** hdf5_neutral_init_3D, hdf5_neutral.c:126-191; parameters of N0_3D_init: N0_3D.c:21-26 *)
Definition rN0_3D : reader := mkreader "/neutral/N0_3D_XXXXXXXXXX/"
  [RdI "nr" "n_r" (Prod 1 []);
   RdI "nphi" "n_phi" (Prod 1 []);
   RdI "nz" "n_z" (Prod 1 []);
   RdR "rmin" "r_min" (Prod 1 []);
   RdR "rmax" "r_max" (Prod 1 []);
   RdR "phimin" "phi_min" (Prod 1 []);
   RdR "phimax" "phi_max" (Prod 1 []);
   RdR "zmin" "z_min" (Prod 1 []);
   RdR "zmax" "z_max" (Prod 1 []);
   Deg "phi_max";
   Deg "phi_min";
   RdI "nspecies" "n_species" (Prod 1 []);
   RdI "anum" "anum" (Prod 1 ["n_species"]);
   RdI "znum" "znum" (Prod 1 ["n_species"]);
   RdI "maxwellian" "maxwellian" (Prod 1 ["n_species"]);
   RdR "density" "density" (Prod 1 ["n_species"; "n_r"; "n_phi"; "n_z"]);
   RdR "temperature" "temperature" (Prod 1 ["n_species"; "n_r"; "n_phi"; "n_z"]);
   ByE "temperature" (Prod 1 ["n_species"; "n_r"; "n_phi"; "n_z"])]
  ["n_r"; "r_min"; "r_max"; "n_phi"; "phi_min"; "phi_max"; "n_z"; "z_min"; "z_max"; "n_species"; "anum"; "znum"; "maxwellian"; "density"; "temperature"]
  ["n_r"; "r_min"; "r_max"; "n_phi"; "phi_min"; "phi_max"; "n_z"; "z_min"; "z_max"; "n_species"; "anum"; "znum"; "maxwellian"; "density"; "temperature"].
(** hdf5_wall_read_2D, hdf5_wall.c:69-90; parameters of wall_2d_init: wall_2d.c:22-23 *)
Definition rwall_2D : reader := mkreader "/wall/wall_2D_XXXXXXXXXX/"
  [RdI "nelements" "nelements" (Prod 1 []);
   RdR "r" "r" (Prod 1 ["nelements"]);
   RdR "z" "z" (Prod 1 ["nelements"]);
   RdI "flag" "flag" (Prod 1 ["nelements"])]
  ["nelements"; "r"; "z"; "flag"]
  ["nelements"; "r"; "z"; "flag"].
(** hdf5_wall_read_3D, hdf5_wall.c:102-131; parameters of wall_3d_init: wall_3d.c:45-46 *)
Definition rwall_3D : reader := mkreader "/wall/wall_3D_XXXXXXXXXX/"
  [RdI "nelements" "nelements" (Prod 1 []);
   RdR "x1x2x3" "x1x2x3" (Prod 3 ["nelements"]);
   RdR "y1y2y3" "y1y2y3" (Prod 3 ["nelements"]);
   RdR "z1z2z3" "z1z2z3" (Prod 3 ["nelements"]);
   RdI "flag" "flag" (Prod 1 ["nelements"])]
  ["nelements"; "x1x2x3"; "y1y2y3"; "z1z2z3"; "flag"]
  ["nelements"; "x1x2x3"; "y1y2y3"; "z1z2z3"; "flag"].
(** hdf5_mhd_read_stat, hdf5_mhd.c:59-108; parameters of mhd_stat_init: mhd_stat.c:23-26 *)
Definition rmhd_stat : reader := mkreader "/mhd/MHD_STAT_XXXXXXXXXX/"
  [RdI "nmode" "nmode" (Prod 1 []);
   RdI "nrho" "nrho" (Prod 1 []);
   RdR "rhomin" "rhomin" (Prod 1 []);
   RdR "rhomax" "rhomax" (Prod 1 []);
   RdI "nmodes" "moden" (Prod 1 ["nmode"]);
   RdI "mmodes" "modem" (Prod 1 ["nmode"]);
   RdR "omega" "omega_nm" (Prod 1 ["nmode"]);
   RdR "phase" "phase_nm" (Prod 1 ["nmode"]);
   RdR "amplitude" "amplitude_nm" (Prod 1 ["nmode"]);
   RdR "alpha" "alpha" (Prod 1 ["nrho"; "nmode"]);
   RdR "phi" "phi" (Prod 1 ["nrho"; "nmode"])]
  ["nmode"; "nrho"; "rhomin"; "rhomax"; "moden"; "modem"; "amplitude_nm"; "omega_nm"; "phase_nm"; "alpha"; "phi"]
  ["nmode"; "nrho"; "rhomin"; "rhomax"; "moden"; "modem"; "amplitude_nm"; "omega_nm"; "phase_nm"; "alpha"; "phi"].
(** hdf5_mhd_read_nonstat, hdf5_mhd.c:119-175; parameters of mhd_nonstat_init: mhd_nonstat.c:23-26 *)
Definition rmhd_nonstat : reader := mkreader "/mhd/MHD_NONSTAT_XXXXXXXXXX/"
  [RdI "nmode" "nmode" (Prod 1 []);
   RdI "nrho" "nrho" (Prod 1 []);
   RdR "rhomin" "rhomin" (Prod 1 []);
   RdR "rhomax" "rhomax" (Prod 1 []);
   RdI "ntime" "ntime" (Prod 1 []);
   RdR "tmin" "tmin" (Prod 1 []);
   RdR "tmax" "tmax" (Prod 1 []);
   RdI "nmodes" "moden" (Prod 1 ["nmode"]);
   RdI "mmodes" "modem" (Prod 1 ["nmode"]);
   RdR "omega" "omega_nm" (Prod 1 ["nmode"]);
   RdR "phase" "phase_nm" (Prod 1 ["nmode"]);
   RdR "amplitude" "amplitude_nm" (Prod 1 ["nmode"]);
   RdR "alpha" "alpha" (Prod 1 ["nrho"; "ntime"; "nmode"]);
   RdR "phi" "phi" (Prod 1 ["nrho"; "ntime"; "nmode"])]
  ["nmode"; "nrho"; "ntime"; "rhomin"; "rhomax"; "tmin"; "tmax"; "moden"; "modem"; "amplitude_nm"; "omega_nm"; "phase_nm"; "alpha"; "phi"]
  ["nmode"; "nrho"; "ntime"; "rhomin"; "rhomax"; "tmin"; "tmax"; "moden"; "modem"; "amplitude_nm"; "omega_nm"; "phase_nm"; "alpha"; "phi"].
(** hdf5_boozer_init, hdf5_boozer.c:26-77; parameters of boozer_init: boozer.c:38-40; the
    buffers of rs and zs are npsi times too long, boozer.c:59-62 takes nrzs entries *)
Definition rboozer : reader := mkreader "/boozer/Boozer_XXXXXXXXXX/"
  [RdI "ntheta" "ntheta" (Prod 1 []);
   RdI "nthetag" "nthetag" (Prod 1 []);
   RdI "nrzs" "nrzs" (Prod 1 []);
   RdI "npsi" "npsi" (Prod 1 []);
   RdR "psimin" "psimin" (Prod 1 []);
   RdR "psimax" "psimax" (Prod 1 []);
   RdR "nu_psitheta" "nu" (Prod 1 ["npsi"; "ntheta"]);
   RdR "theta_psithetageom" "theta" (Prod 1 ["npsi"; "nthetag"]);
   RdR "rs" "rs" (Part "npsi" ["nrzs"]);
   RdR "zs" "zs" (Part "npsi" ["nrzs"])]
  ["npsi"; "psimin"; "psimax"; "ntheta"; "nthetag"; "nu"; "theta"; "nrzs"; "rs"; "zs"]
  ["npsi"; "psi_min"; "psi_max"; "ntheta"; "nthetag"; "nu"; "theta"; "nrzs"; "rs"; "zs"].
(** hdf5_asigma_read_loc, hdf5_asigma.c:55-134; parameters of asigma_loc_init: asigma_loc.c:29-33 *)
Definition rasigma_loc : reader := mkreader "/asigma/asigma_loc_XXXXXXXXXX/"
  [RdI "nreac" "nreac" (Prod 1 []);
   RdI "nenergy" "ne" (Prod 1 ["nreac"]);
   RdI "ndensity" "nn" (Prod 1 ["nreac"]);
   RdI "ntemperature" "nT" (Prod 1 ["nreac"]);
   RdI "z1" "z1" (Prod 1 ["nreac"]);
   RdI "a1" "a1" (Prod 1 ["nreac"]);
   RdI "z2" "z2" (Prod 1 ["nreac"]);
   RdI "a2" "a2" (Prod 1 ["nreac"]);
   RdI "reactype" "reactype" (Prod 1 ["nreac"]);
   RdR "energymin" "emin" (Prod 1 ["nreac"]);
   RdR "energymax" "emax" (Prod 1 ["nreac"]);
   RdR "densitymin" "nmin" (Prod 1 ["nreac"]);
   RdR "densitymax" "nmax" (Prod 1 ["nreac"]);
   RdR "temperaturemin" "Tmin" (Prod 1 ["nreac"]);
   RdR "temperaturemax" "Tmax" (Prod 1 ["nreac"]);
   RdR "sigma" "sigma" (Sum ["ne"; "nn"; "nT"])]
  ["nreac"; "z1"; "a1"; "z2"; "a2"; "reactype"; "ne"; "emin"; "emax"; "nn"; "nmin"; "nmax"; "nT"; "Tmin"; "Tmax"; "sigma"]
  ["nreac"; "z1"; "a1"; "z2"; "a2"; "reactype"; "ne"; "emin"; "emax"; "nn"; "nmin"; "nmax"; "nT"; "Tmin"; "Tmax"; "sigma"].
