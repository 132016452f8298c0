(** Reading the simulation options: src/hdf5io/hdf5_options.c.

    The struct sim_data is a map from member names to values; members of the diagnostics are prefixed.  Its
    initial contents are arbitrary.  Every option is a dataset with one entry, read as a double; a longer or empty one
    overruns the variable or leaves it unset ([Overflow], undefined behaviour), as does converting a number outside the
    range of int.  Numbers are exact reals.  What the struct holds after a failed read is not modelled. *)
From Coq Require Import Reals ZArith List String Bool.
Import ListNotations.
From Verif Require Import MainModel HdfModel HmkModel EndcondModel.
Local Open Scope string_scope.
Local Open Scope Z_scope.

Record sim := mksim { ints : string -> Z; reals : string -> R; arrs : string -> list R }.
Definition upd {A} (m : string -> A) (k : string) (x : A) : string -> A := fun j => if String.eqb j k then x else m j.
Definition seti (k : string) (x : Z) (s : sim) : sim := mksim (upd (ints s) k x) (reals s) (arrs s).
Definition setr (k : string) (x : R) (s : sim) : sim := mksim (ints s) (upd (reals s) k x) (arrs s).
Definition seta (k : string) (x : list R) (s : sim) : sim := mksim (ints s) (reals s) (upd (arrs s) k x).

(** what is done with the number that was read *)
Inductive act :=
  | AReal (fld : string)       (* read straight into a real member *)
  | AInt (fld : string)        (* fld = (int)tempfloat *)
  | AEnd (bits : list Z)       (* ec = (int)tempfloat; endcond_active |= bit * (ec > 0) for each bit *)
  | AOrb (fld : string).       (* temp = (int)tempfloat; fld = temp * 2 * CONST_PI *)
Inductive stmt :=
  | Rd (var : string) (a : act)
  | DZero (fld : string)       (* fld = 0 *)
  | DDeg (fld : string)        (* fld = math_deg2rad(fld), math.h:111 *)
  | DMulE (fld : string)       (* fld *= CONST_E *)
  | DTor.                      (* hdf5_options.c:158-161 *)

Definition in_int (x : Z) : bool := (- 2 ^ 31 <=? x) && (x <? 2 ^ 31).
(** (int)x *)
Definition defined (a : act) (x : R) : bool :=
  match a with
  | AReal _ => true
  | AInt _ | AEnd _ => in_int (ftrunc x)
  | AOrb _ => in_int (ftrunc x) && in_int (ftrunc x * 2)
  end.
Definition b2z (b : bool) : Z := if b then 1 else 0.
Definition eff (a : act) (x : R) (s : sim) : sim :=
  match a with
  | AReal k => setr k x s
  | AInt k => seti k (ftrunc x) s
  | AEnd bits =>
      let ec := ftrunc x in
      fold_left (fun s m => seti "endcond_active" (Z.lor (ints s "endcond_active") (m * b2z (0 <? ec))) s) bits (seti "ec" ec s)
  | AOrb k => setr k (IZR (ftrunc x * 2) * PI)%R s
  end.
Definition deg2rad (x : R) : R := (x * (PI / 180))%R.
Definition plain (d : stmt) (s : sim) : sim :=
  match d with
  | Rd _ _ => s
  | DZero k => seti k 0 s
  | DDeg k => setr k (deg2rad (reals s k)) s
  | DMulE k => setr k (reals s k * HmkModel.CONST_E)%R s
  | DTor => seti "endcond_torandpol" (if ints s "ec" =? 2 then 1 else 0) s
  end.

Definition OPTPATH : string := "/options/opt_XXXXXXXXXX/".
Definition rd1 (f : h5) (qid var : string) : outcome R := bind (read_double f (OPTPATH ++ var) qid 1) (fun l => Ok (gr l 0)).
Definition exec (f : h5) (qid : string) (d : stmt) (s : sim) : outcome sim :=
  match d with
  | Rd var a => bind (rd1 f qid var) (fun x => if defined a x then Ok (eff a x s) else Overflow)
  | _ => Ok (plain d s)
  end.
Fixpoint run (f : h5) (qid : string) (p : list stmt) (s : sim) : outcome sim :=
  match p with [] => Ok s | d :: t => bind (exec f qid d s) (run f qid t) end.

(** hdf5_options_read up to the individual diagnostics, hdf5_options.c:54-222 *)
Definition p_main : list stmt :=
  [Rd "SIM_MODE" (AInt "sim_mode");
   Rd "ENABLE_ADAPTIVE" (AInt "enable_ada");
   Rd "RECORD_MODE" (AInt "record_mode");
   Rd "FIXEDSTEP_USE_USERDEFINED" (AInt "fix_usrdef_use");
   Rd "FIXEDSTEP_USERDEFINED" (AReal "fix_usrdef_val");
   Rd "FIXEDSTEP_GYRODEFINED" (AInt "fix_gyrodef_nstep");
   Rd "ADAPTIVE_TOL_ORBIT" (AReal "ada_tol_orbfol");
   Rd "ADAPTIVE_TOL_CCOL" (AReal "ada_tol_clmbcol");
   Rd "ADAPTIVE_MAX_DRHO" (AReal "ada_max_drho");
   Rd "ADAPTIVE_MAX_DPHI" (AReal "ada_max_dphi");
   Rd "ENABLE_ORBIT_FOLLOWING" (AInt "enable_orbfol");
   Rd "ENABLE_COULOMB_COLLISIONS" (AInt "enable_clmbcol");
   Rd "ENABLE_MHD" (AInt "enable_mhd");
   Rd "ENABLE_ATOMIC" (AInt "enable_atomic");
   Rd "ENABLE_ICRH" (AInt "enable_icrh");
   Rd "ENABLE_ALDFORCE" (AInt "enable_aldforce");
   Rd "DISABLE_FIRSTORDER_GCTRANS" (AInt "disable_gctransform");
   Rd "DISABLE_ENERGY_CCOLL" (AInt "disable_energyccoll");
   Rd "DISABLE_PITCH_CCOLL" (AInt "disable_pitchccoll");
   Rd "DISABLE_GCDIFF_CCOLL" (AInt "disable_gcdiffccoll");
   Rd "REVERSE_TIME" (AInt "reverse_time");
   DZero "endcond_active";
   Rd "ENDCOND_SIMTIMELIM" (AEnd [endcond_tlim]);
   Rd "ENDCOND_CPUTIMELIM" (AEnd [endcond_cpumax]);
   Rd "ENDCOND_RHOLIM" (AEnd [endcond_rhomin; endcond_rhomax]);
   Rd "ENDCOND_ENERGYLIM" (AEnd [endcond_emin; endcond_therm]);
   Rd "ENDCOND_WALLHIT" (AEnd [endcond_wall]);
   Rd "ENDCOND_MAXORBS" (AEnd [endcond_polmax; endcond_tormax]);
   Rd "ENDCOND_NEUTRALIZED" (AEnd [endcond_neutr]);
   Rd "ENDCOND_IONIZED" (AEnd [endcond_ioniz]);
   DTor;
   Rd "ENDCOND_LIM_SIMTIME" (AReal "endcond_lim_simtime");
   Rd "ENDCOND_MAX_MILEAGE" (AReal "endcond_max_mileage");
   Rd "ENDCOND_MAX_CPUTIME" (AReal "endcond_max_cputime");
   Rd "ENDCOND_MAX_RHO" (AReal "endcond_max_rho");
   Rd "ENDCOND_MIN_RHO" (AReal "endcond_min_rho");
   Rd "ENDCOND_MIN_ENERGY" (AReal "endcond_min_ekin");
   Rd "ENDCOND_MIN_THERMAL" (AReal "endcond_min_thermal");
   DMulE "endcond_min_ekin";
   Rd "ENDCOND_MAX_POLOIDALORBS" (AOrb "endcond_max_polorb");
   Rd "ENDCOND_MAX_TOROIDALORBS" (AOrb "endcond_max_tororb");
   Rd "ENABLE_DIST_5D" (AInt "dist5D_collect");
   Rd "ENABLE_DIST_6D" (AInt "dist6D_collect");
   Rd "ENABLE_DIST_RHO5D" (AInt "distrho5D_collect");
   Rd "ENABLE_DIST_RHO6D" (AInt "distrho6D_collect");
   Rd "ENABLE_DIST_COM" (AInt "distCOM_collect");
   Rd "ENABLE_ORBITWRITE" (AInt "diagorb_collect");
   Rd "ENABLE_TRANSCOEF" (AInt "diagtrcof_collect")].
(** hdf5_options_read_dist5D, hdf5_options.c:280-346 *)
Definition p_dist5D : list stmt :=
  [Rd "DIST_MIN_R" (AReal "dist5D.min_r");
   Rd "DIST_MAX_R" (AReal "dist5D.max_r");
   Rd "DIST_NBIN_R" (AInt "dist5D.n_r");
   Rd "DIST_MIN_PHI" (AReal "dist5D.min_phi");
   Rd "DIST_MAX_PHI" (AReal "dist5D.max_phi");
   Rd "DIST_NBIN_PHI" (AInt "dist5D.n_phi");
   DDeg "dist5D.min_phi";
   DDeg "dist5D.max_phi";
   Rd "DIST_MIN_Z" (AReal "dist5D.min_z");
   Rd "DIST_MAX_Z" (AReal "dist5D.max_z");
   Rd "DIST_NBIN_Z" (AInt "dist5D.n_z");
   Rd "DIST_MIN_PPA" (AReal "dist5D.min_ppara");
   Rd "DIST_MAX_PPA" (AReal "dist5D.max_ppara");
   Rd "DIST_NBIN_PPA" (AInt "dist5D.n_ppara");
   Rd "DIST_MIN_PPE" (AReal "dist5D.min_pperp");
   Rd "DIST_MAX_PPE" (AReal "dist5D.max_pperp");
   Rd "DIST_NBIN_PPE" (AInt "dist5D.n_pperp");
   Rd "DIST_MIN_TIME" (AReal "dist5D.min_time");
   Rd "DIST_MAX_TIME" (AReal "dist5D.max_time");
   Rd "DIST_NBIN_TIME" (AInt "dist5D.n_time");
   Rd "DIST_MIN_CHARGE" (AReal "dist5D.min_q");
   Rd "DIST_MAX_CHARGE" (AReal "dist5D.max_q");
   Rd "DIST_NBIN_CHARGE" (AInt "dist5D.n_q")].
(** hdf5_options_read_dist6D, hdf5_options.c:357-431 *)
Definition p_dist6D : list stmt :=
  [Rd "DIST_MIN_R" (AReal "dist6D.min_r");
   Rd "DIST_MAX_R" (AReal "dist6D.max_r");
   Rd "DIST_NBIN_R" (AInt "dist6D.n_r");
   Rd "DIST_MIN_PHI" (AReal "dist6D.min_phi");
   Rd "DIST_MAX_PHI" (AReal "dist6D.max_phi");
   Rd "DIST_NBIN_PHI" (AInt "dist6D.n_phi");
   DDeg "dist6D.min_phi";
   DDeg "dist6D.max_phi";
   Rd "DIST_MIN_Z" (AReal "dist6D.min_z");
   Rd "DIST_MAX_Z" (AReal "dist6D.max_z");
   Rd "DIST_NBIN_Z" (AInt "dist6D.n_z");
   Rd "DIST_MIN_PR" (AReal "dist6D.min_pr");
   Rd "DIST_MAX_PR" (AReal "dist6D.max_pr");
   Rd "DIST_NBIN_PR" (AInt "dist6D.n_pr");
   Rd "DIST_MIN_PPHI" (AReal "dist6D.min_pphi");
   Rd "DIST_MAX_PPHI" (AReal "dist6D.max_pphi");
   Rd "DIST_NBIN_PPHI" (AInt "dist6D.n_pphi");
   Rd "DIST_MIN_PZ" (AReal "dist6D.min_pz");
   Rd "DIST_MAX_PZ" (AReal "dist6D.max_pz");
   Rd "DIST_NBIN_PZ" (AInt "dist6D.n_pz");
   Rd "DIST_MIN_TIME" (AReal "dist6D.min_time");
   Rd "DIST_MAX_TIME" (AReal "dist6D.max_time");
   Rd "DIST_NBIN_TIME" (AInt "dist6D.n_time");
   Rd "DIST_MIN_CHARGE" (AReal "dist6D.min_q");
   Rd "DIST_MAX_CHARGE" (AReal "dist6D.max_q");
   Rd "DIST_NBIN_CHARGE" (AInt "dist6D.n_q")].
(** hdf5_options_read_distrho5D, hdf5_options.c:442-510 *)
Definition p_distrho5D : list stmt :=
  [Rd "DIST_MIN_RHO" (AReal "distrho5D.min_rho");
   Rd "DIST_MAX_RHO" (AReal "distrho5D.max_rho");
   Rd "DIST_NBIN_RHO" (AInt "distrho5D.n_rho");
   Rd "DIST_MIN_PHI" (AReal "distrho5D.min_phi");
   Rd "DIST_MAX_PHI" (AReal "distrho5D.max_phi");
   Rd "DIST_NBIN_PHI" (AInt "distrho5D.n_phi");
   DDeg "distrho5D.min_phi";
   DDeg "distrho5D.max_phi";
   Rd "DIST_MIN_THETA" (AReal "distrho5D.min_theta");
   Rd "DIST_MAX_THETA" (AReal "distrho5D.max_theta");
   Rd "DIST_NBIN_THETA" (AInt "distrho5D.n_theta");
   DDeg "distrho5D.min_theta";
   DDeg "distrho5D.max_theta";
   Rd "DIST_MIN_PPA" (AReal "distrho5D.min_ppara");
   Rd "DIST_MAX_PPA" (AReal "distrho5D.max_ppara");
   Rd "DIST_NBIN_PPA" (AInt "distrho5D.n_ppara");
   Rd "DIST_MIN_PPE" (AReal "distrho5D.min_pperp");
   Rd "DIST_MAX_PPE" (AReal "distrho5D.max_pperp");
   Rd "DIST_NBIN_PPE" (AInt "distrho5D.n_pperp");
   Rd "DIST_MIN_TIME" (AReal "distrho5D.min_time");
   Rd "DIST_MAX_TIME" (AReal "distrho5D.max_time");
   Rd "DIST_NBIN_TIME" (AInt "distrho5D.n_time");
   Rd "DIST_MIN_CHARGE" (AReal "distrho5D.min_q");
   Rd "DIST_MAX_CHARGE" (AReal "distrho5D.max_q");
   Rd "DIST_NBIN_CHARGE" (AInt "distrho5D.n_q")].
(** hdf5_options_read_distrho6D, hdf5_options.c:521-597 *)
Definition p_distrho6D : list stmt :=
  [Rd "DIST_MIN_RHO" (AReal "distrho6D.min_rho");
   Rd "DIST_MAX_RHO" (AReal "distrho6D.max_rho");
   Rd "DIST_NBIN_RHO" (AInt "distrho6D.n_rho");
   Rd "DIST_MIN_PHI" (AReal "distrho6D.min_phi");
   Rd "DIST_MAX_PHI" (AReal "distrho6D.max_phi");
   Rd "DIST_NBIN_PHI" (AInt "distrho6D.n_phi");
   DDeg "distrho6D.min_phi";
   DDeg "distrho6D.max_phi";
   Rd "DIST_MIN_THETA" (AReal "distrho6D.min_theta");
   Rd "DIST_MAX_THETA" (AReal "distrho6D.max_theta");
   Rd "DIST_NBIN_THETA" (AInt "distrho6D.n_theta");
   DDeg "distrho6D.min_theta";
   DDeg "distrho6D.max_theta";
   Rd "DIST_MIN_PR" (AReal "distrho6D.min_pr");
   Rd "DIST_MAX_PR" (AReal "distrho6D.max_pr");
   Rd "DIST_NBIN_PR" (AInt "distrho6D.n_pr");
   Rd "DIST_MIN_PPHI" (AReal "distrho6D.min_pphi");
   Rd "DIST_MAX_PPHI" (AReal "distrho6D.max_pphi");
   Rd "DIST_NBIN_PPHI" (AInt "distrho6D.n_pphi");
   Rd "DIST_MIN_PZ" (AReal "distrho6D.min_pz");
   Rd "DIST_MAX_PZ" (AReal "distrho6D.max_pz");
   Rd "DIST_NBIN_PZ" (AInt "distrho6D.n_pz");
   Rd "DIST_MIN_TIME" (AReal "distrho6D.min_time");
   Rd "DIST_MAX_TIME" (AReal "distrho6D.max_time");
   Rd "DIST_NBIN_TIME" (AInt "distrho6D.n_time");
   Rd "DIST_MIN_CHARGE" (AReal "distrho6D.min_q");
   Rd "DIST_MAX_CHARGE" (AReal "distrho6D.max_q");
   Rd "DIST_NBIN_CHARGE" (AInt "distrho6D.n_q")].
(** hdf5_options_read_distCOM, hdf5_options.c:608-639 *)
Definition p_distCOM : list stmt :=
  [Rd "DIST_MIN_MU" (AReal "distCOM.min_mu");
   Rd "DIST_MAX_MU" (AReal "distCOM.max_mu");
   Rd "DIST_NBIN_MU" (AInt "distCOM.n_mu");
   Rd "DIST_MIN_EKIN" (AReal "distCOM.min_Ekin");
   Rd "DIST_MAX_EKIN" (AReal "distCOM.max_Ekin");
   Rd "DIST_NBIN_EKIN" (AInt "distCOM.n_Ekin");
   Rd "DIST_MIN_PTOR" (AReal "distCOM.min_Ptor");
   Rd "DIST_MAX_PTOR" (AReal "distCOM.max_Ptor");
   Rd "DIST_NBIN_PTOR" (AInt "distCOM.n_Ptor")].
(** hdf5_options_read_diagtrcof, hdf5_options.c:741-759 *)
Definition p_diagtrcof : list stmt :=
  [Rd "TRANSCOEF_INTERVAL" (AReal "diagtrcof.interval");
   Rd "TRANSCOEF_NAVG" (AInt "diagtrcof.Navg");
   Rd "TRANSCOEF_RECORDRHO" (AInt "diagtrcof.recordrho")].

(** ** hdf5_options_read_diagorb, hdf5_options.c:650-730 *)
(** diag_orb.h:15, hdf5_options.h:13-15 *)
Definition MAXPOINCARES : nat := 30.
Definition TOROIDAL_FILLER : R := 361.
Definition POLOIDAL_FILLER : R := 361.
Definition RADIAL_FILLER : R := 1000.
Definition p_diagorb : list stmt :=
  [Rd "ORBITWRITE_MODE" (AInt "diagorb.mode");
   Rd "ORBITWRITE_NPOINT" (AInt "diagorb.Npnt");
   Rd "ORBITWRITE_INTERVAL" (AReal "diagorb.writeInterval")].
(** a dataset of at most 30 entries overwrites the beginning of the array *)
Definition rdarr (f : h5) (qid var : string) (k : string) (s : sim) : outcome sim :=
  match lookup f (OPTPATH ++ var) qid with
  | None => Rejected
  | Some d => let l := as_reals d in
      if (List.length l <=? List.length (arrs s k))%nat then Ok (seta k (l ++ skipn (List.length l) (arrs s k))%list s) else Overflow
  end.
(** the loops of lines 687-721: the number of planes, unchanged if the loop does not break *)
Fixpoint scan (neg : bool) (filler : R) (i : Z) (a : list R) (old : Z) : Z :=
  match a with
  | [] => old
  | x :: t => if neg then 0 else if Reqb x filler then i else scan neg filler (i + 1) t old
  end.
Definition count (filler : R) (k n : string) (s : sim) : sim :=
  seti n (scan (Rltb (nth 0 (arrs s k) 0%R) 0%R) filler 0 (arrs s k) (ints s n)) s.
(** the loops of lines 723-728 *)
Definition to_rad (k n : string) (s : sim) : outcome sim :=
  let m := Z.to_nat (ints s n) in
  if (m <=? List.length (arrs s k))%nat
  then Ok (seta k (map (fun x => x * PI / 180)%R (firstn m (arrs s k)) ++ skipn m (arrs s k))%list s) else Overflow.
Definition read_diagorb (f : h5) (qid : string) (s : sim) : outcome sim :=
  bind (run f qid p_diagorb s) (fun s =>
  let s := seta "toroidalangles" (repeat TOROIDAL_FILLER MAXPOINCARES) s in
  let s := seta "poloidalangles" (repeat POLOIDAL_FILLER MAXPOINCARES) s in
  let s := seta "radialdistances" (repeat RADIAL_FILLER MAXPOINCARES) s in
  bind (rdarr f qid "ORBITWRITE_TOROIDALANGLES" "toroidalangles" s) (fun s =>
  bind (rdarr f qid "ORBITWRITE_POLOIDALANGLES" "poloidalangles" s) (fun s =>
  bind (rdarr f qid "ORBITWRITE_RADIALDISTANCES" "radialdistances" s) (fun s =>
  let s := count TOROIDAL_FILLER "toroidalangles" "ntoroidalplots" s in
  let s := count POLOIDAL_FILLER "poloidalangles" "npoloidalplots" s in
  let s := count RADIAL_FILLER "radialdistances" "nradialplots" s in
  bind (to_rad "toroidalangles" "ntoroidalplots" s) (fun s => to_rad "poloidalangles" "npoloidalplots" s))))).
(** simulate.h:34-45, hdf5_options.c:250-255 *)
Definition set_record_mode (s : sim) : sim :=
  let m := ints s "sim_mode" in
  let s := seti "diagorb.record_mode" m s in
  if negb (ints s "record_mode" =? 0) && ((m =? 1) || (m =? 3)) then seti "diagorb.record_mode" 2 s else s.

(** ** hdf5_options_read, hdf5_options.c:47-269 *)
Definition when (k : string) (g : sim -> outcome sim) (s : sim) : outcome sim := if ints s k =? 0 then Ok s else g s.
Definition options_read (f : h5) (qid : string) (s : sim) : outcome sim :=
  bind (run f qid p_main s) (fun s =>
  bind (when "dist5D_collect" (run f qid p_dist5D) s) (fun s =>
  bind (when "dist6D_collect" (run f qid p_dist6D) s) (fun s =>
  bind (when "distrho5D_collect" (run f qid p_distrho5D) s) (fun s =>
  bind (when "distrho6D_collect" (run f qid p_distrho6D) s) (fun s =>
  bind (when "distCOM_collect" (run f qid p_distCOM) s) (fun s =>
  bind (when "diagorb_collect" (fun s => read_diagorb f qid (set_record_mode s)) s) (fun s =>
  when "diagtrcof_collect" (run f qid p_diagtrcof) s))))))).
