(** Writing results: marker states (src/hdf5io/hdf5_state.c), orbits (hdf5_orbit.c), transport coefficients
    (hdf5_transcoef.c), distributions (hdf5_dist.c) and histograms (hdf5_histogram.c).

    The file model is that of HdfModel, the dataset writer that of HmkModel.  The dimensions of a dataset
    are kept beside its flat contents.  Arithmetic is over the reals.  Handles and allocation are left out;
    a histogram has fewer than 99 axes, so the two-digit dataset names are unique. *)
From Coq Require Import Reals ZArith List String Ascii Bool Arith.
Import ListNotations.
From Verif Require Import MainModel HdfModel PhysModel HmkModel ErrorModel StateModel MpiModel DistModel.
Local Open Scope string_scope.
Local Open Scope R_scope.

(** a column to write: name, unit and contents *)
Definition column_out := (string * string * dset)%type.
(** H5LTset_attribute_string on a dataset, which has to exist *)
Definition set_unit (f : h5) (p : path) (name unit : string) : h5 :=
  match dst f p with
  | Some _ => mkh5 (grp f) (fun q n => if path_dec q p then if String.eqb n name then Some unit else att f q n else att f q n) (dst f)
  | None => f
  end.
Definition write_column (g : path) (f : h5) (c : column_out) : h5 :=
  let '(name, unit, d) := c in set_unit (write_ds f g (name, d)) (g ++ [name])%list "unit" unit.
(** H5Gcreate2: the parent has to be a group and the name free *)
Definition h5_create (f : h5) (parent : path) (name : string) : option h5 :=
  let p := (parent ++ [name])%list in
  if grp f parent && negb (grp f p || is_some (dst f p)) then Some (add_group f p) else None.
(** the return value is zero *)
Definition write_group (f : h5) (parent : path) (name : string) (cols : list column_out) : bool * h5 :=
  match h5_create f parent name with
  | None => (false, f)
  | Some f => (true, fold_left (write_column (parent ++ [name])%list) cols f)
  end.

(** ** hdf5_state_write, hdf5_state.c:36-265 *)
Definition marker := pstate R.
Definition reals (ps : list marker) (q : marker -> R) : dset := DReal (map q ps).
(** into an array of 64 and of 32 bit integers *)
Definition longs (ps : list marker) (q : marker -> Z) : dset := DInt (map q ps).
Definition ints (ps : list marker) (q : marker -> Z) : dset := DInt (map (fun p => i32 (q p)) ps).
Definition deg (x : R) : R := x * (180 / PI).
Definition state_columns (ps : list marker) : list column_out :=
  [("rprt", "m", reals ps s_rprt); ("phiprt", "deg", reals ps (fun p => deg (s_phiprt p))); ("zprt", "m", reals ps s_zprt);
   ("prprt", "kg*m/s", reals ps s_p_r); ("pphiprt", "kg*m/s", reals ps s_p_phi); ("pzprt", "kg*m/s", reals ps s_p_z);
   ("r", "m", reals ps s_r); ("phi", "deg", reals ps (fun p => deg (s_phi p))); ("z", "m", reals ps s_z);
   ("ppar", "kg*m/s", reals ps s_ppar); ("mu", "eV/T", reals ps (fun p => s_mu p / CONST_E)); ("zeta", "rad", reals ps s_zeta);
   ("weight", "markers/s", reals ps s_weight); ("time", "s", reals ps s_time); ("mileage", "s", reals ps s_mileage);
   ("cputime", "s", reals ps s_cputime); ("rho", "1", reals ps s_rho); ("theta", "deg", reals ps (fun p => deg (s_theta p)));
   ("mass", "amu", reals ps (fun p => s_mass p / CONST_U));
   ("br", "T", reals ps s_B_r); ("bphi", "T", reals ps s_B_phi); ("bz", "T", reals ps s_B_z);
   ("ids", "1", longs ps s_id); ("endcond", "1", longs ps s_endcond); ("walltile", "1", longs ps s_walltile);
   ("charge", "e", ints ps (fun p => rnd (s_charge p / CONST_E))); ("anum", "1", ints ps s_anum); ("znum", "1", ints ps s_znum);
   ("errormsg", "1", ints ps (fun p => let '(msg, line, mod_) := error_parse (s_err p) in msg));
   ("errorline", "1", ints ps (fun p => let '(msg, line, mod_) := error_parse (s_err p) in line));
   ("errormod", "1", ints ps (fun p => let '(msg, line, mod_) := error_parse (s_err p) in mod_))].
Definition state_write (f : h5) (run : path) (state : string) (ps : list marker) : bool * h5 := write_group f run state (state_columns ps).

(** ** hdf5_orbit_write, hdf5_orbit.c:32-210 *)
Record orbits := mkorb { o_len : nat; o_data : ofield -> nat -> R }.
(** hdf5_orbit.c:39-46: the mask of the slots in use *)
Definition in_use (o : orbits) : list nat := filter (fun i => if Rlt_dec 0.1 (o_data o o_id i) then true else false) (seq 0 (o_len o)).
Inductive otype := F64 | I32 | I64.
(** hdf5_orbit_writeset, hdf5_orbit.c:225-270 *)
Definition writeset (o : orbits) (a : string * string * otype * R * ofield) : column_out :=
  let '(name, unit, ty, confac, q) := a in
  (name, unit, match ty with
               | F64 => DReal (map (fun i => confac * o_data o q i) (in_use o))
               | I32 => DInt (map (fun i => i32 (ftrunc (confac * o_data o q i))) (in_use o))
               | I64 => DInt (map (fun i => i64 (ftrunc (confac * o_data o q i))) (in_use o))
               end).
Definition orbit_sets (m : simmode) (poincare : bool) : list (string * string * otype * R * ofield) :=
  (match m with
   | mode_fo =>
       [("ids", "1", I32, 1, o_id); ("mileage", "s", F64, 1, o_mileage); ("r", "m", F64, 1, o_r); ("phi", "deg", F64, 180 / PI, o_phi);
        ("z", "m", F64, 1, o_z); ("pr", "kg*m/s", F64, 1, o_pr); ("pphi", "kg*m/s", F64, 1, o_pphi); ("pz", "kg*m/s", F64, 1, o_pz);
        ("weight", "1", F64, 1, o_weight); ("charge", "e", I64, 1 / CONST_E, o_charge); ("rho", "1", F64, 1, o_rho);
        ("theta", "deg", F64, 180 / PI, o_theta); ("br", "T", F64, 1, o_Br); ("bphi", "T", F64, 1, o_Bphi); ("bz", "T", F64, 1, o_Bz);
        ("simmode", "1", I32, 1, o_simmode)]
   | mode_gc =>
       [("ids", "1", I32, 1, o_id); ("mileage", "s", F64, 1, o_mileage); ("r", "m", F64, 1, o_r); ("phi", "deg", F64, 180 / PI, o_phi);
        ("z", "m", F64, 1, o_z); ("ppar", "kg*m/s", F64, 1, o_ppar); ("mu", "eV/T", F64, 1 / CONST_E, o_mu); ("zeta", "rad", F64, 1, o_zeta);
        ("weight", "1", F64, 1, o_weight); ("charge", "e", I64, 1 / CONST_E, o_charge); ("rho", "1", F64, 1, o_rho);
        ("theta", "deg", F64, 180 / PI, o_theta); ("br", "T", F64, 1, o_Br); ("bphi", "T", F64, 1, o_Bphi); ("bz", "T", F64, 1, o_Bz);
        ("simmode", "1", I32, 1, o_simmode)]
   | mode_ml =>
       [("ids", "1", I32, 1, o_id); ("mileage", "s", F64, 1, o_mileage); ("r", "m", F64, 1, o_r); ("phi", "deg", F64, 180 / PI, o_phi);
        ("z", "m", F64, 1, o_z); ("rho", "1", F64, 1, o_rho);
        ("theta", "deg", F64, 180 / PI, o_theta); ("br", "T", F64, 1, o_Br); ("bphi", "T", F64, 1, o_Bphi); ("bz", "T", F64, 1, o_Bz);
        ("simmode", "1", I32, 1, o_simmode)]
   | mode_hybrid =>
       [("ids", "1", I32, 1, o_id); ("mileage", "s", F64, 1, o_mileage); ("r", "m", F64, 1, o_r); ("phi", "deg", F64, 180 / PI, o_phi);
        ("z", "m", F64, 1, o_z); ("pr", "kg*m/s", F64, 1, o_pr); ("pphi", "kg*m/s", F64, 1, o_pphi); ("pz", "kg*m/s", F64, 1, o_pz);
        ("ppar", "kg*m/s", F64, 1, o_ppar); ("mu", "eV/T", F64, 1 / CONST_E, o_mu); ("zeta", "rad", F64, 1, o_zeta);
        ("weight", "1", F64, 1, o_weight); ("charge", "e", I64, 1 / CONST_E, o_charge); ("rho", "1", F64, 1, o_rho);
        ("theta", "deg", F64, 180 / PI, o_theta); ("br", "T", F64, 1, o_Br); ("bphi", "T", F64, 1, o_Bphi); ("bz", "T", F64, 1, o_Bz);
        ("simmode", "1", I32, 1, o_simmode)]
   end ++ (if poincare then [("pncrid", "1", I64, 1, o_pncrid); ("pncrdi", "1", I64, 1, o_pncrdi)] else []))%list.
Definition orbit_write (f : h5) (run : path) (name : string) (m : simmode) (poincare : bool) (o : orbits) : bool * h5 :=
  write_group f run name (map (writeset o) (orbit_sets m poincare)).

(** ** hdf5_transcoef_write, hdf5_transcoef.c:26-90 *)
Record coefs := mkcoef { c_len : nat; c_id : nat -> Z; c_K : nat -> R; c_D : nat -> R; c_rho : bool }.
Definition coef_use (c : coefs) : list nat := filter (fun i => Z.ltb 0 (c_id c i)) (seq 0 (c_len c)).
Definition coef_columns (c : coefs) : list column_out :=
  [("ids", "1", DInt (map (c_id c) (coef_use c)));
   ("k", if c_rho c then "1/s" else "m/s", DReal (map (c_K c) (coef_use c)));
   ("d", if c_rho c then "1/s" else "m^2/s", DReal (map (c_D c) (coef_use c)))].
Definition transcoef_write (f : h5) (run : path) (name : string) (c : coefs) : bool * h5 := write_group f run name (coef_columns c).

(** ** hdf5_histogram_write_uniform_double, hdf5_histogram.c:158-259 *)
Record abscissa := mkabs { a_n : Z; a_min : R; a_max : R; a_unit : string; a_name : string }.
(** what is written: dimensions and contents of the ordinate with its unit, and the edges of each axis *)
Record histfile := mkhist { hf_dims : list Z; hf_unit : string; hf_ord : Z -> R; hf_edges : list (string * string * list R) }.
(** hdf5_histogram.c:222-227 *)
Definition edges (a : abscissa) : list R := map (fun j => a_min a + INR j * ((a_max a - a_min a) / IZR (a_n a))) (seq 0 (Z.to_nat (a_n a) + 1)).
Definition histogram_write (ab : list abscissa) (unit : string) (ord : Z -> R) : histfile :=
  mkhist (1%Z :: map a_n ab) unit ord (map (fun a => (a_name a, a_unit a, edges a)) ab).

(** ** hdf5_dist.c *)
(** math_rad2deg, math.h:114 *)
Definition rad2deg (x : R) : R := x * (180 / PI).
Definition axis_out (conv : R -> R) (unit name : string) (a : axis) : abscissa := mkabs (an a) (conv (amin a)) (conv (amax a)) unit name.
Definition asis (x : R) : R := x.
Definition by_e (x : R) : R := x / CONST_E.
(** hdf5_dist_write_5D, 6D, rho5D, rho6D, COM: hdf5_dist.c:26-72, 82-132, 141-188, 197-247, 249-280 *)
Definition dist_axes (t : dtype) : list ((R -> R) * string * string) :=
  match t with
  | D5 => [(asis, "m", "r"); (rad2deg, "deg", "phi"); (asis, "m", "z"); (asis, "kg*m/s", "ppar"); (asis, "kg*m/s", "pperp"); (asis, "s", "time"); (asis, "e", "charge")]
  | D6 => [(asis, "m", "r"); (rad2deg, "deg", "phi"); (asis, "m", "z"); (asis, "kg*m/s", "pr"); (asis, "kg*m/s", "pphi"); (asis, "kg*m/s", "pz"); (asis, "s", "time"); (asis, "e", "charge")]
  | DR5 => [(asis, "1", "rho"); (rad2deg, "deg", "theta"); (rad2deg, "deg", "phi"); (asis, "kg*m/s", "ppar"); (asis, "kg*m/s", "pperp"); (asis, "s", "time"); (asis, "e", "charge")]
  | DR6 => [(asis, "1", "rho"); (rad2deg, "deg", "theta"); (rad2deg, "deg", "phi"); (asis, "kg*m/s", "pr"); (asis, "kg*m/s", "pphi"); (asis, "kg*m/s", "pz"); (asis, "s", "time"); (asis, "e", "charge")]
  | DCOM => [(by_e, "eV/T", "mu"); (by_e, "eV", "ekin"); (by_e, "eV*s", "ptor")]
  end.
Definition dist_unit (t : dtype) : string :=
  match t with
  | D5 => "s/(m^5*kg^2*deg*e)" | D6 => "s/(m^6*kg^3*deg*e)" | DR5 => "s/(m^2*kg^2*deg^2*e)"
  | DR6 => "s^2/(m^3*kg^3*deg^2*e)" | DCOM => "T/(eV**3*s)" end.
Definition dist_write (t : dtype) (ax : list axis) (h : Z -> R) : histfile :=
  histogram_write (map (fun p => let '(conv, unit, name, a) := p in axis_out conv unit name a) (combine (dist_axes t) ax)) (dist_unit t) h.

(** ** hdf5_hist_write, hdf5_histogram.c:15-132: axes without bins are left out *)
Definition hist_axes : list ((R -> R) * string * string) :=
  [(asis, "m", "r"); (rad2deg, "deg", "phi"); (asis, "m", "z"); (asis, "1", "rho"); (rad2deg, "deg", "theta"); (asis, "kg*m/s", "ppar");
   (asis, "kg*m/s", "pperp"); (asis, "kg*m/s", "pr"); (asis, "kg*m/s", "pphi"); (asis, "kg*m/s", "pz"); (by_e, "eV", "ekin"); (asis, "1", "pitch");
   (asis, "T/eV", "mu"); (asis, "kg*m/s", "ptor"); (asis, "s", "time"); (asis, "e", "charge")].
Definition hist_write (h : histogram) (b : Z -> R) : histfile :=
  let used := filter (fun p => negb (Z.eqb (an (snd p)) 0)) (combine hist_axes (map (h_ax h) (seq 0 ALLDIM))) in
  histogram_write (map (fun p => let '(conv, unit, name, a) := p in axis_out conv unit name a) used) "s/(m^5*kg^2*deg*e)" b.
