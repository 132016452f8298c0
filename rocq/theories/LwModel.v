(** The remaining queries of the external library, src/libascot.c: fields, flux, axis, species, neutral density,
    Boozer coordinates, MHD modes and perturbations.

    Every routine with points loops over them in parallel ([#pragma omp parallel for]); here over a list of
    indices, in the order in which the iterations happen to run. An iteration is the list of assignments it makes
    to elements [k] of the named output arrays, or [None] when the C code has no defined behaviour. The time is
    left out where the field models do not depend on it. *)
From Coq Require Import Reals ZArith List Bool String.
Import ListNotations.
From Verif Require Import Vec AxisModel SplineModel LintModel BfModel NeutralModel MhdModel HinModel HuseModel.
Import Verif.Vec.
Local Open Scope string_scope.
Local Open Scope R_scope.

Definition store : Type := string -> nat -> R.
Definition assignments : Type := list (string * R).
Definition assign (k : nat) (s : store) (p : string * R) : store :=
  fun a j => if (String.eqb a (fst p) && Nat.eqb j k)%bool then snd p else s a j.
Fixpoint for_all_points (order : list nat) (body : nat -> option assignments) (s : store) : option store :=
  match order with
  | [] => Some s
  | k :: rest => match body k with None => None | Some l => for_all_points rest body (fold_left (assign k) l s) end
  end.

(** "if( error ) continue;" *)
Definition if_ok {A} (x : out A) (f : A -> option assignments) : option assignments :=
  match x with Out e v => if negb (e =? 0)%Z then Some [] else f v | _ => None end.
Definition if_okE {A} (x : option (Z * A)) (f : A -> option assignments) : option assignments :=
  match x with Some (e, v) => if negb (e =? 0)%Z then Some [] else f v | None => None end.

Section queries.
Variables (r phi z t : nat -> R).

(** libascot_B_field_eval_B_dB, libascot.c:72-90 *)
Definition point_B_dB (B : bfield) (k : nat) : option assignments :=
  if_ok (B_field_eval_B_dB B (r k) (phi k) (z k)) (fun v => Some
    [("BR", v 0%nat); ("Bphi", v 4%nat); ("Bz", v 8%nat);
     ("BR_dR", v 1%nat); ("BR_dphi", v 2%nat); ("BR_dz", v 3%nat);
     ("Bphi_dR", v 5%nat); ("Bphi_dphi", v 6%nat); ("Bphi_dz", v 7%nat);
     ("Bz_dR", v 9%nat); ("Bz_dphi", v 10%nat); ("Bz_dz", v 11%nat)]).
(** libascot_B_field_eval_rho, libascot.c:113-129 *)
Definition point_rho (B : bfield) (k : nat) : option assignments :=
  if_ok (B_field_eval_psi_dpsi B (r k) (phi k) (z k)) (fun '(p, g) =>
    let first := [("psi", p); ("dpsidr", vx g); ("dpsidphi", vy g); ("dpsidz", vz g)] in
    match if_ok (B_field_eval_rho B p) (fun '(x, d) => Some [("rho", x); ("drhodpsi", d)]) with
    | Some l => Some (first ++ l)%list
    | None => None
    end).
(** libascot_B_field_get_axis, libascot.c:145-153 *)
Definition point_axis (B : bfield) (k : nat) : option assignments :=
  if_ok (B_field_get_axis_rz B (phi k)) (fun '(x, y) => Some [("Raxis", x); ("zaxis", y)]).
(** libascot_E_field_eval_E, libascot.c:387-397 *)
Definition point_E (E : efield) (B : bfield) (k : nat) : option assignments :=
  match E_field_eval_E E B (r k) (phi k) (z k) with
  | FVal v => Some [("ER", vx v); ("Ephi", vy v); ("Ez", vz v)]
  | FErr _ => Some []
  | _ => None
  end.

(** libascot_neutral_eval_density, libascot.c:491-506. The array n0 has one element; neutral_eval_n0 stores the
    density of species [i] in n0[i] unless the interpolation fails (N0_1D.c:116, N0_3D.c:120). *)
Definition stores_n0 (nd : neutral) (rho r phi z : R) (i : nat) : bool :=
  match nd with
  | Nt1D d => match linint1D_eval_f (n1_n0 d i) rho with Val _ => true | _ => false end
  | Nt3D d => match linint3D_eval_f (n3_n0 d i) r phi z with Val _ => true | _ => false end
  | Ntother => false
  end.
Definition point_density (junk : nat -> R) (B : bfield) (nd : neutral) (k : nat) : option assignments :=
  if_ok (B_field_eval_psi B (r k) (phi k) (z k)) (fun p =>
  if_ok (B_field_eval_rho B p) (fun '(x, _) =>
  if existsb (stores_n0 nd x (r k) (phi k) (z k)) (seq 1 (neutral_get_n_species nd - 1)) then None else
  if_okE (neutral_eval_n0 nd x (r k) (phi k) (z k) junk) (fun n0 => Some [("dens", n0 0%nat)]))).

(** libascot_boozer_eval_psithetazeta, libascot.c:538-567; [boozer] is boozer_eval_psithetazeta *)
Definition point_boozer (boozer : R -> R -> R -> option (Z * bool * (nat -> R))) (evalrho : R -> Z * (nat -> R)) (k : nat) : option assignments :=
  match boozer (r k) (phi k) (z k) with
  | None => None
  | Some (e, isinside, p) =>
    if negb (e =? 0)%Z then Some [] else
    if negb isinside then Some [] else
    let '(e, x) := evalrho (p 0%nat) in
    if negb (e =? 0)%Z then Some [] else Some
    [("psi", p 0%nat); ("theta", p 4%nat); ("zeta", p 8%nat);
     ("dpsidr", p 1%nat); ("dpsidphi", p 2%nat); ("dpsidz", p 3%nat);
     ("dthetadr", p 5%nat); ("dthetadphi", p 6%nat); ("dthetadz", p 7%nat);
     ("dzetadr", p 9%nat); ("dzetadphi", p 10%nat); ("dzetadz", p 11%nat); ("rho", x 0%nat)]
  end.
(** libascot_mhd_eval, libascot.c:691-709; [mhd] is mhd_eval *)
Definition point_mhd (mhd : R -> R -> R -> R -> Z -> option (Z * (nat -> R))) (include : Z) (k : nat) : option assignments :=
  if_okE (mhd (r k) (phi k) (z k) (t k) include) (fun m => Some
    [("alpha", m 0%nat); ("dadr", m 2%nat); ("dadphi", m 3%nat); ("dadz", m 4%nat); ("dadt", m 1%nat);
     ("Phi", m 5%nat); ("dPhidr", m 7%nat); ("dPhidphi", m 8%nat); ("dPhidz", m 9%nat); ("dPhidt", m 6%nat)]).
(** libascot_mhd_eval_perturbation, libascot.c:735-754; [pert] is mhd_perturbations *)
Definition point_pert (pert : R -> R -> R -> R -> bool -> Z -> option (Z * (nat -> R))) (include : Z) (k : nat) : option assignments :=
  let onlypert := true in
  if_okE (pert (r k) (phi k) (z k) (t k) onlypert include) (fun p => Some
    [("mhd_br", p 0%nat); ("mhd_bphi", p 1%nat); ("mhd_bz", p 2%nat);
     ("mhd_er", p 3%nat); ("mhd_ephi", p 4%nat); ("mhd_ez", p 5%nat); ("mhd_phi", p 6%nat)]).
End queries.

(** ** Species and modes *)
(** the species of a plasma: plasma_1D.c:29-45, plasma_1Dt.c:29-42, plasma_1DS.c:47-59 and the getters of
    plasma.c:284-417, for what the readers pass (hdf5_plasma.c:127-128, 216-217, 299-301); an array is a list *)
Record species := Species { sp_n : Z; sp_anum : list Z; sp_znum : list Z; sp_mass : list R; sp_charge : list R }.
Definition plasma_species (a : params) : species :=
  let nion := pz a "nion" in let n := (nion + 1)%Z in
  let ints p := firstn (Z.to_nat nion) (fst (get a p)) in
  let reals p := firstn (Z.to_nat n) (snd (get a p)) in
  Species n (ints "anum") (ints "znum") (reals "mass") (reals "charge").
Definition Q_M_E : R := 9.1094e-31.
Definition Q_E : R := 1.602176565e-19.
(** libascot_plasma_get_species_mass_and_charge, libascot.c:420-437: what row [i] of the four output arrays gets *)
Definition species_row (s : species) (i : nat) : option (R * R * Z * Z) :=
  if Nat.eqb i 0 then Some (Q_M_E, - Q_E, 0%Z, 0%Z)
  else if Z.ltb (Z.of_nat i) (sp_n s) then
    match nth_error (sp_mass s) i, nth_error (sp_charge s) i, nth_error (sp_anum s) (i - 1), nth_error (sp_znum s) (i - 1) with
    | Some m, Some q, Some a, Some z => Some (m, q, a, z)
    | _, _, _, _ => None
    end
  else None.

(** mhd_stat.c:160-163: interp1Dcomp_eval_df *)
Definition eig (c : interp1D) : seig := fun x =>
  match interp1Dcomp_eval_df c x with
  | Val (f, f1, f2) => (false, fun k => match k with 0%nat => f | 1%nat => f1 | _ => f2 end)
  | _ => (true, fun _ => 0)
  end.
(** the modes of a stationary perturbation: mhd_stat.c:28-61 for what the reader passes (hdf5_mhd.c:98-99);
    [None] = a spline cannot be set up *)
Definition stat_mode_of (junk : nat -> R) (a : params) (i : nat) : option (mode seig) :=
  let nrho := pn a "nrho" in
  let spl p := interp1Dcomp_setup junk (fun j => tabN a p (i * nrho + j)) nrho NATURALBC (px a "rhomin") (px a "rhomax") in
  match spl "alpha", spl "phi" with
  | Val al, Val ph => Some (Mode (nth i (fst (get a "moden")) 0%Z) (nth i (fst (get a "modem")) 0%Z)
      (tabN a "amplitude_nm" i) (tabN a "omega_nm" i) (tabN a "phase_nm" i) (eig al) (eig ph))
  | _, _ => None
  end.
Fixpoint all_some {A} (l : list (option A)) : option (list A) :=
  match l with
  | [] => Some []
  | Some x :: l => match all_some l with Some t => Some (x :: t) | None => None end
  | None :: _ => None
  end.
Definition stat_modes (junk : nat -> R) (a : params) : option (list (mode seig)) :=
  all_some (map (stat_mode_of junk a) (seq 0 (pn a "nmode"))).
(** libascot_mhd_get_mode_specs, libascot.c:646-664 with the getters of mhd.c:203-296: row [i] of the output arrays *)
Definition mode_row {E} (ds : list (mode E)) (i : nat) : option (Z * Z * R * R * R) :=
  match nth_error ds i with Some d => Some (mn d, mm d, mamp d, momega d, mphase d) | None => None end.
