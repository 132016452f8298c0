From Coq Require Import Reals ZArith List String Bool Lia Lra.
Import ListNotations.
From Verif Require Import MainModel HdfModel HmkModel OptModel HinModel.
Local Open Scope string_scope.
Local Open Scope R_scope.

(** ** Specification *)
(** contents of the datasets of an input group *)
Record content := mkcontent { ci : string -> list Z; cr : string -> list R }.
(** SI values of the units in the file *)
Inductive unit_ := U1 | Uev | Uamu | Udeg.
Definition inSI (u : unit_) : R := match u with U1 => 1 | Uev => 1.602176565e-19 | Uamu => 1.660538921e-27 | Udeg => PI / 180 end.
(** what a parameter receives: integers, reals in SI, or the values of all species with those of the electrons in front *)
Inductive want := WI (ds : string) | WR (ds : string) (u : unit_) | WCharge (ds : string) | WMass (ds : string).
Definition holds (c : content) (w : want) (x : list Z * list R) : Prop :=
  match w with
  | WI ds => fst x = ci c ds
  | WR ds u => snd x = map (fun y => inSI u * y) (cr c ds)
  | WCharge ds => snd x = - (1.602176565e-19) :: map (fun q => IZR q * 1.602176565e-19) (ci c ds)
  | WMass ds => snd x = 9.1094e-31 :: map (fun m => 1.660538921e-27 * m) (cr c ds)
  end.
(** number of entries in terms of other datasets *)
Definition prodZ (l : list Z) : Z := fold_right Z.mul 1%Z l.
Definition entries (c : content) (z : size) : Z :=
  match z with
  | Prod k dss => (Z.of_nat k * prodZ (map (fun ds => nth 0 (ci c ds) 0%Z) dss))%Z
  | Sum dss => fold_right Z.add 0%Z (map (fun i => prodZ (map (fun ds => nth i (ci c ds) 0%Z) dss)) (seq 0 (List.length (ci c (hd "" dss)))))
  | Part ds dss => if (1 <=? nth 0 (ci c ds) 0)%Z then prodZ (map (fun ds => nth 0 (ci c ds) 0%Z) dss) else 0%Z
  end.
(** a dataset: name, whether it holds integers, number of entries *)
Definition shape : Type := list (string * bool * size).
Definition is_int (z : Z) : Prop := (- 2147483648 <= z <= 2147483647)%Z.
Definition complete (f : h5) (pre qid : string) (c : content) (sh : shape) : Prop :=
  forall ds b z, In (ds, b, z) sh -> exists d, lookup f (pre ++ ds) qid = Some d /\
    (if b then as_ints d = ci c ds /\ Forall is_int (ci c ds) /\ Z.of_nat (List.length (ci c ds)) = entries c z
     else as_reals d = cr c ds /\ Z.of_nat (List.length (cr c ds)) = entries c z).
Definition delivered (c : content) (tab : list (string * want)) (res : list (string * (list Z * list R))) : Prop :=
  Forall2 (fun t r => fst t = fst r /\ holds c (snd t) (snd r)) tab res.

(** ** The inputs: datasets and what becomes of them *)
Definition i0 (n : string) : string * bool * size := (n, true, Prod 1 []).
Definition r0 (n : string) : string * bool * size := (n, false, Prod 1 []).
Definition ii (n : string) (l : list string) : string * bool * size := (n, true, Prod 1 l).
Definition rr (n : string) (l : list string) : string * bool * size := (n, false, Prod 1 l).
Definition s_2DS : shape := [i0 "nr"; i0 "nz"; r0 "rmin"; r0 "rmax"; r0 "zmin"; r0 "zmax"; r0 "psi0"; r0 "psi1"; r0 "axisr"; r0 "axisz";
  rr "psi" ["nr"; "nz"]; rr "br" ["nr"; "nz"]; rr "bphi" ["nr"; "nz"]; rr "bz" ["nr"; "nz"]].
Definition t_2DS : list (string * want) := [("n_r", WI "nr"); ("r_min", WR "rmin" U1); ("r_max", WR "rmax" U1); ("n_z", WI "nz"); ("z_min", WR "zmin" U1); ("z_max", WR "zmax" U1);
  ("axis_r", WR "axisr" U1); ("axis_z", WR "axisz" U1); ("psi0", WR "psi0" U1); ("psi1", WR "psi1" U1); ("psi", WR "psi" U1); ("B_r", WR "br" U1); ("B_phi", WR "bphi" U1); ("B_z", WR "bz" U1)].
Definition s_3DS : shape := [i0 "b_nr"; i0 "b_nphi"; i0 "b_nz"; r0 "b_rmin"; r0 "b_rmax"; r0 "b_phimin"; r0 "b_phimax"; r0 "b_zmin"; r0 "b_zmax";
  i0 "psi_nr"; i0 "psi_nz"; r0 "psi_rmin"; r0 "psi_rmax"; r0 "psi_zmin"; r0 "psi_zmax"; r0 "psi0"; r0 "psi1"; r0 "axisr"; r0 "axisz";
  rr "psi" ["psi_nr"; "psi_nz"]; rr "br" ["b_nr"; "b_nphi"; "b_nz"]; rr "bphi" ["b_nr"; "b_nphi"; "b_nz"]; rr "bz" ["b_nr"; "b_nphi"; "b_nz"]].
Definition t_grid3 (p d : string) : list (string * want) := [(p ++ "_n_r", WI (d ++ "_nr")); (p ++ "_r_min", WR (d ++ "_rmin") U1); (p ++ "_r_max", WR (d ++ "_rmax") U1);
  (p ++ "_n_phi", WI (d ++ "_nphi")); (p ++ "_phi_min", WR (d ++ "_phimin") Udeg); (p ++ "_phi_max", WR (d ++ "_phimax") Udeg);
  (p ++ "_n_z", WI (d ++ "_nz")); (p ++ "_z_min", WR (d ++ "_zmin") U1); (p ++ "_z_max", WR (d ++ "_zmax") U1)].
Definition t_3DS : list (string * want) := ([("p_n_r", WI "psi_nr"); ("p_r_min", WR "psi_rmin" U1); ("p_r_max", WR "psi_rmax" U1); ("p_n_z", WI "psi_nz"); ("p_z_min", WR "psi_zmin" U1); ("p_z_max", WR "psi_zmax" U1)] ++
  t_grid3 "b" "b" ++ [("axis_r", WR "axisr" U1); ("axis_z", WR "axisz" U1); ("psi0", WR "psi0" U1); ("psi1", WR "psi1" U1); ("psi", WR "psi" U1); ("B_r", WR "br" U1); ("B_phi", WR "bphi" U1); ("B_z", WR "bz" U1)])%list.
Definition s_STS : shape := [i0 "b_nr"; i0 "b_nphi"; i0 "b_nz"; r0 "b_rmin"; r0 "b_rmax"; r0 "b_phimin"; r0 "b_phimax"; r0 "b_zmin"; r0 "b_zmax";
  i0 "psi_nr"; i0 "psi_nphi"; i0 "psi_nz"; r0 "psi_rmin"; r0 "psi_rmax"; r0 "psi_phimin"; r0 "psi_phimax"; r0 "psi_zmin"; r0 "psi_zmax"; r0 "psi0"; r0 "psi1";
  i0 "axis_nphi"; r0 "axis_phimin"; r0 "axis_phimax"; rr "axisr" ["axis_nphi"]; rr "axisz" ["axis_nphi"];
  rr "psi" ["psi_nr"; "psi_nphi"; "psi_nz"]; rr "br" ["b_nr"; "b_nphi"; "b_nz"]; rr "bphi" ["b_nr"; "b_nphi"; "b_nz"]; rr "bz" ["b_nr"; "b_nphi"; "b_nz"]].
Definition t_STS : list (string * want) := (t_grid3 "p" "psi" ++ t_grid3 "b" "b" ++ [("naxis", WI "axis_nphi"); ("axis_min", WR "axis_phimin" Udeg); ("axis_max", WR "axis_phimax" Udeg);
  ("axis_r", WR "axisr" U1); ("axis_z", WR "axisz" U1); ("psi0", WR "psi0" U1); ("psi1", WR "psi1" U1); ("psi", WR "psi" U1); ("B_r", WR "br" U1); ("B_phi", WR "bphi" U1); ("B_z", WR "bz" U1)])%list.
Definition s_TC : shape := [r0 "axisr"; r0 "axisz"; r0 "psival"; r0 "rhoval"; ("bxyz", false, Prod 3 []); ("jacobian", false, Prod 9 [])].
Definition t_TC : list (string * want) := [("axisr", WR "axisr" U1); ("axisz", WR "axisz" U1); ("psival", WR "psival" U1); ("rhoval", WR "rhoval" U1); ("B", WR "bxyz" U1); ("dB", WR "jacobian" U1)].
Definition s_GS : shape := [r0 "r0"; r0 "z0"; r0 "raxis"; r0 "zaxis"; r0 "bphi0"; r0 "psi0"; r0 "psi1"; r0 "psimult"; ("coefficients", false, Prod 14 []); i0 "nripple"; r0 "a0"; r0 "alpha0"; r0 "delta0"].
Definition t_GS : list (string * want) := [("R0", WR "r0" U1); ("z0", WR "z0" U1); ("raxis", WR "raxis" U1); ("zaxis", WR "zaxis" U1); ("B_phi0", WR "bphi0" U1); ("psi0", WR "psi0" U1); ("psi1", WR "psi1" U1);
  ("psi_mult", WR "psimult" U1); ("c", WR "coefficients" U1); ("Nripple", WI "nripple"); ("a0", WR "a0" U1); ("alpha0", WR "alpha0" U1); ("delta0", WR "delta0" U1)].
Definition s_E1 : shape := [i0 "nrho"; r0 "rhomin"; r0 "rhomax"; r0 "reff"; rr "dvdrho" ["nrho"]].
Definition t_E1 : list (string * want) := [("nrho", WI "nrho"); ("rhomin", WR "rhomin" U1); ("rhomax", WR "rhomax" U1); ("reff", WR "reff" U1); ("dvdrho", WR "dvdrho" U1)].
Definition s_ETC : shape := [("exyz", false, Prod 3 [])].
Definition t_ETC : list (string * want) := [("exyz", WR "exyz" U1)].
Definition s_ions : shape := [i0 "nion"; ii "znum" ["nion"]; ii "anum" ["nion"]; ii "charge" ["nion"]; rr "mass" ["nion"]].
Definition t_ions : list (string * want) := [("anum", WI "anum"); ("znum", WI "znum"); ("mass", WMass "mass"); ("charge", WCharge "charge")].
Definition t_prof : list (string * want) := [("Te", WR "etemperature" Uev); ("Ti", WR "itemperature" Uev); ("ne", WR "edensity" U1); ("ni", WR "idensity" U1); ("vtor", WR "vtor" U1)].
Definition s_P1 : shape := (s_ions ++ [i0 "nrho"; rr "rho" ["nrho"]; rr "vtor" ["nrho"]; rr "etemperature" ["nrho"]; rr "edensity" ["nrho"]; rr "itemperature" ["nrho"]; rr "idensity" ["nrho"; "nion"]])%list.
Definition t_P1 : list (string * want) := ([("nrho", WI "nrho"); ("nion", WI "nion"); ("rho", WR "rho" U1)] ++ t_ions ++ t_prof)%list.
Definition s_Pt : shape := (s_ions ++ [i0 "nrho"; i0 "ntime"; rr "rho" ["nrho"]; rr "time" ["ntime"]; rr "vtor" ["ntime"; "nrho"]; rr "etemperature" ["ntime"; "nrho"]; rr "edensity" ["ntime"; "nrho"];
  rr "itemperature" ["ntime"; "nrho"]; rr "idensity" ["ntime"; "nion"; "nrho"]])%list.
Definition t_Pt : list (string * want) := ([("nrho", WI "nrho"); ("ntime", WI "ntime"); ("nion", WI "nion"); ("rho", WR "rho" U1); ("time", WR "time" U1)] ++ t_ions ++ t_prof)%list.
Definition s_PS : shape := (s_ions ++ [i0 "nrho"; r0 "rhomin"; r0 "rhomax"; rr "vtor" ["nrho"]; rr "etemperature" ["nrho"]; rr "edensity" ["nrho"]; rr "itemperature" ["nrho"]; rr "idensity" ["nrho"; "nion"]])%list.
Definition t_PS : list (string * want) := ([("nrho", WI "nrho"); ("rhomin", WR "rhomin" U1); ("rhomax", WR "rhomax" U1); ("nion", WI "nion")] ++ t_ions ++ t_prof)%list.
Definition s_N1 : shape := [i0 "nrho"; r0 "rhomin"; r0 "rhomax"; i0 "nspecies"; ii "anum" ["nspecies"]; ii "znum" ["nspecies"]; ii "maxwellian" ["nspecies"];
  rr "density" ["nspecies"; "nrho"]; rr "temperature" ["nspecies"; "nrho"]].
Definition t_N : list (string * want) := [("n_species", WI "nspecies"); ("anum", WI "anum"); ("znum", WI "znum"); ("maxwellian", WI "maxwellian"); ("density", WR "density" U1); ("temperature", WR "temperature" Uev)].
Definition t_N1 : list (string * want) := ([("n_rho", WI "nrho"); ("rho_min", WR "rhomin" U1); ("rho_max", WR "rhomax" U1)] ++ t_N)%list.
Definition s_N3 : shape := [i0 "nr"; r0 "rmin"; r0 "rmax"; i0 "nphi"; r0 "phimin"; r0 "phimax"; i0 "nz"; r0 "zmin"; r0 "zmax"; i0 "nspecies"; ii "anum" ["nspecies"]; ii "znum" ["nspecies"]; ii "maxwellian" ["nspecies"];
  rr "density" ["nspecies"; "nr"; "nphi"; "nz"]; rr "temperature" ["nspecies"; "nr"; "nphi"; "nz"]].
Definition t_N3 : list (string * want) := ([("n_r", WI "nr"); ("r_min", WR "rmin" U1); ("r_max", WR "rmax" U1); ("n_phi", WI "nphi"); ("phi_min", WR "phimin" Udeg); ("phi_max", WR "phimax" Udeg);
  ("n_z", WI "nz"); ("z_min", WR "zmin" U1); ("z_max", WR "zmax" U1)] ++ t_N)%list.
Definition s_W2 : shape := [i0 "nelements"; rr "r" ["nelements"]; rr "z" ["nelements"]; ii "flag" ["nelements"]].
Definition t_W2 : list (string * want) := [("nelements", WI "nelements"); ("r", WR "r" U1); ("z", WR "z" U1); ("flag", WI "flag")].
Definition s_W3 : shape := [i0 "nelements"; ("x1x2x3", false, Prod 3 ["nelements"]); ("y1y2y3", false, Prod 3 ["nelements"]); ("z1z2z3", false, Prod 3 ["nelements"]); ii "flag" ["nelements"]].
Definition t_W3 : list (string * want) := [("nelements", WI "nelements"); ("x1x2x3", WR "x1x2x3" U1); ("y1y2y3", WR "y1y2y3" U1); ("z1z2z3", WR "z1z2z3" U1); ("flag", WI "flag")].
Definition s_M1 : shape := [i0 "nmode"; i0 "nrho"; r0 "rhomin"; r0 "rhomax"; ii "nmodes" ["nmode"]; ii "mmodes" ["nmode"]; rr "amplitude" ["nmode"]; rr "omega" ["nmode"]; rr "phase" ["nmode"];
  rr "alpha" ["nrho"; "nmode"]; rr "phi" ["nrho"; "nmode"]].
Definition t_modes : list (string * want) := [("moden", WI "nmodes"); ("modem", WI "mmodes"); ("amplitude_nm", WR "amplitude" U1); ("omega_nm", WR "omega" U1); ("phase_nm", WR "phase" U1); ("alpha", WR "alpha" U1); ("phi", WR "phi" U1)].
Definition t_M1 : list (string * want) := ([("nmode", WI "nmode"); ("nrho", WI "nrho"); ("rhomin", WR "rhomin" U1); ("rhomax", WR "rhomax" U1)] ++ t_modes)%list.
Definition s_M2 : shape := [i0 "nmode"; i0 "nrho"; i0 "ntime"; r0 "rhomin"; r0 "rhomax"; r0 "tmin"; r0 "tmax"; ii "nmodes" ["nmode"]; ii "mmodes" ["nmode"]; rr "amplitude" ["nmode"]; rr "omega" ["nmode"]; rr "phase" ["nmode"];
  rr "alpha" ["nrho"; "ntime"; "nmode"]; rr "phi" ["nrho"; "ntime"; "nmode"]].
Definition t_M2 : list (string * want) := ([("nmode", WI "nmode"); ("nrho", WI "nrho"); ("ntime", WI "ntime"); ("rhomin", WR "rhomin" U1); ("rhomax", WR "rhomax" U1); ("tmin", WR "tmin" U1); ("tmax", WR "tmax" U1)] ++ t_modes)%list.
Definition s_Bz : shape := [i0 "npsi"; r0 "psimin"; r0 "psimax"; i0 "ntheta"; i0 "nthetag"; i0 "nrzs"; rr "nu_psitheta" ["npsi"; "ntheta"]; rr "theta_psithetageom" ["npsi"; "nthetag"]; ("rs", false, Part "npsi" ["nrzs"]); ("zs", false, Part "npsi" ["nrzs"])].
Definition t_Bz : list (string * want) := [("npsi", WI "npsi"); ("psi_min", WR "psimin" U1); ("psi_max", WR "psimax" U1); ("ntheta", WI "ntheta"); ("nthetag", WI "nthetag"); ("nu", WR "nu_psitheta" U1); ("theta", WR "theta_psithetageom" U1);
  ("nrzs", WI "nrzs"); ("rs", WR "rs" U1); ("zs", WR "zs" U1)].
Definition s_As : shape := (i0 "nreac" :: map (fun n => ii n ["nreac"]) ["z1"; "a1"; "z2"; "a2"; "reactype"; "nenergy"; "ndensity"; "ntemperature"] ++
  map (fun n => rr n ["nreac"]) ["energymin"; "energymax"; "densitymin"; "densitymax"; "temperaturemin"; "temperaturemax"] ++ [("sigma", false, Sum ["nenergy"; "ndensity"; "ntemperature"])])%list.
Definition t_As : list (string * want) := [("nreac", WI "nreac"); ("z1", WI "z1"); ("a1", WI "a1"); ("z2", WI "z2"); ("a2", WI "a2"); ("reactype", WI "reactype"); ("ne", WI "nenergy"); ("emin", WR "energymin" U1); ("emax", WR "energymax" U1);
  ("nn", WI "ndensity"); ("nmin", WR "densitymin" U1); ("nmax", WR "densitymax" U1); ("nT", WI "ntemperature"); ("Tmin", WR "temperaturemin" U1); ("Tmax", WR "temperaturemax" U1); ("sigma", WR "sigma" U1)].
(** group, reader, datasets, parameters *)
Definition inputs : list (string * reader * shape * list (string * want)) :=
  [("/bfield/B_2DS_XXXXXXXXXX/", rB_2DS, s_2DS, t_2DS); ("/bfield/B_3DS_XXXXXXXXXX/", rB_3DS, s_3DS, t_3DS); ("/bfield/B_STS_XXXXXXXXXX/", rB_STS, s_STS, t_STS);
   ("/bfield/B_TC_XXXXXXXXXX/", rB_TC, s_TC, t_TC); ("/bfield/B_GS_XXXXXXXXXX/", rB_GS, s_GS, t_GS);
   ("/efield/E_1DS_XXXXXXXXXX/", rE_1DS, s_E1, t_E1); ("/efield/E_TC_XXXXXXXXXX/", rE_TC, s_ETC, t_ETC);
   ("/plasma/plasma_1D_XXXXXXXXXX/", rplasma_1D, s_P1, t_P1); ("/plasma/plasma_1Dt_XXXXXXXXXX/", rplasma_1Dt, s_Pt, t_Pt); ("/plasma/plasma_1DS_XXXXXXXXXX/", rplasma_1DS, s_PS, t_PS);
   ("/neutral/N0_1D_XXXXXXXXXX/", rN0_1D, s_N1, t_N1); ("/neutral/N0_3D_XXXXXXXXXX/", rN0_3D, s_N3, t_N3);
   ("/wall/wall_2D_XXXXXXXXXX/", rwall_2D, s_W2, t_W2); ("/wall/wall_3D_XXXXXXXXXX/", rwall_3D, s_W3, t_W3);
   ("/mhd/MHD_STAT_XXXXXXXXXX/", rmhd_stat, s_M1, t_M1); ("/mhd/MHD_NONSTAT_XXXXXXXXXX/", rmhd_nonstat, s_M2, t_M2);
   ("/boozer/Boozer_XXXXXXXXXX/", rboozer, s_Bz, t_Bz); ("/asigma/asigma_loc_XXXXXXXXXX/", rasigma_loc, s_As, t_As)].

(** ** Symbolic execution *)
Definition abs : Type := list (string * want).
Fixpoint find (a : abs) (v : string) : option want := match a with [] => None | (k, w) :: t => if String.eqb k v then Some w else find t v end.
Fixpoint subs (a : abs) (vs : list string) : option (list string) :=
  match vs with
  | [] => Some []
  | v :: t => match find a v, subs a t with Some (WI ds), Some l => Some (ds :: l) | _, _ => None end
  end.
Definition asub (a : abs) (z : size) : option size :=
  match z with Prod k vs => option_map (Prod k) (subs a vs) | Sum [] => None | Sum vs => option_map Sum (subs a vs)
  | Part v vs => match subs a (v :: vs) with Some (ds :: l) => Some (Part ds l) | _ => None end end.
Definition size_eqb (x y : size) : bool :=
  match x, y with
  | Prod k l, Prod k' l' => Nat.eqb k k' && if list_eq_dec string_dec l l' then true else false
  | Sum l, Sum l' => if list_eq_dec string_dec l l' then true else false
  | Part v l, Part v' l' => String.eqb v v' && if list_eq_dec string_dec l l' then true else false
  | _, _ => false
  end.
Definition known (sh : shape) (ds : string) (b : bool) (z : size) : bool :=
  existsb (fun p => String.eqb (fst (fst p)) ds && Bool.eqb (snd (fst p)) b && size_eqb (snd p) z) sh.
Definition chk (sh : shape) (d : rstmt) (a : abs) : option abs :=
  match d with
  | RdI ds v z => match asub a z with Some z' => if known sh ds true z' then Some ((v, WI ds) :: a) else None | None => None end
  | RdR ds v z => match asub a z with Some z' => if known sh ds false z' then Some ((v, WR ds U1) :: a) else None | None => None end
  | Deg v => match find a v with Some (WR ds U1) => Some ((v, WR ds Udeg) :: a) | _ => None end
  | ByE v z => match find a v, asub a z with Some (WR ds U1), Some z' => if known sh ds false z' then Some ((v, WR ds Uev) :: a) else None | _, _ => None end
  | Charges v q z => match find a q, asub a z with Some (WI ds), Some z' => if known sh ds true z' then Some ((v, WCharge ds) :: a) else None | _, _ => None end
  | Masses v z => match find a v, asub a z with Some (WR ds U1), Some z' => if known sh ds false z' then Some ((v, WMass ds) :: a) else None | _, _ => None end
  end.
Fixpoint chks (sh : shape) (p : list rstmt) (a : abs) : option abs := match p with [] => Some a | d :: t => match chk sh d a with Some a => chks sh t a | None => None end end.

Definition inv (c : content) (a : abs) (s : loc) : Prop := forall v w, find a v = Some w -> holds c w (arg s v).
Lemma size_eqb_eq x y : size_eqb x y = true -> x = y.
Proof.
  destruct x, y; cbn; try discriminate; [|destruct list_eq_dec; [now subst|discriminate]|];
    intros H; apply andb_prop in H as [A B]; [apply Nat.eqb_eq in A|apply String.eqb_eq in A]; (destruct list_eq_dec; [now subst|discriminate]).
Qed.
Lemma known_in sh ds b z : known sh ds b z = true -> In (ds, b, z) sh.
Proof.
  unfold known. rewrite existsb_exists. intros ([[n b'] z'] & I & H). cbn in H. apply andb_prop in H as [H C]. apply andb_prop in H as [A B].
  apply String.eqb_eq in A. apply eqb_prop in B. apply size_eqb_eq in C. now subst.
Qed.
Lemma subs_vals c a s vs l : inv c a s -> subs a vs = Some l -> forall i, map (fun v => vz s v i) vs = map (fun ds => nth i (ci c ds) 0%Z) l.
Proof.
  intros I. revert l. induction vs as [|v t IH]; cbn; intros l H i; [injection H as <-; reflexivity|].
  destruct (find a v) as [[ds| | |]|] eqn:F; try discriminate. destruct (subs a t) as [l'|]; try discriminate. injection H as <-. cbn [map]. f_equal; [|now apply IH].
  apply I in F. cbn in F. unfold vz. now rewrite F.
Qed.
Lemma mul_prod l : mul l = prodZ l.
Proof. unfold mul, prodZ. rewrite fold_symmetric; [reflexivity|intros; ring|intros; ring]. Qed.
Lemma asub_len c a s z z' n : inv c a s -> asub a z = Some z' -> Z.of_nat n = entries c z' -> len s z = n.
Proof.
  intros I H E. destruct z as [k vs|vs|v vs].
  - cbn in H. destruct (subs a vs) as [l|] eqn:S; try discriminate. injection H as <-. cbn in E |- *. rewrite (subs_vals c a s vs l I S), mul_prod, <- E. apply Nat2Z.id.
  - destruct vs as [|v t]; [discriminate|]. unfold asub in H. destruct (subs a (v :: t)) as [l|] eqn:S; try discriminate. injection H as <-.
    unfold len. unfold entries in E.
    assert (L : List.length (li s (hd "" (v :: t))) = List.length (ci c (hd "" l))).
    { cbn in S. destruct (find a v) as [[ds| | |]|] eqn:F; try discriminate. destruct (subs a t); try discriminate. injection S as <-. apply I in F. cbn in F |- *. now rewrite F. }
    rewrite L, fold_symmetric by (intros; ring).
    rewrite (map_ext _ (fun i => prodZ (map (fun ds => nth i (ci c ds) 0%Z) l))) by (intros i; now rewrite (subs_vals c a s _ l I S), mul_prod).
    rewrite <- E. apply Nat2Z.id.
  - unfold asub in H. destruct (subs a (v :: vs)) as [[|ds l]|] eqn:S; try discriminate. injection H as <-. unfold len. unfold entries in E.
    pose proof (subs_vals c a s _ _ I S 0%nat) as V. cbn [map] in V. injection V as V0 V1. rewrite V0, V1, mul_prod. destruct (1 <=? nth 0 (ci c ds) 0)%Z; [rewrite <- E; apply Nat2Z.id|lia].
Qed.
Lemma i32_id z : is_int z -> i32 z = z.
Proof. unfold is_int, i32, clip. intros H. change (2 ^ 31)%Z with 2147483648%Z. repeat destruct Z.ltb_spec; lia. Qed.
Lemma scale_all u l n : n = List.length l -> scale u n l = map (fun x => x * u) l.
Proof. intros ->. unfold scale. now rewrite firstn_all, skipn_all, app_nil_r. Qed.
Lemma inv_put c a s s' v w : inv c a s -> (forall k, k <> v -> arg s' k = arg s k) -> holds c w (arg s' v) -> inv c ((v, w) :: a) s'.
Proof.
  intros I F H k x. cbn [find]. destruct (String.eqb_spec v k) as [<-|N]; [intros E; injection E as <-; exact H|]. intros E. rewrite F by congruence. now apply I.
Qed.
Lemma put_li s v l : (forall k, k <> v -> arg (setli v l s) k = arg s k) /\ fst (arg (setli v l s) v) = l.
Proof. unfold arg, setli, upd. cbn. split; [intros k N; apply String.eqb_neq in N; rewrite ?N, ?(String.eqb_sym v), ?N; reflexivity|now rewrite String.eqb_refl]. Qed.
Lemma put_lr s v l : (forall k, k <> v -> arg (setlr v l s) k = arg s k) /\ snd (arg (setlr v l s) v) = l.
Proof. unfold arg, setlr, upd. cbn. split; [intros k N; apply String.eqb_neq in N; rewrite ?N, ?(String.eqb_sym v), ?N; reflexivity|now rewrite String.eqb_refl]. Qed.

Section SOUND.
Variables (f : h5) (pre qid : string) (c : content) (sh : shape).
Hypothesis C : complete f pre qid c sh.
Lemma len_known a s z z' ds b : inv c a s -> asub a z = Some z' -> known sh ds b z' = true ->
  len s z = if b then List.length (ci c ds) else List.length (cr c ds).
Proof. intros I A K. apply known_in in K. destruct (C _ _ _ K) as (d & _ & H). destruct b; eapply asub_len; eauto; tauto. Qed.
Lemma chk_ok d a a' s : inv c a s -> chk sh d a = Some a' -> exists s', rexec f pre qid d s = Ok s' /\ inv c a' s'.
Proof.
  intros I H. destruct d as [ds v z|ds v z|v|v z|v q z|v z]; cbn [chk rexec] in *.
  - destruct (asub a z) as [z'|] eqn:A; [|discriminate]. destruct (known sh ds true z') eqn:K; [|discriminate]. injection H as <-.
    pose proof (len_known a s z z' ds true I A K) as L. apply known_in in K. destruct (C _ _ _ K) as (d & E & V & R & _).
    unfold read_int. rewrite E, V. rewrite (map_ext_in _ (fun z => z)) by (intros x X; apply i32_id; rewrite Forall_forall in R; now apply R). rewrite map_id.
    unfold exact. rewrite L, Nat.eqb_refl. cbn [bind]. eexists. split; [reflexivity|]. destruct (put_li s v (ci c ds)) as [P Q]. eapply inv_put; eauto.
  - destruct (asub a z) as [z'|] eqn:A; [|discriminate]. destruct (known sh ds false z') eqn:K; [|discriminate]. injection H as <-.
    pose proof (len_known a s z z' ds false I A K) as L. apply known_in in K. destruct (C _ _ _ K) as (d & E & V & _).
    unfold read_double. rewrite E, V. unfold exact. rewrite L, Nat.eqb_refl. cbn [bind]. eexists. split; [reflexivity|].
    destruct (put_lr s v (cr c ds)) as [P Q]. eapply inv_put; [exact I|exact P|]. cbn [holds]. rewrite Q. rewrite (map_ext _ (fun y => y)) by (intros y; cbn [inSI]; ring). now rewrite map_id.
  - destruct (find a v) as [[|ds []| |]|] eqn:F; try discriminate. injection H as <-. eexists. split; [reflexivity|].
    destruct (put_lr s v (map deg2rad (lr s v))) as [P Q]. eapply inv_put; [exact I|exact P|]. cbn [holds]. rewrite Q. apply I in F. cbn in F. rewrite F, map_map. apply map_ext.
    intros y. unfold deg2rad. cbn [inSI]. field.
  - destruct (find a v) as [[|ds []| |]|] eqn:F; try discriminate. destruct (asub a z) as [z'|] eqn:A; [|discriminate]. destruct (known sh ds false z') eqn:K; [|discriminate]. injection H as <-.
    eexists. split; [reflexivity|]. pose proof (len_known a s z z' ds false I A K) as L. cbn iota in L.
    destruct (put_lr s v (scale HmkModel.CONST_E (len s z) (lr s v))) as [P Q]. eapply inv_put; [exact I|exact P|]. cbn [holds]. rewrite Q. apply I in F. cbn in F.
    rewrite scale_all by (rewrite L, F; now rewrite map_length). rewrite F, map_map. apply map_ext. intros y. cbn [inSI]. unfold HmkModel.CONST_E. ring.
  - destruct (find a q) as [[ds| | |]|] eqn:F; try discriminate. destruct (asub a z) as [z'|] eqn:A; [|discriminate]. destruct (known sh ds true z') eqn:K; [|discriminate]. injection H as <-.
    eexists. split; [reflexivity|]. pose proof (len_known a s z z' ds true I A K) as L. cbn iota in L. apply I in F. cbn in F.
    match goal with |- inv c _ (setlr v ?x s) => destruct (put_lr s v x) as [P Q] end. eapply inv_put; [exact I|exact P|]. cbn [holds]. rewrite Q, F, L, firstn_all. reflexivity.
  - destruct (find a v) as [[|ds []| |]|] eqn:F; try discriminate. destruct (asub a z) as [z'|] eqn:A; [|discriminate]. destruct (known sh ds false z') eqn:K; [|discriminate]. injection H as <-.
    eexists. split; [reflexivity|]. pose proof (len_known a s z z' ds false I A K) as L. cbn iota in L. apply I in F. cbn in F.
    match goal with |- inv c _ (setlr v ?x s) => destruct (put_lr s v x) as [P Q] end. eapply inv_put; [exact I|exact P|]. cbn [holds]. rewrite Q.
    rewrite scale_all by (rewrite L, F; now rewrite map_length). unfold CONST_M_E. f_equal. rewrite F, map_map. apply map_ext. intros y. cbn [inSI]. unfold HmkModel.CONST_U. ring.
Qed.
Lemma chks_ok p : forall a a' s, inv c a s -> chks sh p a = Some a' -> exists s', rrun f pre qid p s = Ok s' /\ inv c a' s'.
Proof.
  induction p as [|d t IH]; cbn [chks rrun]; intros a a' s I H; [injection H as <-; eauto|]. destruct (chk sh d a) as [a1|] eqn:E; [|discriminate].
  destruct (chk_ok d a a1 s I E) as (s1 & R & I1). rewrite R. cbn [bind]. eauto.
Qed.
End SOUND.

(** ** Every reader *)
Definition unit_eqb (x y : unit_) : bool := match x, y with U1, U1 | Uev, Uev | Uamu, Uamu | Udeg, Udeg => true | _, _ => false end.
Definition want_eqb (x y : want) : bool :=
  match x, y with
  | WI a, WI b | WCharge a, WCharge b | WMass a, WMass b => String.eqb a b
  | WR a u, WR b u' => String.eqb a b && unit_eqb u u'
  | _, _ => false
  end.
Lemma want_eqb_eq x y : want_eqb x y = true -> x = y.
Proof.
  destruct x, y; cbn; try discriminate; intros H; try (apply String.eqb_eq in H; now subst). apply andb_prop in H as [A B]. apply String.eqb_eq in A. subst. f_equal. destruct u, u0; try discriminate; reflexivity.
Qed.
Fixpoint match_args (a : abs) (tab : list (string * want)) (pars args : list string) : bool :=
  match tab, pars, args with
  | [], [], [] => true
  | (p, w) :: tab, q :: pars, v :: args => String.eqb p q && match find a v with Some w' => want_eqb w w' | None => false end && match_args a tab pars args
  | _, _, _ => false
  end.
Definition reads (p : list rstmt) : list string := flat_map (fun d => match d with RdI ds _ _ | RdR ds _ _ => [ds] | _ => [] end) p.
Definition check (x : string * reader * shape * list (string * want)) : bool :=
  let '(g, r, sh, tab) := x in
  String.eqb g (rpath r) && match chks sh (rbody r) [] with Some a => match_args a tab (rparams r) (rargs r) | None => false end
  && forallb (fun p => existsb (String.eqb (fst (fst p))) (reads (rbody r))) sh.
Lemma inputs_check : forallb check inputs = true. Proof. vm_compute. reflexivity. Qed.
Lemma match_ok c a s : inv c a s -> forall tab pars args, match_args a tab pars args = true -> delivered c tab (combine pars (map (arg s) args)).
Proof.
  intros I. induction tab as [|[p w] tab IH]; intros [|q pars] [|v args] H; try discriminate; [constructor|]. cbn [match_args] in H. apply andb_prop in H as [H C]. apply andb_prop in H as [A B].
  cbn [map combine]. constructor; [|now apply IH]. apply String.eqb_eq in A. split; [exact A|]. destruct (find a v) as [w'|] eqn:F; [|discriminate]. apply want_eqb_eq in B. subst w'. now apply I.
Qed.
Theorem input_delivered g r sh tab f qid c s : In (g, r, sh, tab) inputs -> complete f g qid c sh -> exists res, read_input r f qid s = Ok res /\ delivered c tab res.
Proof.
  intros I C. pose proof inputs_check as K. rewrite forallb_forall in K. specialize (K _ I). cbn in K. apply andb_prop in K as [K _]. apply andb_prop in K as [G K]. apply String.eqb_eq in G. subst g.
  destruct (chks sh (rbody r) []) as [a|] eqn:E; [|discriminate]. destruct (chks_ok f (rpath r) qid c sh C (rbody r) [] a s) as (s' & R & I'); [intros v w H; discriminate|exact E|].
  unfold read_input. rewrite R. cbn [bind]. eexists. split; [reflexivity|]. now apply match_ok with (a := a).
Qed.
Lemma rrun_missing f pre qid p : forall s s', rrun f pre qid p s = Ok s' -> forall ds, In ds (reads p) -> exists d, lookup f (pre ++ ds) qid = Some d.
Proof.
  induction p as [|d t IH]; cbn [rrun reads flat_map]; intros s s' H ds I; [destruct I|]. destruct (rexec f pre qid d s) as [s1| |] eqn:E; try discriminate. cbn [bind] in H.
  apply in_app_or in I as [I|I]; [|eapply IH; eauto]. destruct d as [d v z|d v z|v|v z|v q z|v z]; try (destruct I; fail); destruct I as [<-|[]]; cbn [rexec] in E; unfold read_int, read_double in E;
    destruct (lookup f (pre ++ d) qid) as [x|]; try discriminate; eauto.
Qed.
Theorem input_missing g r sh tab f qid s res : In (g, r, sh, tab) inputs -> read_input r f qid s = Ok res ->
  forall ds b z, In (ds, b, z) sh -> exists d, lookup f (g ++ ds) qid = Some d.
Proof.
  intros I R ds b z D. pose proof inputs_check as K. rewrite forallb_forall in K. specialize (K _ I). cbn in K. apply andb_prop in K as [K S]. apply andb_prop in K as [G _]. apply String.eqb_eq in G. subst g.
  rewrite forallb_forall in S. specialize (S _ D). cbn in S. apply existsb_exists in S as (x & X & E). apply String.eqb_eq in E. subst x.
  unfold read_input in R. destruct (rrun f (rpath r) qid (rbody r) s) as [s'| |] eqn:E; try discriminate. eapply rrun_missing; eauto.
Qed.
