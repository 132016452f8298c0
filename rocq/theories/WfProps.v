(** Boozer coordinates and waves with a time-dependent amplitude, from the file to the evaluation *)
From Coq Require Import Reals ZArith List String Bool Arith Lia Lra.
From Verif Require Import MathModel MathProofs AxisModel SplineModel SplineProofs Spl2Model Spl2Proofs Spl2Props MhdModel MhdProofs MainModel HdfModel HmkModel HinModel HinProofs HuseModel HuseProofs LwModel LwProofs WfModel WfProofs.
Import ListNotations.
Import ListNotations.
Local Open Scope string_scope.
Local Open Scope R_scope.

(** ** Boozer coordinates *)
(** the angle transformation of a file: spline surfaces through its tables, the geometric angle with four cells on either side of the turn, and the contour of the file *)
Theorem boozer_from_file : forall f qid c s junk, complete f "/boozer/Boozer_XXXXXXXXXX/" qid c s_Bz -> boozer_ok c ->
  exists res d, read_input rboozer f qid s = Ok res /\ call_boozer junk res = Some d /\ bd_psimin d = reald c "psimin" /\ bd_psimax d = reald c "psimax" /\
  is_surface (Z.to_nat (intd c "npsi")) (Z.to_nat (intd c "nthetag")) NATURALBC (reald c "psimin") (reald c "psimax") (- pad_of c) (2 * PI + pad_of c) (by_psi c "theta_psithetageom") (bd_theta d) /\
  is_surface (Z.to_nat (intd c "npsi")) (Z.to_nat (intd c "ntheta")) PERIODICBC (reald c "psimin") (reald c "psimax") 0 (2 * PI) (by_psi c "nu_psitheta") (bd_nu d) /\
  List.length (bd_contour d) = Z.to_nat (intd c "nrzs") /\
  forall i, (i < Z.to_nat (intd c "nrzs"))%nat -> nth_error (bd_contour d) i = Some (nth i (cr c "rs") 0, nth i (cr c "zs") 0).
Proof. exact WfProofs.boozer_file. Qed.
Print Assumptions boozer_from_file.
(** at a flux and an angle of the tables the entry of the file is returned *)
Theorem boozer_at_nodes : forall f qid c junk d i, boozer_of f qid c junk d -> (i < Z.to_nat (intd c "npsi"))%nat ->
  let psi := grid (intd c "npsi") (reald c "psimin") (reald c "psimax") i in
  (forall j, (j < Z.to_nat (intd c "nthetag"))%nat -> let e := bd_theta d psi (2 * PI * (INR j - 4) / turn c) in fst e = false /\ snd e 0%nat = by_psi c "theta_psithetageom" i j) /\
  (forall j, (j < Z.to_nat (intd c "ntheta"))%nat -> let e := bd_nu d psi (2 * PI * INR j / IZR (intd c "ntheta")) in fst e = false /\ snd e 0%nat = by_psi c "nu_psitheta" i j).
Proof. exact WfProofs.boozer_nodes. Qed.
Print Assumptions boozer_at_nodes.
(** inside the contour, between the tabulated fluxes and off the axis, there is no error: the angles are those of the tables, the toroidal angle in one turn *)
Theorem boozer_no_error_inside : forall f qid c junk d evalpsi evalrho axis mem r phi z r0 z0, boozer_of f qid c junk d ->
  let psi := snd (evalpsi r phi z 0) 0%nat in
  point_in_polygon r z (bd_contour d) <> 0%nat -> fst (evalpsi r phi z 0) = 0%Z -> fst (evalrho psi) = 0%Z -> axis phi = (0%Z, fun k => match k with 0%nat => r0 | _ => z0 end) ->
  reald c "psimin" < psi < reald c "psimax" -> r <> r0 \/ z <> z0 ->
  exists p th nu, boozer_at d evalpsi evalrho axis mem r phi z = Some (0%Z, true, p) /\
    bd_theta d psi (thgeo (r - r0) (z - z0)) = (false, th) /\ bd_nu d psi (th 0%nat) = (false, nu) /\
    p 0%nat = psi /\ p 4%nat = th 0%nat /\ 0 <= p 8%nat < 2 * PI /\ exists k, p 8%nat = phi + nu 0%nat + 2 * PI * IZR k.
Proof. exact WfProofs.boozer_inside. Qed.
Print Assumptions boozer_no_error_inside.
(** if the angle in the file grows by a turn in a turn, nothing jumps at the cut of the geometric angle: not nu, and not the phase of any mode with whole mode numbers *)
Theorem boozer_across_cut : forall f qid c junk d psi, boozer_of f qid c junk d -> full_turn c -> reald c "psimin" <= psi <= reald c "psimax" ->
  snd (bd_theta d psi (2 * PI)) 0%nat = snd (bd_theta d psi 0) 0%nat + 2 * PI /\
  (forall th k, k = 0%nat \/ k = 2%nat -> snd (bd_nu d psi (th + 2 * PI)) k = snd (bd_nu d psi th) k) /\
  forall n m phi x, let w g := IZR n * (phi + snd (bd_nu d psi (snd (bd_theta d psi g) 0%nat)) 0%nat) - IZR m * snd (bd_theta d psi g) 0%nat + x in
    cos (w (2 * PI)) = cos (w 0) /\ sin (w (2 * PI)) = sin (w 0).
Proof. exact WfProofs.boozer_cut. Qed.
Print Assumptions boozer_across_cut.

(** ** Waves *)
(** the modes of a file, each with its numbers, amplitude, frequency and phase and with its own block of the profile tables *)
Theorem waves_modes_from_file : forall f qid c s junk, complete f "/mhd/MHD_NONSTAT_XXXXXXXXXX/" qid c s_M2 -> nonstat_ok c ->
  exists res ds, read_input rmhd_nonstat f qid s = Ok res /\ nonstat_modes junk res = Some ds /\ Z.of_nat (List.length ds) = intd c "nmode" /\
  forall i, (Z.of_nat i < intd c "nmode")%Z -> exists d, nth_error ds i = Some d /\
     mn d = nth i (ci c "nmodes") 0%Z /\ mm d = nth i (ci c "mmodes") 0%Z /\ mamp d = nth i (cr c "amplitude") 0 /\ momega d = nth i (cr c "omega") 0 /\ mphase d = nth i (cr c "phase") 0 /\
     mode_surface c "alpha" i (malpha d) /\ mode_surface c "phi" i (mphi d).
Proof. exact WfProofs.nonstat_file. Qed.
Print Assumptions waves_modes_from_file.
(** the potentials at a position and time covered by the files: the sum of the modes of the file *)
Theorem waves_from_file : forall fb qb cb jb d fm qm cm jm ds, boozer_of fb qb cb jb d -> nonstat_of fm qm cm jm ds ->
  exists (A P : nat -> R -> R -> R),
  (forall i, (i < Z.to_nat (intd cm "nmode"))%nat -> forall ds F, (ds, F) = ("alpha", A i) \/ (ds, F) = ("phi", P i) -> exists Fx Fy Fxx Fyy Fxy,
     surface_interpolant (Z.to_nat (intd cm "nrho")) (Z.to_nat (intd cm "ntime")) NATURALBC NATURALBC (reald cm "rhomin") (reald cm "rhomax") (reald cm "tmin") (reald cm "tmax") (by_rho cm ds i) F Fx Fy Fxx Fyy Fxy) /\
  forall evalpsi evalrho axis mem jrho r phi z t r0 z0, tabulated cb d evalpsi evalrho axis r phi z r0 z0 ->
  let psi := snd (evalpsi r phi z 0) 0%nat in let rho := snd (evalrho psi) 0%nat in
  let theta := snd (bd_theta d psi (thgeo (r - r0) (z - z0))) 0%nat in let zeta := phi + snd (bd_nu d psi theta) 0%nat in
  reald cm "rhomin" <= rho <= reald cm "rhomax" -> reald cm "tmin" <= t <= reald cm "tmax" ->
  let wv i := nth i (cr cm "amplitude") 0 * cos (IZR (nth i (ci cm "nmodes") 0%Z) * zeta - IZR (nth i (ci cm "mmodes") 0%Z) * theta - nth i (cr cm "omega") 0 * t + nth i (cr cm "phase") 0) in
  exists o, waves_at d evalpsi evalrho axis mem jrho ds r phi z t (-1) = Some (0%Z, o) /\
  o 0%nat = sumL (fun i => A i rho t * wv i) (seq 0 (Z.to_nat (intd cm "nmode"))) /\ o 5%nat = sumL (fun i => P i rho t * wv i) (seq 0 (Z.to_nat (intd cm "nmode"))).
Proof. exact WfProofs.waves_file. Qed.
Print Assumptions waves_from_file.

(** ** Outside the tables *)
(** at a time (or radius) that the file does not cover all waves are zero and no error is reported, as the comment at mhd_nonstat.c:229 says *)
Theorem waves_off_outside : forall fb qb cb jb d fm qm cm jm ds evalpsi evalrho axis mem jrho r phi z t r0 z0, boozer_of fb qb cb jb d -> nonstat_of fm qm cm jm ds -> tabulated cb d evalpsi evalrho axis r phi z r0 z0 ->
  let rho := snd (evalrho (snd (evalpsi r phi z 0) 0%nat)) 0%nat in
  ~ reald cm "rhomin" <= rho <= reald cm "rhomax" \/ ~ reald cm "tmin" <= t <= reald cm "tmax" ->
  forall inc, exists o, waves_at d evalpsi evalrho axis mem jrho ds r phi z t inc = Some (0%Z, o) /\ forall k, o k = 0.
Proof. exact WfProofs.waves_outside. Qed.
Print Assumptions waves_off_outside.

(** ** Example: two flux surfaces, three angles, a rectangular contour, and one mode with two radii and two times *)
Definition wb_i (n : string) : list Z := if String.eqb n "npsi" then [2%Z] else if String.eqb n "ntheta" then [3%Z] else if String.eqb n "nthetag" then [10%Z] else [5%Z].
Definition wb_r (n : string) : list R :=
  if String.eqb n "psimin" then [0] else if String.eqb n "psimax" then [1] else
  if String.eqb n "rs" then map fst (rectangle 0 2 (-1) 1) else if String.eqb n "zs" then map snd (rectangle 0 2 (-1) 1) else
  if String.eqb n "nu_psitheta" then [0; 0; 0; 0; 0; 0] else map (fun j => 2 * PI * (IZR j - 4)) [0; 0; 1; 1; 2; 2; 3; 3; 4; 4; 5; 5; 6; 6; 7; 7; 8; 8; 9; 9]%Z.
Definition wb_c : content := mkcontent wb_i wb_r.
Definition wm_i (n : string) : list Z := if String.eqb n "nmode" then [1%Z] else if String.eqb n "nrho" then [2%Z] else if String.eqb n "ntime" then [2%Z] else [3%Z].
Definition wm_r (n : string) : list R :=
  if existsb (String.eqb n) ["rhomin"; "tmin"] then [0] else if existsb (String.eqb n) ["rhomax"; "tmax"; "amplitude"; "omega"; "phase"] then [1] else [0; 1; 2; 3].
Definition wm_c : content := mkcontent wm_i wm_r.
Definition w_file (i : string -> list Z) (r : string -> list R) (ints : list string) : h5 := mkh5 (fun _ => true) (fun _ _ => None)
  (fun p => match p with [_; _; n] => Some (if existsb (String.eqb n) ints then DInt (i n) else DReal (r n)) | _ => None end).
Definition wb_file : h5 := w_file wb_i wb_r ["npsi"; "ntheta"; "nthetag"; "nrzs"].
Definition wm_file : h5 := w_file wm_i wm_r ["nmode"; "nrho"; "ntime"; "nmodes"; "mmodes"].
Example demo_wb_complete : complete wb_file "/boozer/Boozer_XXXXXXXXXX/" "0123456789" wb_c s_Bz.
Proof.
  intros ds b z I. unfold s_Bz, i0, HinProofs.r0, rr, ii in I. cbn [app In] in I.
  repeat (destruct I as [I|I]; [injection I as <- <- <-; eexists; split; [reflexivity|]; cbn; repeat split; repeat constructor; lia|]). destruct I.
Qed.
Example demo_wm_complete : complete wm_file "/mhd/MHD_NONSTAT_XXXXXXXXXX/" "0123456789" wm_c s_M2.
Proof.
  intros ds b z I. unfold s_M2, i0, HinProofs.r0, rr, ii in I. cbn [app In] in I.
  repeat (destruct I as [I|I]; [injection I as <- <- <-; eexists; split; [reflexivity|]; cbn; repeat split; repeat constructor; lia|]). destruct I.
Qed.
Lemma wb_ok : boozer_ok wb_c.
Proof. unfold boozer_ok. repeat split; [cbn; lia|cbn; lia|cbn; lia|change (0 < 1); lra]. Qed.
Lemma wm_ok : nonstat_ok wm_c.
Proof. unfold nonstat_ok. repeat split; [cbn; lia|cbn; lia|change (0 < 1); lra|change (0 < 1); lra]. Qed.
Example demo_full_turn : full_turn wb_c.
Proof.
  intros i I. change (Z.to_nat (intd wb_c "npsi")) with 2%nat in I. unfold by_psi. change (Z.to_nat (intd wb_c "npsi")) with 2%nat. change (Z.to_nat (intd wb_c "nthetag" - 5)) with 5%nat.
  destruct i as [|[|]]; [| |lia]; cbn; ring.
Qed.
(** in the middle of the rectangle the waves are defined for times from 0 to 1, and gone at time 2 *)
Example demo_waves junk mem s : exists rb db rm ds, read_input rboozer wb_file "0123456789" s = Ok rb /\ call_boozer junk rb = Some db /\
  read_input rmhd_nonstat wm_file "0123456789" s = Ok rm /\ nonstat_modes junk rm = Some ds /\ List.length ds = 1%nat /\
  let at_time t := waves_at db (fun _ _ _ _ => (0%Z, fun _ => 1 / 2)) (fun _ => (0%Z, fun _ => 1 / 2)) (fun _ => (0%Z, fun k => match k with 0%nat => 1 | _ => 0 end)) mem mem ds (3 / 2) 0 0 t (-1) in
  (exists o, at_time 1 = Some (0%Z, o)) /\ exists o, at_time 2 = Some (0%Z, o) /\ forall k, o k = 0.
Proof.
  destruct (boozer_from_file _ _ _ s junk demo_wb_complete wb_ok) as (rb & db & RB & CB & _ & _ & _ & _ & LB & NB).
  destruct (waves_modes_from_file _ _ _ s junk demo_wm_complete wm_ok) as (rm & ds & RM & CM & LM & _).
  exists rb, db, rm, ds. do 4 (split; [assumption|]). split; [change (intd wm_c "nmode") with 1%Z in LM; lia|].
  change (Z.to_nat (intd wb_c "nrzs")) with 5%nat in LB, NB.
  assert (CT : bd_contour db = rectangle 0 2 (-1) 1).
  { destruct (bd_contour db) as [|a [|b [|c [|d [|e [|]]]]]]; try discriminate LB.
    assert (A := NB 0%nat ltac:(lia)). assert (B := NB 1%nat ltac:(lia)). assert (C := NB 2%nat ltac:(lia)). assert (D := NB 3%nat ltac:(lia)). assert (E := NB 4%nat ltac:(lia)).
    cbn [nth_error] in A, B, C, D, E. injection A as ->. injection B as ->. injection C as ->. injection D as ->. injection E as ->. reflexivity. }
  assert (BO : boozer_of wb_file "0123456789" wb_c junk db) by (split; [exact demo_wb_complete|split; [exact wb_ok|exists s, rb; auto]]).
  assert (NO : nonstat_of wm_file "0123456789" wm_c junk ds) by (split; [exact demo_wm_complete|split; [exact wm_ok|exists s, rm; auto]]).
  assert (TB : tabulated wb_c db (fun _ _ _ _ => (0%Z, fun _ => 1 / 2)) (fun _ => (0%Z, fun _ => 1 / 2)) (fun _ => (0%Z, fun k => match k with 0%nat => 1 | _ => 0 end)) (3 / 2) 0 0 1 0).
  { unfold tabulated. cbv zeta. cbn [fst snd]. rewrite CT. split; [|split; [reflexivity|split; [reflexivity|split; [reflexivity|split; [change (0 < 1 / 2 < 1); lra|left; lra]]]]].
    assert (Q : point_in_polygon (3 / 2) 0 (rectangle 0 2 (-1) 1) = 1%nat) by (apply pip_rectangle; lra). rewrite Q. discriminate. }
  cbv zeta. split.
  - destruct (waves_from_file _ _ _ _ _ _ _ _ _ _ BO NO) as (A & P & _ & H). specialize (H _ _ _ mem mem _ _ _ 1 _ _ TB). cbv zeta in H. cbn [snd] in H.
    destruct H as (o & E & _); [change (0 <= 1 / 2 <= 1); lra|change (0 <= 1 <= 1); lra|]. exists o. exact E.
  - apply (waves_off_outside _ _ _ _ _ _ _ _ _ _ _ _ _ mem mem _ _ _ 2 _ _ BO NO TB). right. change (~ 0 <= 2 <= 1). lra.
Qed.
