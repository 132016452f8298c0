(** Waves from the file: specification and proofs. *)
From Coq Require Import Reals ZArith List String Arith Bool Lia Lra.
Import ListNotations.
From Verif Require Import Deriv MathModel MathProofs AxisModel SplineModel SplineProofs SplineUniq Spl2Model Spl2Proofs Spl2Props MhdModel MhdProofs.
From Verif Require Import MainModel HdfModel HmkModel HinModel HinProofs HuseModel HuseProofs HqryProofs LwModel LwProofs WfModel.
Local Open Scope string_scope.
Local Open Scope R_scope.

(** ** What a table in the file stands for *)
(** [e] is the spline surface through the table, returned with its first derivatives, where [x] and [y] are allowed, and an error elsewhere *)
Definition is_surface (nx ny : nat) (bcy : Z) (xmn xmx ymn ymx : R) (tab : nat -> nat -> R) (e : neig) : Prop :=
  exists F Fx Fy Fxx Fyy Fxy, surface_interpolant nx ny NATURALBC bcy xmn xmx ymn ymx tab F Fx Fy Fxx Fyy Fxy /\ forall x y,
  (xmn <= x <= xmx -> (bcy = NATURALBC -> ymn <= y <= ymx) -> fst (e x y) = false /\ snd (e x y) 0%nat = F x y /\ snd (e x y) 1%nat = Fx x y /\ snd (e x y) 2%nat = Fy x y) /\
  (~ xmn <= x <= xmx \/ bcy = NATURALBC /\ ~ ymn <= y <= ymx -> fst (e x y) = true).
Lemma surf_spec junk f nx ny bcy xmn xmx ymn ymx s : (2 <= nx)%nat -> enough ny bcy -> xmn < xmx -> ymn < ymx ->
  interp2Dcomp_setup junk f nx ny NATURALBC bcy xmn xmx ymn ymx = Val s -> is_surface nx ny bcy xmn xmx ymn ymx (fun i j => f (j * nx + i)%nat) (surf s).
Proof.
  intros N E MX MY H. destruct (interp2Dcomp_is_spline junk f nx ny NATURALBC bcy xmn xmx ymn ymx s ltac:(left; auto) E MX MY H) as (F & Fx & Fy & Fxx & Fyy & Fxy & S & I & O).
  exists F, Fx, Fy, Fxx, Fyy, Fxy. split; [exact S|]. intros x y. unfold surf. split; intros X.
  - intros Y. destruct (I x y ltac:(auto) Y) as [_ V]. rewrite V. cbn. auto.
  - destruct (O x y ltac:(tauto)) as [_ V]. rewrite V. reflexivity.
Qed.
Lemma is_surface_ext nx ny bcy xmn xmx ymn ymx t t' e : (forall i j, t i j = t' i j) -> is_surface nx ny bcy xmn xmx ymn ymx t e -> is_surface nx ny bcy xmn xmx ymn ymx t' e.
Proof.
  intros T (F & Fx & Fy & Fxx & Fyy & Fxy & (S1 & S2) & V). exists F, Fx, Fy, Fxx, Fyy, Fxy. split; [|exact V]. split; [|exact S2]. intros i j I J. rewrite <- T. now apply S1.
Qed.
(** entry (i, j) of a table in which the flux runs fastest *)
Definition by_psi (c : content) (ds : string) (i j : nat) : R := nth (j * Z.to_nat (intd c "npsi") + i) (cr c ds) 0.
(** number of cells of the geometric angle in one turn: the file has four more on either side *)
Definition turn (c : content) : R := IZR (intd c "nthetag") - 9.
Definition pad_of (c : content) : R := 4 * (2 * PI / turn c).

Definition boozer_ok (c : content) : Prop := (2 <= intd c "npsi")%Z /\ (3 <= intd c "ntheta")%Z /\ (10 <= intd c "nthetag")%Z /\ reald c "psimin" < reald c "psimax".
Theorem boozer_file : forall f qid c s junk, complete f "/boozer/Boozer_XXXXXXXXXX/" qid c s_Bz -> boozer_ok c ->
  exists res d, read_input rboozer f qid s = Ok res /\ call_boozer junk res = Some d /\ bd_psimin d = reald c "psimin" /\ bd_psimax d = reald c "psimax" /\
  is_surface (Z.to_nat (intd c "npsi")) (Z.to_nat (intd c "nthetag")) NATURALBC (reald c "psimin") (reald c "psimax") (- pad_of c) (2 * PI + pad_of c) (by_psi c "theta_psithetageom") (bd_theta d) /\
  is_surface (Z.to_nat (intd c "npsi")) (Z.to_nat (intd c "ntheta")) PERIODICBC (reald c "psimin") (reald c "psimax") 0 (2 * PI) (by_psi c "nu_psitheta") (bd_nu d) /\
  List.length (bd_contour d) = Z.to_nat (intd c "nrzs") /\
  forall i, (i < Z.to_nat (intd c "nrzs"))%nat -> nth_error (bd_contour d) i = Some (nth i (cr c "rs") 0, nth i (cr c "zs") 0).
Proof.
  intros f qid c s junk C (N1 & N2 & N3 & M).
  destruct (input_delivered "/boozer/Boozer_XXXXXXXXXX/" rboozer s_Bz t_Bz f qid c s ltac:(unfold inputs; HuseProofs.pick) C) as (fr & RD & D). exists fr.
  pose proof PI_RGT_0 as PP. assert (T9 : 1 <= turn c) by (unfold turn; assert (10 <= IZR (intd c "nthetag")) by (apply IZR_le; lia); lra).
  assert (P0 : 0 < pad_of c) by (unfold pad_of; apply Rmult_lt_0_compat; [lra|]; apply Rdiv_lt_0_compat; lra).
  assert (PAD : padding (IZR (pz fr "nthetag")) = pad_of c) by (fz; unfold padding, pad_of, turn in *; field; lra).
  unfold call_boozer. cbv zeta. rewrite PAD. unfold pn. repeat fz. repeat fx. si.
  destruct (interp2Dcomp_setup_ok junk (tabN fr "nu") (Z.to_nat (intd c "npsi")) (Z.to_nat (intd c "ntheta")) NATURALBC PERIODICBC (reald c "psimin") (reald c "psimax") 0 (2 * PI)) as [nu NU];
    [left; split; [reflexivity|lia]|right; split; [reflexivity|lia]|].
  destruct (interp2Dcomp_setup_ok junk (tabN fr "theta") (Z.to_nat (intd c "npsi")) (Z.to_nat (intd c "nthetag")) NATURALBC NATURALBC (reald c "psimin") (reald c "psimax") (0 - pad_of c) (2 * PI + pad_of c)) as [th TH];
    [left; split; [reflexivity|lia]|left; split; [reflexivity|lia]|].
  rewrite NU, TH. eexists. split; [exact RD|]. split; [reflexivity|]. cbn [bd_psimin bd_psimax bd_theta bd_nu bd_contour]. split; [reflexivity|]. split; [reflexivity|].
  apply surf_spec in NU; [|lia|right; split; [reflexivity|lia]|exact M|lra]. apply surf_spec in TH; [|lia|left; split; [reflexivity|lia]|exact M|lra].
  replace (0 - pad_of c) with (- pad_of c) in TH by ring. split; [|split; [|split]].
  - eapply is_surface_ext; [|exact TH]. intros i j. cbv beta. ft. si. reflexivity.
  - eapply is_surface_ext; [|exact NU]. intros i j. cbv beta. ft. si. reflexivity.
  - now rewrite map_length, seq_length.
  - intros i I. rewrite (nth_error_nth_map _ (seq 0 (Z.to_nat (intd c "nrzs"))) i 0%nat) by (rewrite seq_length; exact I). rewrite seq_nth by exact I. cbn [Nat.add]. repeat ft. si. reflexivity.
Qed.

(** ** The angles at the grid points *)
Definition grid (n : Z) (mn mx : R) (i : nat) : R := mn + INR i * ((mx - mn) / (IZR n - 1)).
Definition boozer_of (f : h5) (qid : string) (c : content) (junk : nat -> R) (d : bdata) : Prop :=
  complete f "/boozer/Boozer_XXXXXXXXXX/" qid c s_Bz /\ boozer_ok c /\ exists s res, read_input rboozer f qid s = Ok res /\ call_boozer junk res = Some d.
Lemma boozer_of_data f qid c junk d : boozer_of f qid c junk d -> boozer_ok c /\ bd_psimin d = reald c "psimin" /\ bd_psimax d = reald c "psimax" /\
  is_surface (Z.to_nat (intd c "npsi")) (Z.to_nat (intd c "nthetag")) NATURALBC (reald c "psimin") (reald c "psimax") (- pad_of c) (2 * PI + pad_of c) (by_psi c "theta_psithetageom") (bd_theta d) /\
  is_surface (Z.to_nat (intd c "npsi")) (Z.to_nat (intd c "ntheta")) PERIODICBC (reald c "psimin") (reald c "psimax") 0 (2 * PI) (by_psi c "nu_psitheta") (bd_nu d).
Proof.
  intros (C & OK & s & res & R & E). destruct (boozer_file f qid c s junk C OK) as (res' & d' & R' & E' & H). rewrite R in R'. injection R' as <-. rewrite E in E'. injection E' as <-. tauto.
Qed.
Lemma turn_pos c : boozer_ok c -> 1 <= turn c /\ 0 < pad_of c /\ (2 * PI + pad_of c - - pad_of c) / (IZR (intd c "nthetag") - 1) = 2 * PI / turn c.
Proof.
  intros (_ & _ & N & _). pose proof PI_RGT_0 as PP. assert (T : 10 <= IZR (intd c "nthetag")) by (apply IZR_le; lia). unfold pad_of, turn in *. split; [lra|]. split.
  - apply Rmult_lt_0_compat; [lra|]. apply Rdiv_lt_0_compat; lra.
  - field. lra.
Qed.
(** what is returned at a flux and an angle of the tables is the entry *)
Theorem boozer_nodes : forall f qid c junk d i, boozer_of f qid c junk d -> (i < Z.to_nat (intd c "npsi"))%nat ->
  let psi := grid (intd c "npsi") (reald c "psimin") (reald c "psimax") i in
  (forall j, (j < Z.to_nat (intd c "nthetag"))%nat -> let e := bd_theta d psi (2 * PI * (INR j - 4) / turn c) in fst e = false /\ snd e 0%nat = by_psi c "theta_psithetageom" i j) /\
  (forall j, (j < Z.to_nat (intd c "ntheta"))%nat -> let e := bd_nu d psi (2 * PI * INR j / IZR (intd c "ntheta")) in fst e = false /\ snd e 0%nat = by_psi c "nu_psitheta" i j).
Proof.
  intros f qid c junk d i B I. destruct (boozer_of_data _ _ _ _ _ B) as (OK & _ & _ & TH & NU). destruct (turn_pos c OK) as (T1 & P0 & ST). destruct OK as (N1 & N2 & N3 & M). pose proof PI_RGT_0 as PP. cbv zeta.
  assert (X : reald c "psimin" <= grid (intd c "npsi") (reald c "psimin") (reald c "psimax") i <= reald c "psimax") by (apply (point_in (intd c "npsi")); assumption). split.
  - intros j J. destruct TH as (F & Fx & Fy & Fxx & Fyy & Fxy & (S & _) & V). specialize (S i j I J). rewrite !point_step in S by lia.
    replace (2 * PI * (INR j - 4) / turn c) with (point (intd c "nthetag") (- pad_of c) (2 * PI + pad_of c) j).
    + destruct (V (grid (intd c "npsi") (reald c "psimin") (reald c "psimax") i) (point (intd c "nthetag") (- pad_of c) (2 * PI + pad_of c) j)) as [V1 _].
      destruct V1 as (V1 & V2 & _); [exact X|intros _; apply point_in; [lia|lra|exact J]|]. split; [exact V1|]. rewrite V2. exact S.
    + unfold point. rewrite ST. unfold pad_of. field. lra.
  - intros j J. destruct NU as (F & Fx & Fy & Fxx & Fyy & Fxy & (S & _) & V). specialize (S i j I J). rewrite point_step in S by lia.
    replace (0 + INR j * step (Z.to_nat (intd c "ntheta")) PERIODICBC 0 (2 * PI)) with (2 * PI * INR j / IZR (intd c "ntheta")) in S.
    + destruct (V (grid (intd c "npsi") (reald c "psimin") (reald c "psimax") i) (2 * PI * INR j / IZR (intd c "ntheta"))) as [V1 _].
      destruct V1 as (V1 & V2 & _); [exact X|discriminate|]. split; [exact V1|]. rewrite V2. exact S.
    + unfold step, cells. cbn [Z.eqb PERIODICBC NATURALBC Pos.eqb]. assert (3 <= IZR (intd c "ntheta")) by (apply IZR_le; lia). rewrite INR_IZR_INZ with (n := Z.to_nat _), Z2Nat.id by lia. field. lra.
Qed.

(** ** Inside the tabulated region nothing fails *)
Lemma thgeo_range x y : 0 <= thgeo x y < 2 * PI.
Proof. apply fmod_range. pose proof PI_RGT_0. lra. Qed.
Theorem boozer_inside : forall f qid c junk d evalpsi evalrho axis mem r phi z r0 z0, boozer_of f qid c junk d ->
  let psi := snd (evalpsi r phi z 0) 0%nat in
  point_in_polygon r z (bd_contour d) <> 0%nat -> fst (evalpsi r phi z 0) = 0%Z -> fst (evalrho psi) = 0%Z -> axis phi = (0%Z, fun k => match k with 0%nat => r0 | _ => z0 end) ->
  reald c "psimin" < psi < reald c "psimax" -> r <> r0 \/ z <> z0 ->
  exists p th nu, boozer_at d evalpsi evalrho axis mem r phi z = Some (0%Z, true, p) /\
    bd_theta d psi (thgeo (r - r0) (z - z0)) = (false, th) /\ bd_nu d psi (th 0%nat) = (false, nu) /\
    p 0%nat = psi /\ p 4%nat = th 0%nat /\ 0 <= p 8%nat < 2 * PI /\ exists k, p 8%nat = phi + nu 0%nat + 2 * PI * IZR k.
Proof.
  intros f qid c junk d evalpsi evalrho axis mem r phi z r0 z0 B psi IN EP ER AX RG OFF. destruct (boozer_of_data _ _ _ _ _ B) as (OK & B1 & B2 & TH & NU). destruct (turn_pos c OK) as (T1 & P0 & _).
  pose proof PI_RGT_0 as PP. pose proof (thgeo_range (r - r0) (z - z0)) as TG.
  destruct TH as (F & Fx & Fy & Fxx & Fyy & Fxy & _ & V). destruct (V psi (thgeo (r - r0) (z - z0))) as [V1 _]. destruct V1 as (V1 & _); [lra|intros _; lra|].
  destruct NU as (G & Gx & Gy & Gxx & Gyy & Gxy & _ & W). destruct (W psi (snd (bd_theta d psi (thgeo (r - r0) (z - z0))) 0%nat)) as [W1 _]. destruct W1 as (W1 & _); [lra|discriminate|].
  assert (CV : covered (fun r z => negb (Nat.eqb (point_in_polygon r z (bd_contour d)) 0)) evalpsi evalrho axis (bd_theta d) (bd_nu d) (bd_psimin d) (bd_psimax d) r0 z0 r phi z).
  { unfold MhdProofs.covered, theta_f, th_f, psi_f. fold psi. rewrite AX, B1, B2. cbn [fst snd]. repeat split; try assumption; try lra.
    apply negb_true_iff, Nat.eqb_neq. exact IN. }
  destruct (boozer_covered _ _ _ _ _ _ _ _ mem r0 z0 r phi z CV) as (p & E & A0 & A4 & A8 & _).
  exists p, (snd (bd_theta d psi (thgeo (r - r0) (z - z0)))), (snd (bd_nu d psi (snd (bd_theta d psi (thgeo (r - r0) (z - z0))) 0%nat))).
  split; [exact E|]. split; [rewrite <- V1; apply surjective_pairing|]. split; [rewrite <- W1; apply surjective_pairing|]. split; [exact A0|]. split; [exact A4|].
  destruct (boozer_ranges _ _ _ _ _ _ _ _ mem r0 z0 r phi z CV) as (R1 & k & R2). unfold ptz_f in R1, R2. unfold boozer_at in E. rewrite E in R1, R2.
  split; [exact R1|]. exists k. rewrite R2. reflexivity.
Qed.

(** ** The cut of the geometric angle *)
(** in the file the Boozer angle grows by one turn in one turn, on every tabulated flux surface *)
Definition full_turn (c : content) : Prop := forall i, (i < Z.to_nat (intd c "npsi"))%nat ->
  by_psi c "theta_psithetageom" i (Z.to_nat (intd c "nthetag" - 5)) = by_psi c "theta_psithetageom" i 4 + 2 * PI.
Lemma const_spline n mn mx a : (2 <= n)%nat -> mn < mx -> spline_interpolant n NATURALBC mn mx (fun _ => a) (fun _ => a) (fun _ => 0) (fun _ => 0).
Proof.
  intros N M. unfold spline_interpolant. cbv zeta. split; [reflexivity|]. split.
  - intros k K. exists a, 0, 0, 0. intros t T. repeat split; unfold Rdiv; ring.
  - split; [|split; [auto|discriminate]]. intros x X. repeat split; try apply d_const. apply continuity_pt_const. intros u v. reflexivity.
Qed.
Lemma shift_spline n mn mx f F F1 F2 a : spline_interpolant n NATURALBC mn mx f F F1 F2 -> spline_interpolant n NATURALBC mn mx (fun i => f i + a) (fun x => F x + a) F1 F2.
Proof.
  unfold spline_interpolant. cbv zeta. intros (S1 & S2 & S3 & S4 & _). split; [intros k K; now rewrite S1|]. split.
  - intros k K. destruct (S2 k K) as (c0 & c1 & c2 & c3 & H). exists (c0 + a), c1, c2, c3. intros t T. destruct (H t T) as (E1 & E2 & E3). rewrite E1, E2, E3. repeat split. ring.
  - split; [|split; [exact S4|discriminate]]. intros x X. destruct (S3 x X) as (D1 & D2 & D3). split; [|split; assumption]. eapply d_eq; [apply d_plus; [exact D1|apply d_const]|ring].
Qed.
Theorem boozer_cut : forall f qid c junk d psi, boozer_of f qid c junk d -> full_turn c -> reald c "psimin" <= psi <= reald c "psimax" ->
  snd (bd_theta d psi (2 * PI)) 0%nat = snd (bd_theta d psi 0) 0%nat + 2 * PI /\
  (forall th k, k = 0%nat \/ k = 2%nat -> snd (bd_nu d psi (th + 2 * PI)) k = snd (bd_nu d psi th) k) /\
  forall n m phi x, let w g := IZR n * (phi + snd (bd_nu d psi (snd (bd_theta d psi g) 0%nat)) 0%nat) - IZR m * snd (bd_theta d psi g) 0%nat + x in
    cos (w (2 * PI)) = cos (w 0) /\ sin (w (2 * PI)) = sin (w 0).
Proof.
  intros f qid c junk d psi B FT X. destruct (boozer_of_data _ _ _ _ _ B) as (OK & _ & _ & TH & NU). destruct (turn_pos c OK) as (T1 & P0 & ST). destruct OK as (N1 & N2 & N3 & M). pose proof PI_RGT_0 as PP.
  assert (A : snd (bd_theta d psi (2 * PI)) 0%nat = snd (bd_theta d psi 0) 0%nat + 2 * PI).
  { destruct TH as (F & Fx & Fy & Fxx & Fyy & Fxy & (S & SX & _) & V).
    destruct (V psi (2 * PI)) as [V1 _]. destruct V1 as (_ & V1 & _); [exact X|intros _; lra|]. destruct (V psi 0) as [V2 _]. destruct V2 as (_ & V2 & _); [exact X|intros _; lra|]. rewrite V1, V2.
    pose proof (SX (2 * PI)) as S1. pose proof (shift_spline _ _ _ _ _ _ _ (2 * PI) (SX 0)) as S2.
    refine (spline_unique (Z.to_nat (intd c "npsi")) NATURALBC (reald c "psimin") (reald c "psimax") _ (fun x => F x (2 * PI)) _ _ (fun x => F x 0 + 2 * PI) _ _ _ M S1 _ psi X); [left; split; [reflexivity|lia]|].
    destruct S2 as (S2 & S2'). split; [|exact S2']. intros k K. rewrite S2 by exact K.
    assert (Y0 : 0 = - pad_of c + INR 4 * step (Z.to_nat (intd c "nthetag")) NATURALBC (- pad_of c) (2 * PI + pad_of c)).
    { rewrite point_step by lia. unfold point. rewrite ST. unfold pad_of. cbn [INR]. field. lra. }
    assert (Y1 : 2 * PI = - pad_of c + INR (Z.to_nat (intd c "nthetag" - 5)) * step (Z.to_nat (intd c "nthetag")) NATURALBC (- pad_of c) (2 * PI + pad_of c)).
    { rewrite point_step by lia. unfold point. rewrite ST. rewrite INR_IZR_INZ, Z2Nat.id by lia. rewrite minus_IZR. unfold pad_of, turn in *. field. lra. }
    pose proof (S k 4%nat K ltac:(lia)) as E4. rewrite <- Y0 in E4. pose proof (S k (Z.to_nat (intd c "nthetag" - 5)) K ltac:(lia)) as E5. rewrite <- Y1 in E5.
    rewrite E4, E5. symmetry. apply FT. exact K. }
  assert (C : forall th k, k = 0%nat \/ k = 2%nat -> snd (bd_nu d psi (th + 2 * PI)) k = snd (bd_nu d psi th) k).
  { destruct NU as (G & Gx & Gy & Gxx & Gyy & Gxy & (S & SX & SY & _) & W). intros th k K.
    destruct (W psi (th + 2 * PI)) as [W1 _]. destruct W1 as (_ & W1 & W1x & W1y); [exact X|discriminate|]. destruct (W psi th) as [W2 _]. destruct W2 as (_ & W2 & W2x & W2y); [exact X|discriminate|].
    destruct (SY psi) as (_ & _ & _ & _ & SP). specialize (SP eq_refl th). rewrite Rminus_0_r in SP. destruct SP as (SP0 & SP1 & _).
    destruct K as [->| ->]; [rewrite W1, W2; exact SP0|rewrite W1y, W2y; exact SP1]. }
  split; [exact A|]. split; [exact C|]. intros n m phi x. cbv zeta beta. rewrite A, (C _ 0%nat) by auto.
  match goal with |- context [cos (?a + x)] => set (u := a + x) end. match goal with |- _ = cos ?v /\ _ => set (w := v) end.
  assert (E : u = w - 2 * IZR m * PI) by (unfold u, w; ring).
  assert (Q : forall (k : Z) y, cos (y + 2 * IZR k * PI) = cos y /\ sin (y + 2 * IZR k * PI) = sin y).
  { intros k y. destruct (Z_le_gt_dec 0 k) as [P|P].
    - rewrite <- (Z2Nat.id k P), <- INR_IZR_INZ. split; [apply cos_period|apply sin_period].
    - rewrite <- (cos_period (y + 2 * IZR k * PI) (Z.to_nat (- k))), <- (sin_period (y + 2 * IZR k * PI) (Z.to_nat (- k))).
      rewrite INR_IZR_INZ, Z2Nat.id, opp_IZR by lia. split; f_equal; ring. }
  rewrite E. destruct (Q m (w - 2 * IZR m * PI)) as [Q1 Q2]. replace (w - 2 * IZR m * PI + 2 * IZR m * PI) with w in * by ring. split; congruence.
Qed.

(** ** Modes with a time-dependent amplitude *)
Definition nonstat_ok (c : content) : Prop := (2 <= intd c "nrho")%Z /\ (2 <= intd c "ntime")%Z /\ reald c "rhomin" < reald c "rhomax" /\ reald c "tmin" < reald c "tmax".
(** entry (k, j) of the table of mode i: the radius runs fastest, the mode slowest *)
Definition by_rho (c : content) (ds : string) (i k j : nat) : R := nth ((i * Z.to_nat (intd c "ntime") + j) * Z.to_nat (intd c "nrho") + k) (cr c ds) 0.
Definition mode_surface (c : content) (ds : string) (i : nat) (e : neig) : Prop :=
  is_surface (Z.to_nat (intd c "nrho")) (Z.to_nat (intd c "ntime")) NATURALBC (reald c "rhomin") (reald c "rhomax") (reald c "tmin") (reald c "tmax") (by_rho c ds i) e.
Theorem nonstat_file : forall f qid c s junk, complete f "/mhd/MHD_NONSTAT_XXXXXXXXXX/" qid c s_M2 -> nonstat_ok c ->
  exists res ds, read_input rmhd_nonstat f qid s = Ok res /\ nonstat_modes junk res = Some ds /\ Z.of_nat (List.length ds) = intd c "nmode" /\
  forall i, (Z.of_nat i < intd c "nmode")%Z -> exists d, nth_error ds i = Some d /\
     mn d = nth i (ci c "nmodes") 0%Z /\ mm d = nth i (ci c "mmodes") 0%Z /\ mamp d = nth i (cr c "amplitude") 0 /\ momega d = nth i (cr c "omega") 0 /\ mphase d = nth i (cr c "phase") 0 /\
     mode_surface c "alpha" i (malpha d) /\ mode_surface c "phi" i (mphi d).
Proof.
  intros f qid c s junk C (N & NT & M & MT). destruct (input_delivered "/mhd/MHD_NONSTAT_XXXXXXXXXX/" rmhd_nonstat s_M2 t_M2 f qid c s ltac:(unfold inputs; HuseProofs.pick) C) as (fr & RD & D). exists fr.
  assert (LN : Z.of_nat (List.length (ci c "nmodes")) = intd c "nmode") by (destruct (C "nmodes" true (Prod 1 ["nmode"]) ltac:(HuseProofs.pick)) as (d & _ & _ & _ & L); rewrite L; apply entries1).
  assert (G1 : fst (get fr "moden") = ci c "nmodes") by exact (deliv c t_M2 fr "moden" _ D eq_refl). assert (G2 : fst (get fr "modem") = ci c "mmodes") by exact (deliv c t_M2 fr "modem" _ D eq_refl).
  set (sp := fun p i => interp2Dcomp_setup junk (fun j => tabN fr p (i * pn fr "nrho" * pn fr "ntime" + j)) (pn fr "nrho") (pn fr "ntime") NATURALBC NATURALBC (px fr "rhomin") (px fr "rhomax") (px fr "tmin") (px fr "tmax")).
  assert (NR : pn fr "nrho" = Z.to_nat (intd c "nrho")) by (unfold pn; fz; reflexivity). assert (NM : pn fr "ntime" = Z.to_nat (intd c "ntime")) by (unfold pn; fz; reflexivity).
  assert (MN : px fr "rhomin" = reald c "rhomin") by (fx; si; reflexivity). assert (MX : px fr "rhomax" = reald c "rhomax") by (fx; si; reflexivity).
  assert (TN : px fr "tmin" = reald c "tmin") by (fx; si; reflexivity). assert (TX : px fr "tmax" = reald c "tmax") by (fx; si; reflexivity).
  assert (SP : forall p i, exists v, sp p i = Val v) by (intros p i; apply interp2Dcomp_setup_ok; left; (split; [reflexivity|lia])).
  destruct (SP "alpha" 0%nat) as [dum _]. set (vv := fun p i => match sp p i with Val v => v | _ => dum end).
  assert (VV : forall p i, sp p i = Val (vv p i)) by (intros p i; unfold vv; destruct (SP p i) as [v ->]; reflexivity).
  set (md := fun i => Mode (nth i (fst (get fr "moden")) 0%Z) (nth i (fst (get fr "modem")) 0%Z) (tabN fr "amplitude_nm" i) (tabN fr "omega_nm" i) (tabN fr "phase_nm" i) (surf (vv "alpha" i)) (surf (vv "phi" i))).
  assert (PN : pn fr "nmode" = Z.to_nat (intd c "nmode")) by (unfold pn; fz; reflexivity).
  exists (map md (seq 0 (pn fr "nmode"))). split; [exact RD|]. split.
  { unfold nonstat_modes. apply all_some_map. intros i _. unfold nonstat_mode_of. cbv zeta. fold (sp "alpha" i) (sp "phi" i). rewrite !VV. reflexivity. }
  split; [rewrite map_length, seq_length, PN; lia|].
  intros i I. exists (md i). split.
  { rewrite (nth_error_nth_map md (seq 0 (pn fr "nmode")) i 0%nat) by (rewrite seq_length; lia). rewrite seq_nth by lia. reflexivity. }
  unfold md. cbn [mn mm mamp momega mphase malpha mphi]. rewrite G1, G2. repeat ft. si. do 5 (split; [reflexivity|]).
  assert (Q : forall p ds, find t_M2 p = Some (WR ds U1) -> mode_surface c ds i (surf (vv p i))).
  { intros p ds FD. pose proof (VV p i) as S. unfold sp in S. rewrite NR, NM, MN, MX, TN, TX in S. apply surf_spec in S; [|lia|left; split; [reflexivity|lia]|exact M|exact MT].
    eapply is_surface_ext; [|exact S]. intros k j. cbv beta. rewrite (get_tab c t_M2 fr p ds U1 _ D FD). cbn [inSI]. rewrite Rmult_1_l. unfold by_rho. f_equal. ring. }
  split; apply Q; reflexivity.
Qed.

(** ** The waves of the file *)
Lemma boozer_cov f qid c junk d evalpsi evalrho axis r phi z r0 z0 : boozer_of f qid c junk d ->
  let psi := snd (evalpsi r phi z 0) 0%nat in
  point_in_polygon r z (bd_contour d) <> 0%nat -> fst (evalpsi r phi z 0) = 0%Z -> fst (evalrho psi) = 0%Z -> axis phi = (0%Z, fun k => match k with 0%nat => r0 | _ => z0 end) ->
  reald c "psimin" < psi < reald c "psimax" -> r <> r0 \/ z <> z0 ->
  MhdProofs.covered (fun r z => negb (Nat.eqb (point_in_polygon r z (bd_contour d)) 0)) evalpsi evalrho axis (bd_theta d) (bd_nu d) (bd_psimin d) (bd_psimax d) r0 z0 r phi z.
Proof.
  intros B psi IN EP ER AX RG OFF. destruct (boozer_of_data _ _ _ _ _ B) as (OK & B1 & B2 & TH & NU). destruct (turn_pos c OK) as (T1 & P0 & _).
  pose proof PI_RGT_0 as PP. pose proof (thgeo_range (r - r0) (z - z0)) as TG.
  destruct TH as (F & Fx & Fy & Fxx & Fyy & Fxy & _ & V). destruct (V psi (thgeo (r - r0) (z - z0))) as [V1 _]. destruct V1 as (V1 & _); [lra|intros _; lra|].
  destruct NU as (G & Gx & Gy & Gxx & Gyy & Gxy & _ & W). destruct (W psi (snd (bd_theta d psi (thgeo (r - r0) (z - z0))) 0%nat)) as [W1 _]. destruct W1 as (W1 & _); [lra|discriminate|].
  unfold MhdProofs.covered, theta_f, th_f, psi_f. fold psi. rewrite AX, B1, B2. cbn [fst snd]. repeat split; try assumption; try lra.
  apply negb_true_iff, Nat.eqb_neq. exact IN.
Qed.
Definition nonstat_of (f : h5) (qid : string) (c : content) (junk : nat -> R) (ds : list (mode neig)) : Prop :=
  complete f "/mhd/MHD_NONSTAT_XXXXXXXXXX/" qid c s_M2 /\ nonstat_ok c /\ exists s res, read_input rmhd_nonstat f qid s = Ok res /\ nonstat_modes junk res = Some ds.
Lemma nonstat_of_data f qid c junk ds : nonstat_of f qid c junk ds -> Z.of_nat (List.length ds) = intd c "nmode" /\
  forall i, (Z.of_nat i < intd c "nmode")%Z -> exists d, nth_error ds i = Some d /\
     mn d = nth i (ci c "nmodes") 0%Z /\ mm d = nth i (ci c "mmodes") 0%Z /\ mamp d = nth i (cr c "amplitude") 0 /\ momega d = nth i (cr c "omega") 0 /\ mphase d = nth i (cr c "phase") 0 /\
     mode_surface c "alpha" i (malpha d) /\ mode_surface c "phi" i (mphi d).
Proof.
  intros (C & OK & s & res & R & E). destruct (nonstat_file f qid c s junk C OK) as (res' & d' & R' & E' & H). rewrite R in R'. injection R' as <-. rewrite E in E'. injection E' as <-. exact H.
Qed.
(** the position can be mapped to Boozer coordinates of the file *)
Definition tabulated (cb : content) (d : bdata) (evalpsi : R -> R -> R -> R -> Z * arr) (evalrho : R -> Z * arr) (axis : R -> Z * arr) (r phi z r0 z0 : R) : Prop :=
  let psi := snd (evalpsi r phi z 0) 0%nat in
  point_in_polygon r z (bd_contour d) <> 0%nat /\ fst (evalpsi r phi z 0) = 0%Z /\ fst (evalrho psi) = 0%Z /\ axis phi = (0%Z, fun k => match k with 0%nat => r0 | _ => z0 end) /\
  reald cb "psimin" < psi < reald cb "psimax" /\ (r <> r0 \/ z <> z0).
Lemma cov_of f qid c junk d evalpsi evalrho axis r phi z r0 z0 : boozer_of f qid c junk d -> tabulated c d evalpsi evalrho axis r phi z r0 z0 ->
  MhdProofs.covered (fun r z => negb (Nat.eqb (point_in_polygon r z (bd_contour d)) 0)) evalpsi evalrho axis (bd_theta d) (bd_nu d) (bd_psimin d) (bd_psimax d) r0 z0 r phi z.
Proof. intros B (A1 & A2 & A3 & A4 & A5 & A6). eapply boozer_cov; eauto. Qed.
Lemma nonstat_waves inpoly evalpsi evalrho axis thspl nuspl psimin psimax junk jrho ds inc r0 z0 r f z t : let ms := chosen inc 0 ds in
  MhdProofs.nonstat_covered inpoly evalpsi evalrho axis thspl nuspl psimin psimax r0 z0 ms r f z t ->
  exists o, mhd_nonstat_eval inpoly evalpsi evalrho axis thspl nuspl psimin psimax junk jrho ds r f z t inc = Some (0%Z, o) /\
  let rho := rho_f evalrho (psi_f evalpsi r f z) in
  o 0%nat = sumL (fun d => wave d (snd (malpha d rho t) 0%nat) (zeta_f evalpsi thspl nuspl r0 z0 r f z) (theta_f evalpsi thspl r0 z0 r f z) t) ms /\
  o 5%nat = sumL (fun d => wave d (snd (mphi d rho t) 0%nat) (zeta_f evalpsi thspl nuspl r0 z0 r f z) (theta_f evalpsi thspl r0 z0 r f z) t) ms.
Proof.
  intros ms [C M]. destruct (eval_covered _ _ _ _ _ _ _ _ neig nonstat_mode junk jrho ds inc _ _ _ _ _ t C) as (p & Q & O & (o & OE)). exists o. split; [exact OE|].
  unfold out_f in O. rewrite OE in O. fold ms in O.
  assert (NE : existsb (fun d => fst (nonstat_mode p (snd (evalrho (psi_f evalpsi r f z))) r t d)) ms = false).
  { apply existsb_none. intros d D. destruct (M d D) as [M1 M2]. rewrite nonstat_mode_eq. fold (rho_f evalrho (psi_f evalpsi r f z)). cbn [fst]. now rewrite M1, M2. }
  rewrite NE in O. destruct (boozer_covered _ _ _ _ _ _ _ _ junk _ _ _ _ _ C) as (p2 & Q2 & _ & B4 & B8 & _). assert (p2 = p) by congruence. subst p2.
  split; rewrite O; apply sumL_ext; intros d D; rewrite <- wave_wrap; rewrite nonstat_mode_eq; fold (rho_f evalrho (psi_f evalpsi r f z));
    unfold nonstat_terms, stat_terms, wave, mhdarg; cbn [snd]; rewrite B4, B8; unfold neig in *; ring.
Qed.
(** inside the tabulated positions, radii and times the potentials are those of the file, and no error is reported *)
Theorem waves_file : forall fb qb cb jb d fm qm cm jm ds, boozer_of fb qb cb jb d -> nonstat_of fm qm cm jm ds ->
  exists (A P : nat -> R -> R -> R),
  (forall i, (i < Z.to_nat (intd cm "nmode"))%nat -> forall ds F, (ds, F) = ("alpha", A i) \/ (ds, F) = ("phi", P i) -> exists Fx Fy Fxx Fyy Fxy,
     surface_interpolant (Z.to_nat (intd cm "nrho")) (Z.to_nat (intd cm "ntime")) NATURALBC NATURALBC (reald cm "rhomin") (reald cm "rhomax") (reald cm "tmin") (reald cm "tmax") (by_rho cm ds i) F Fx Fy Fxx Fyy Fxy) /\
  forall evalpsi evalrho axis mem jrho r phi z t r0 z0, tabulated cb d evalpsi evalrho axis r phi z r0 z0 ->
  let psi := snd (evalpsi r phi z 0) 0%nat in let rho := snd (evalrho psi) 0%nat in
  let theta := snd (bd_theta d psi (thgeo (r - r0) (z - z0))) 0%nat in let zeta := phi + snd (bd_nu d psi theta) 0%nat in
  reald cm "rhomin" <= rho <= reald cm "rhomax" -> reald cm "tmin" <= t <= reald cm "tmax" ->
  let wv i := nth i (cr cm "amplitude") 0 * cos (IZR (nth i (ci cm "nmodes") 0%Z) * zeta - IZR (nth i (ci cm "mmodes") 0%Z) * theta - nth i (cr cm "omega") 0 * t + nth i (cr cm "phase") 0) in
  exists o, waves_at d evalpsi evalrho axis mem jrho ds r phi z t (-1) = Some (0%Z, o) /\
  o 0%nat = sumL (fun i => A i rho t * wv i) (seq 0 (Z.to_nat (intd cm "nmode"))) /\ o 5%nat = sumL (fun i => P i rho t * wv i) (seq 0 (Z.to_nat (intd cm "nmode"))).
Proof.
  intros fb qb cb jb d fm qm cm jm ds B N. destruct (nonstat_of_data _ _ _ _ _ N) as (LE & MI).
  assert (EX : forall i, (i < Z.to_nat (intd cm "nmode"))%nat -> exists FF : (R -> R -> R) * (R -> R -> R),
    (forall ds F, (ds, F) = ("alpha", fst FF) \/ (ds, F) = ("phi", snd FF) -> exists Fx Fy Fxx Fyy Fxy, surface_interpolant (Z.to_nat (intd cm "nrho")) (Z.to_nat (intd cm "ntime")) NATURALBC NATURALBC (reald cm "rhomin") (reald cm "rhomax") (reald cm "tmin") (reald cm "tmax") (by_rho cm ds i) F Fx Fy Fxx Fyy Fxy) /\
    forall m, nth_error ds i = Some m -> forall x t, reald cm "rhomin" <= x <= reald cm "rhomax" -> reald cm "tmin" <= t <= reald cm "tmax" ->
      fst (malpha m x t) = false /\ fst (mphi m x t) = false /\ snd (malpha m x t) 0%nat = fst FF x t /\ snd (mphi m x t) 0%nat = snd FF x t).
  { intros i I. destruct (MI i ltac:(lia)) as (m & ND & _ & _ & _ & _ & _ & (Fa & F1 & F2 & F3 & F4 & F5 & S1 & V1) & (Fp & G1 & G2 & G3 & G4 & G5 & S2 & V2)). exists (Fa, Fp). cbn [fst snd]. split.
    - intros n F [H|H]; injection H as -> ->; [exists F1, F2, F3, F4, F5; exact S1|exists G1, G2, G3, G4, G5; exact S2].
    - intros m' ND'. rewrite ND in ND'. injection ND' as <-. intros x t X T. destruct (V1 x t) as [A _]. destruct (V2 x t) as [Q _]. destruct (A X (fun _ => T)) as (A1 & A2 & _). destruct (Q X (fun _ => T)) as (Q1 & Q2 & _). auto. }
  destruct (all_funs _ ((fun _ _ => 0), (fun _ _ => 0)) _ EX) as [FF HF]. exists (fun i => fst (FF i)), (fun i => snd (FF i)). split; [intros i I; apply (HF i I)|].
  intros evalpsi evalrho axis mem jrho r phi z t r0 z0 TB psi rho theta zeta RG TG wv.
  assert (LN : List.length ds = Z.to_nat (intd cm "nmode")) by lia.
  assert (AT : forall i m, nth_error ds i = Some m -> (i < Z.to_nat (intd cm "nmode"))%nat) by (intros i m ND; rewrite <- LN; apply nth_error_Some; congruence).
  pose proof (cov_of _ _ _ _ _ _ _ _ _ _ _ _ _ B TB) as CV.
  assert (SC : MhdProofs.nonstat_covered (fun r z => negb (Nat.eqb (point_in_polygon r z (bd_contour d)) 0)) evalpsi evalrho axis (bd_theta d) (bd_nu d) (bd_psimin d) (bd_psimax d) r0 z0 (chosen (-1) 0 ds) r phi z t).
  { rewrite chosen_all. split; [exact CV|]. intros m ID. apply In_nth_error in ID as [i ND]. destruct (HF i (AT i m ND)) as (_ & V). destruct (V m ND rho t RG TG) as (A & Q & _). auto. }
  destruct (nonstat_waves _ _ _ _ _ _ _ _ mem jrho ds (-1) r0 z0 _ _ _ _ SC) as (o & EM & W1 & W2). rewrite chosen_all in W1, W2.
  exists o. split; [exact EM|]. rewrite W1, W2, <- LN.
  assert (MD : forall i m, nth_error ds i = Some m -> mamp m * cos (IZR (mn m) * zeta - IZR (mm m) * theta - momega m * t + mphase m) = wv i).
  { intros i m ND. destruct (MI i ltac:(pose proof (AT i m ND); lia)) as (m' & ND' & E1 & E2 & E3 & E4 & E5 & _). rewrite ND in ND'. injection ND' as <-. rewrite E1, E2, E3, E4, E5. reflexivity. }
  split; apply (sumL_nth _ ds _ 0); intros i m ND; cbn [Nat.add]; rewrite <- (MD i m ND); unfold wave; destruct (HF i (AT i m ND)) as (_ & V); destruct (V m ND rho t RG TG) as (_ & _ & V1 & V2).
  - change (mamp m * snd (malpha m rho t) 0%nat * cos (IZR (mn m) * zeta - IZR (mm m) * theta - momega m * t + mphase m) = fst (FF i) rho t * (mamp m * cos (IZR (mn m) * zeta - IZR (mm m) * theta - momega m * t + mphase m))). rewrite V1. ring.
  - change (mamp m * snd (mphi m rho t) 0%nat * cos (IZR (mn m) * zeta - IZR (mm m) * theta - momega m * t + mphase m) = snd (FF i) rho t * (mamp m * cos (IZR (mn m) * zeta - IZR (mm m) * theta - momega m * t + mphase m))). rewrite V2. ring.
Qed.
(** outside the tabulated radii or times all modes vanish, and no error is reported *)
Theorem waves_outside : forall fb qb cb jb d fm qm cm jm ds evalpsi evalrho axis mem jrho r phi z t r0 z0, boozer_of fb qb cb jb d -> nonstat_of fm qm cm jm ds -> tabulated cb d evalpsi evalrho axis r phi z r0 z0 ->
  let rho := snd (evalrho (snd (evalpsi r phi z 0) 0%nat)) 0%nat in
  ~ reald cm "rhomin" <= rho <= reald cm "rhomax" \/ ~ reald cm "tmin" <= t <= reald cm "tmax" ->
  forall inc, exists o, waves_at d evalpsi evalrho axis mem jrho ds r phi z t inc = Some (0%Z, o) /\ forall k, o k = 0.
Proof.
  intros fb qb cb jb d fm qm cm jm ds evalpsi evalrho axis mem jrho r phi z t r0 z0 B N TB rho OUT inc. destruct (nonstat_of_data _ _ _ _ _ N) as (LE & MI).
  pose proof (cov_of _ _ _ _ _ _ _ _ _ _ _ _ _ B TB) as CV.
  destruct (eval_covered _ _ _ _ _ _ _ _ neig nonstat_mode mem jrho ds inc _ _ _ _ _ t CV) as (p & Q & O & (o & OE)). exists o. split; [exact OE|].
  unfold out_f in O. rewrite OE in O. intros k. rewrite O.
  assert (ALL : forall m, In m (chosen inc 0 ds) -> fst (nonstat_mode p (snd (evalrho (psi_f evalpsi r phi z))) r t m) = true).
  { intros m IM. assert (ID : In m ds). { clear - IM. revert IM. generalize 0%Z. induction ds as [|x l IH]; intros i IM; [exact IM|]. cbn [chosen] in IM. destruct (_ || _)%bool; [destruct IM as [->|IM]; [left; reflexivity|right; eapply IH; exact IM]|right; eapply IH; exact IM]. }
    apply In_nth_error in ID as [i ND]. destruct (MI i) as (m' & ND' & _ & _ & _ & _ & _ & (F & F1 & F2 & F3 & F4 & F5 & S1 & V1) & _); [rewrite <- LE; apply inj_lt; apply nth_error_Some; congruence|].
    rewrite ND in ND'. injection ND' as <-. destruct (V1 rho t) as [_ V]. rewrite nonstat_mode_eq. cbn [fst]. apply orb_true_iff. left. apply V. destruct OUT as [H|H]; auto. }
  destruct (chosen inc 0 ds) as [|m l]; [reflexivity|]. cbn [existsb]. rewrite (ALL m (or_introl eq_refl)). reflexivity.
Qed.
