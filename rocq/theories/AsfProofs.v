(** Atomic reactions from the file: specification and proofs. *)
From Coq Require Import Reals ZArith List String Arith Bool Lia Lra.
Import ListNotations.
From Verif Require Import Deriv AxisModel SplineModel SplineProofs SplineUniq SplineProps Spl2Model Spl2Proofs Spl2Props Spl3Model Spl3Proofs Spl3Props AtomModel AtomProofs.
From Verif Require Import MainModel HdfModel HmkModel HinModel HinProofs HuseModel HuseProofs HqryProofs LwModel LwProofs AsfModel.
Local Open Scope string_scope.
Local Open Scope R_scope.

(** ** What the file says *)
Definition iat (c : content) (ds : string) (i : nat) : Z := nth i (ci c ds) 0%Z.
Definition rat (c : content) (ds : string) (i : nat) : R := nth i (cr c ds) 0.
(** the numbers of reaction [i] follow those of the reactions before it (a5py/ascot5io/asigma.py:71-73, 86-94) *)
Fixpoint start (c : content) (i : nat) : nat :=
  match i with O => O | S k => (start c k + Z.to_nat (iat c "nenergy" k * iat c "ndensity" k * iat c "ntemperature" k))%nat end.
(** reactions tabulated against energy; energy and temperature; energy, density and temperature *)
Definition curve_of (c : content) (i : nat) : Prop :=
  (2 <= iat c "nenergy" i)%Z /\ iat c "ndensity" i = 1%Z /\ iat c "ntemperature" i = 1%Z /\ rat c "energymin" i < rat c "energymax" i.
Definition sheet_of (c : content) (i : nat) : Prop :=
  (2 <= iat c "nenergy" i)%Z /\ iat c "ndensity" i = 1%Z /\ (2 <= iat c "ntemperature" i)%Z /\ rat c "energymin" i < rat c "energymax" i /\ rat c "temperaturemin" i < rat c "temperaturemax" i.
Definition solid_of (c : content) (i : nat) : Prop :=
  (2 <= iat c "nenergy" i)%Z /\ (2 <= iat c "ndensity" i)%Z /\ (2 <= iat c "ntemperature" i)%Z /\
  rat c "energymin" i < rat c "energymax" i /\ rat c "densitymin" i < rat c "densitymax" i /\ rat c "temperaturemin" i < rat c "temperaturemax" i.
(** the natural splines through the table of reaction [i] if its numbers start at [o]; the energy runs fastest *)
Definition curve_at (c : content) (i o : nat) (F : R -> R) : Prop := exists F1 F2,
  spline_interpolant (Z.to_nat (iat c "nenergy" i)) NATURALBC (rat c "energymin" i) (rat c "energymax" i) (fun j => rat c "sigma" (o + j)) F F1 F2.
Definition sheet_at (c : content) (i o : nat) (F : R -> R -> R) : Prop := exists Fx Fy Fxx Fyy Fxy,
  surface_interpolant (Z.to_nat (iat c "nenergy" i)) (Z.to_nat (iat c "ntemperature" i)) NATURALBC NATURALBC
    (rat c "energymin" i) (rat c "energymax" i) (rat c "temperaturemin" i) (rat c "temperaturemax" i)
    (fun j k => rat c "sigma" (o + (k * Z.to_nat (iat c "nenergy" i) + j))) F Fx Fy Fxx Fyy Fxy.
Definition solid_at (c : content) (i o : nat) (F : R -> R -> R -> R) : Prop := exists Fx Fy Fz Fxx Fyy Fzz Fxy Fxz Fyz,
  volume_interpolant (Z.to_nat (iat c "nenergy" i)) (Z.to_nat (iat c "ndensity" i)) (Z.to_nat (iat c "ntemperature" i)) NATURALBC NATURALBC NATURALBC
    (rat c "energymin" i) (rat c "energymax" i) (rat c "densitymin" i) (rat c "densitymax" i) (rat c "temperaturemin" i) (rat c "temperaturemax" i)
    (fun j k l => rat c "sigma" (o + (l * Z.to_nat (iat c "ndensity" i) * Z.to_nat (iat c "nenergy" i) + k * Z.to_nat (iat c "nenergy" i) + j))) F Fx Fy Fz Fxx Fyy Fzz Fxy Fxz Fyz.
Definition energy_in (c : content) (i : nat) (E : R) : Prop := rat c "energymin" i <= E <= rat c "energymax" i.
Definition density_in (c : content) (i : nat) (n : R) : Prop := rat c "densitymin" i <= n <= rat c "densitymax" i.
Definition temperature_in (c : content) (i : nat) (T : R) : Prop := rat c "temperaturemin" i <= T <= rat c "temperaturemax" i.
(** the stored reaction [r] returns the table of reaction [i] with its numbers taken from [o] on, and an error outside the table *)
Definition serves (c : content) (i o : nat) (r : reac) : Prop :=
  (curve_of c i -> exists F, curve_at c i o F /\ forall E, (energy_in c i E -> ev1 (t1 r) E = Val (F E)) /\ (~ energy_in c i E -> ev1 (t1 r) E = Err)) /\
  (sheet_of c i -> exists F, sheet_at c i o F /\ forall E T, (energy_in c i E -> temperature_in c i T -> ev2 (t2 r) E T = Val (F E T)) /\ (~ energy_in c i E \/ ~ temperature_in c i T -> ev2 (t2 r) E T = Err)) /\
  (solid_of c i -> exists F, solid_at c i o F /\ forall E n T, (energy_in c i E -> density_in c i n -> temperature_in c i T -> ev3 (t3 r) E n T = Val (F E n T)) /\
     (~ energy_in c i E \/ ~ density_in c i n \/ ~ temperature_in c i T -> ev3 (t3 r) E n T = Err)).
Definition named (c : content) (i : nat) (r : reac) : Prop :=
  z1 r = iat c "z1" i /\ a1 r = iat c "a1" i /\ z2 r = iat c "z2" i /\ a2 r = iat c "a2" i /\ rtype r = iat c "reactype" i.
Definition tabulated (c : content) (i : nat) : Prop := curve_of c i \/ sheet_of c i \/ solid_of c i.

(** ** What the simulation has after reading it *)
Lemma pzi_file c res p ds i : delivered c t_As res -> find t_As p = Some (WI ds) -> pzi res p i = iat c ds i.
Proof. intros D F. unfold pzi, iat. apply (deliv c t_As res p _ D) in F. cbn in F. now rewrite F. Qed.
Lemma tab_file c res p ds i : delivered c t_As res -> find t_As p = Some (WR ds U1) -> tabN res p i = rat c ds i.
Proof. intros D F. rewrite (get_tab c t_As res p ds U1 i D F). cbn [inSI]. unfold rat. ring. Qed.
Lemma rdef_file c res i : delivered c t_As res -> rdef_of res i =
  RD (iat c "z1" i) (iat c "a1" i) (iat c "z2" i) (iat c "a2" i) (iat c "reactype" i) (Z.to_nat (iat c "nenergy" i)) (rat c "energymin" i) (rat c "energymax" i)
     (Z.to_nat (iat c "ndensity" i)) (rat c "densitymin" i) (rat c "densitymax" i) (Z.to_nat (iat c "ntemperature" i)) (rat c "temperaturemin" i) (rat c "temperaturemax" i).
Proof.
  intros D. unfold rdef_of. rewrite (pzi_file c res "z1" "z1"), (pzi_file c res "a1" "a1"), (pzi_file c res "z2" "z2"), (pzi_file c res "a2" "a2"), (pzi_file c res "reactype" "reactype"),
    (pzi_file c res "ne" "nenergy"), (pzi_file c res "nn" "ndensity"), (pzi_file c res "nT" "ntemperature"), (tab_file c res "emin" "energymin"), (tab_file c res "emax" "energymax"),
    (tab_file c res "nmin" "densitymin"), (tab_file c res "nmax" "densitymax"), (tab_file c res "Tmin" "temperaturemin"), (tab_file c res "Tmax" "temperaturemax") by (assumption || reflexivity). reflexivity.
Qed.
Lemma interp1_ext n bc mn mx f g F F1 F2 : (forall j, (j < n)%nat -> f j = g j) -> spline_interpolant n bc mn mx f F F1 F2 -> spline_interpolant n bc mn mx g F F1 F2.
Proof. intros E (A & B). split; [|exact B]. intros k K. rewrite <- E by exact K. now apply A. Qed.
Lemma reaction_serves c junk sigma i (d : rdef) : (forall j, sigma j = rat c "sigma" j) -> tabulated c i -> d =
  RD (iat c "z1" i) (iat c "a1" i) (iat c "z2" i) (iat c "a2" i) (iat c "reactype" i) (Z.to_nat (iat c "nenergy" i)) (rat c "energymin" i) (rat c "energymax" i)
     (Z.to_nat (iat c "ndensity" i)) (rat c "densitymin" i) (rat c "densitymax" i) (Z.to_nat (iat c "ntemperature" i)) (rat c "temperaturemin" i) (rat c "temperaturemax" i) ->
  serves c i 0 (fst (init_reaction junk sigma d)) /\ snd (init_reaction junk sigma d) = false.
Proof.
  intros S T ->. unfold init_reaction. cbn [dne dnn dnT demin demax dnmin dnmax dTmin dTmax dz1 da1 dz2 da2 dtype]. cbv zeta.
  unfold serves, curve_of, sheet_of, solid_of, energy_in, density_in, temperature_in, tabulated, curve_of, sheet_of, solid_of in *.
  destruct T as [(A & B & C & M)|[(A & B & C & M & MT)|(A & B & C & M & MN & MT)]].
  - destruct (Nat.ltb_spec 1 (Z.to_nat (iat c "nenergy" i))); [|lia]. destruct (Nat.ltb_spec 1 (Z.to_nat (iat c "ndensity" i))); [lia|]. destruct (Nat.ltb_spec 1 (Z.to_nat (iat c "ntemperature" i))); [lia|].
    cbn [Nat.add fst snd t1 t2 t3]. assert (EN : enough (Z.to_nat (iat c "nenergy" i)) NATURALBC) by (left; split; [reflexivity|lia]).
    destruct (interp1Dcomp_setup_ok junk sigma _ _ (rat c "energymin" i) (rat c "energymax" i) EN) as [s E]. rewrite E. split; [|reflexivity]. split; [|split; intros; lia].
    intros _. destruct (interp1Dcomp_is_spline _ _ _ _ _ _ _ EN M E) as (F & F1 & F2 & I & V & O). exists F. split.
    + exists F1, F2. eapply interp1_ext; [|exact I]. intros j _. apply S.
    + intros x. cbn [ev1]. split; intros X; [destruct (V x (fun _ => X)) as [V1 _]; exact V1|destruct (O x eq_refl X) as [O1 _]; exact O1].
  - destruct (Nat.ltb_spec 1 (Z.to_nat (iat c "nenergy" i))); [|lia]. destruct (Nat.ltb_spec 1 (Z.to_nat (iat c "ndensity" i))); [lia|]. destruct (Nat.ltb_spec 1 (Z.to_nat (iat c "ntemperature" i))); [|lia].
    cbn [Nat.add fst snd t1 t2 t3]. assert (EN : enough (Z.to_nat (iat c "nenergy" i)) NATURALBC) by (left; split; [reflexivity|lia]). assert (ET : enough (Z.to_nat (iat c "ntemperature" i)) NATURALBC) by (left; split; [reflexivity|lia]).
    destruct (interp2Dcomp_setup_ok junk sigma _ _ _ _ (rat c "energymin" i) (rat c "energymax" i) (rat c "temperaturemin" i) (rat c "temperaturemax" i) EN ET) as [s E]. rewrite E. split; [|reflexivity].
    split; [intros; lia|split; [|intros; lia]]. intros _. destruct (interp2Dcomp_is_spline _ _ _ _ _ _ _ _ _ _ _ EN ET M MT E) as (F & Fx & Fy & Fxx & Fyy & Fxy & (I1 & I2) & V & O). exists F. split.
    + exists Fx, Fy, Fxx, Fyy, Fxy. split; [|exact I2]. intros j k J K. rewrite I1 by assumption. apply S.
    + intros x y. cbn [ev2]. split; [intros X Y; destruct (V x y (fun _ => X) (fun _ => Y)) as [V1 _]; exact V1|intros X; destruct (O x y ltac:(tauto)) as [O1 _]; exact O1].
  - destruct (Nat.ltb_spec 1 (Z.to_nat (iat c "nenergy" i))); [|lia]. destruct (Nat.ltb_spec 1 (Z.to_nat (iat c "ndensity" i))); [|lia]. destruct (Nat.ltb_spec 1 (Z.to_nat (iat c "ntemperature" i))); [|lia].
    cbn [Nat.add fst snd t1 t2 t3]. assert (EN : enough (Z.to_nat (iat c "nenergy" i)) NATURALBC) by (left; split; [reflexivity|lia]). assert (ED : enough (Z.to_nat (iat c "ndensity" i)) NATURALBC) by (left; split; [reflexivity|lia]).
    assert (ET : enough (Z.to_nat (iat c "ntemperature" i)) NATURALBC) by (left; split; [reflexivity|lia]).
    destruct (interp3Dcomp_setup_ok junk sigma _ _ _ _ _ _ (rat c "energymin" i) (rat c "energymax" i) (rat c "densitymin" i) (rat c "densitymax" i) (rat c "temperaturemin" i) (rat c "temperaturemax" i) EN ED ET) as [s E]. rewrite E.
    split; [|reflexivity]. split; [intros; lia|split; [intros; lia|]]. intros _.
    destruct (interp3Dcomp_is_spline _ _ _ _ _ _ _ _ _ _ _ _ _ _ _ EN ED ET M MN MT E) as (F & Fx & Fy & Fz & Fxx & Fyy & Fzz & Fxy & Fxz & Fyz & (I1 & I2) & V & O). exists F. split.
    + exists Fx, Fy, Fz, Fxx, Fyy, Fzz, Fxy, Fxz, Fyz. split; [|exact I2]. intros j k l J K L. rewrite I1 by assumption. apply S.
    + intros x y z. cbn [ev3]. split; [intros X Y Z; destruct (V x y z (fun _ => X) (fun _ => Y) (fun _ => Z)) as [V1 _]; exact V1|intros X; destruct (O x y z ltac:(tauto)) as [O1 _]; exact O1].
Qed.
(** every reaction of the file is there under its own name, but its table is filled from the first number of the file *)
Definition reactions_of (f : h5) (qid : string) (c : content) (junk : nat -> R) (rs : list reac) : Prop :=
  HinProofs.complete f "/asigma/asigma_loc_XXXXXXXXXX/" qid c s_As /\ exists s res err, read_input rasigma_loc f qid s = Ok res /\ call_asigma junk res = (rs, err).
Lemma list_served c junk res : delivered c t_As res -> (forall i, (i < Z.to_nat (intd c "nreac"))%nat -> tabulated c i) ->
  let '(rs, err) := call_asigma junk res in List.length rs = Z.to_nat (intd c "nreac") /\ err = false /\
  forall i, (i < Z.to_nat (intd c "nreac"))%nat -> exists r, nth_error rs i = Some r /\ named c i r /\ serves c i 0 r.
Proof.
  intros D T. unfold call_asigma, asigma_loc_init. rewrite !map_map. unfold pn. rewrite (get_z c t_As res "nreac" "nreac" D eq_refl). set (n := Z.to_nat (intd c "nreac")) in *.
  assert (SG : forall j, tabN res "sigma" j = rat c "sigma" j) by (intros; now apply tab_file).
  split; [now rewrite map_length, seq_length|]. split.
  - assert (AL : forall l, (forall b, In b l -> b = false) -> last l false = false) by (clear; induction l as [|b [|b' l] IH]; intros H; [reflexivity|apply H; now left|apply IH; intros; apply H; now right]).
    apply AL. intros b I. apply in_map_iff in I. destruct I as (i & <- & I). apply in_seq in I.
    destruct (reaction_serves c junk (tabN res "sigma") i (rdef_of res i) SG (T i ltac:(lia)) (rdef_file c res i D)) as [_ E]. exact E.
  - intros i I. eexists. split.
    + apply map_nth_error. rewrite (nth_error_nth' (seq 0 n) 0%nat) by (rewrite seq_length; exact I). now rewrite seq_nth by exact I.
    + cbn [Nat.add]. destruct (reaction_serves c junk (tabN res "sigma") i (rdef_of res i) SG (T i I) (rdef_file c res i D)) as [E _]. split; [|exact E].
      rewrite (rdef_file c res i D). unfold init_reaction, named. cbv zeta. cbn [dne dnn dnT dz1 da1 dz2 da2 dtype]. destruct (_ + _ + _)%nat as [|[|[|[|]]]]; cbn [fst z1 a1 z2 a2 rtype]; auto.
Qed.
Theorem reactions_file : forall f qid c s junk, HinProofs.complete f "/asigma/asigma_loc_XXXXXXXXXX/" qid c s_As -> (forall i, (i < Z.to_nat (intd c "nreac"))%nat -> tabulated c i) ->
  exists res rs, read_input rasigma_loc f qid s = Ok res /\ call_asigma junk res = (rs, false) /\ List.length rs = Z.to_nat (intd c "nreac") /\
  forall i, (i < Z.to_nat (intd c "nreac"))%nat -> exists r, nth_error rs i = Some r /\ named c i r /\ serves c i 0 r.
Proof.
  intros f qid c s junk C T. destruct (input_delivered "/asigma/asigma_loc_XXXXXXXXXX/" rasigma_loc s_As t_As f qid c s ltac:(unfold inputs; HuseProofs.pick) C) as (res & RD & D).
  pose proof (list_served c junk res D T) as L. destruct (call_asigma junk res) as [rs err] eqn:E. destruct L as (L1 & -> & L2). exists res, rs. auto.
Qed.

(** ** Which reactions are served from their own numbers *)
Definition own_numbers (c : content) (i : nat) : Prop := forall j, (j < Z.to_nat (iat c "nenergy" i * iat c "ndensity" i * iat c "ntemperature" i))%nat -> rat c "sigma" (start c i + j) = rat c "sigma" j.
Lemma node_in n mn mx k : (2 <= n)%nat -> (k < n)%nat -> mn < mx -> mn <= mn + INR k * step n NATURALBC mn mx <= mx.
Proof.
  intros N K M. unfold step, cells. cbn [Z.eqb NATURALBC]. assert (P : 0 < INR (n - 1)) by (apply lt_0_INR; lia).
  assert (Q : 0 <= INR k / INR (n - 1) <= 1).
  { split; apply Rmult_le_reg_r with (INR (n - 1)); auto; unfold Rdiv; rewrite Rmult_assoc, Rinv_l by lra; [pose proof (pos_INR k); lra | rewrite Rmult_1_r, Rmult_1_l; apply le_INR; lia]. }
  replace (INR k * ((mx - mn) / INR (n - 1))) with (INR k / INR (n - 1) * (mx - mn)) by (field; lra). nra.
Qed.
Theorem own_iff : forall c i r, tabulated c i -> serves c i 0 r -> (serves c i (start c i) r <-> own_numbers c i).
Proof.
  intros c i r T H. unfold own_numbers. set (o := start c i). split.
  - intros H' q Q. destruct T as [T|[T|T]].
    + destruct H as (H & _). destruct H' as (H' & _). destruct (H T) as (F & (F1 & F2 & I & _) & V). destruct (H' T) as (G & (G1 & G2 & J & _) & W). destruct T as (A & B & C & M). rewrite B, C in Q.
      assert (X := node_in (Z.to_nat (iat c "nenergy" i)) _ _ q ltac:(lia) ltac:(lia) M). unfold step in X.
      pose proof (proj1 (V _) X) as V1. pose proof (proj1 (W _) X) as W1. rewrite V1 in W1. injection W1 as E. rewrite I in E by lia. rewrite J in E by lia. symmetry. exact E.
    + destruct H as (_ & H & _). destruct H' as (_ & H' & _). destruct (H T) as (F & (Fx & Fy & Fxx & Fyy & Fxy & I & _) & V). destruct (H' T) as (G & (Gx & Gy & Gxx & Gyy & Gxy & J & _) & W). destruct T as (A & B & C & M & MT). rewrite B in Q.
      set (ne := Z.to_nat (iat c "nenergy" i)) in *. set (nT := Z.to_nat (iat c "ntemperature" i)) in *. assert (QQ : (q < ne * nT)%nat) by (unfold ne, nT; rewrite <- Z2Nat.inj_mul by lia; rewrite Z.mul_1_r in Q; exact Q).
      assert (N0 : (2 <= ne)%nat) by (unfold ne; lia). assert (N1 : (2 <= nT)%nat) by (unfold nT; lia).
      assert (KQ : (q / ne < nT)%nat) by (apply Nat.div_lt_upper_bound; lia). assert (JQ : (q mod ne < ne)%nat) by (apply Nat.mod_upper_bound; lia).
      assert (X := node_in ne _ _ (q mod ne) N0 JQ M). assert (Y := node_in nT _ _ (q / ne) N1 KQ MT).
      destruct (V (rat c "energymin" i + INR (q mod ne) * step ne NATURALBC (rat c "energymin" i) (rat c "energymax" i)) (rat c "temperaturemin" i + INR (q / ne) * step nT NATURALBC (rat c "temperaturemin" i) (rat c "temperaturemax" i))) as [V1 _]. specialize (V1 X Y).
      destruct (W (rat c "energymin" i + INR (q mod ne) * step ne NATURALBC (rat c "energymin" i) (rat c "energymax" i)) (rat c "temperaturemin" i + INR (q / ne) * step nT NATURALBC (rat c "temperaturemin" i) (rat c "temperaturemax" i))) as [W1 _]. specialize (W1 X Y).
      rewrite V1 in W1. injection W1 as E. rewrite I, J in E by assumption. cbn [Nat.add] in E.
      replace (q / ne * ne + q mod ne)%nat with q in E by (rewrite (Nat.div_mod q ne) at 1 by lia; lia). symmetry. exact E.
    + destruct H as (_ & _ & H). destruct H' as (_ & _ & H'). destruct (H T) as (F & (Fx & Fy & Fz & Fxx & Fyy & Fzz & Fxy & Fxz & Fyz & I & _) & V). destruct (H' T) as (G & (Gx & Gy & Gz & Gxx & Gyy & Gzz & Gxy & Gxz & Gyz & J & _) & W).
      destruct T as (A & B & C & M & MN & MT).
      set (ne := Z.to_nat (iat c "nenergy" i)) in *. set (nn := Z.to_nat (iat c "ndensity" i)) in *. set (nT := Z.to_nat (iat c "ntemperature" i)) in *.
      assert (QQ : (q < ne * nn * nT)%nat) by (unfold ne, nn, nT; rewrite <- !Z2Nat.inj_mul by lia; exact Q).
      assert (N0 : (2 <= ne)%nat) by (unfold ne; lia). assert (N1 : (2 <= nT)%nat) by (unfold nT; lia). assert (N2 : (2 <= nn)%nat) by (unfold nn; lia).
      assert (LQ : (q / ne / nn < nT)%nat) by (rewrite Nat.div_div by lia; apply Nat.div_lt_upper_bound; lia).
      assert (KQ : ((q / ne) mod nn < nn)%nat) by (apply Nat.mod_upper_bound; lia). assert (JQ : (q mod ne < ne)%nat) by (apply Nat.mod_upper_bound; lia).
      assert (X := node_in ne _ _ (q mod ne) N0 JQ M). assert (Y := node_in nn _ _ ((q / ne) mod nn) N2 KQ MN). assert (Z := node_in nT _ _ (q / ne / nn) N1 LQ MT).
      set (x := rat c "energymin" i + INR (q mod ne) * step ne NATURALBC (rat c "energymin" i) (rat c "energymax" i)) in *.
      set (y := rat c "densitymin" i + INR ((q / ne) mod nn) * step nn NATURALBC (rat c "densitymin" i) (rat c "densitymax" i)) in *.
      set (z := rat c "temperaturemin" i + INR (q / ne / nn) * step nT NATURALBC (rat c "temperaturemin" i) (rat c "temperaturemax" i)) in *.
      destruct (V x y z) as [V1 _]. specialize (V1 X Y Z). destruct (W x y z) as [W1 _]. specialize (W1 X Y Z). rewrite V1 in W1. injection W1 as E.
      pose proof (I _ _ _ JQ KQ LQ) as E1. pose proof (J _ _ _ JQ KQ LQ) as E2. fold x y z in E1, E2. rewrite E1, E2 in E. cbn [Nat.add] in E.
      replace (q / ne / nn * nn * ne + (q / ne) mod nn * ne + q mod ne)%nat with q in E; [symmetry; exact E|].
      rewrite (Nat.div_mod q ne) at 1 by lia. rewrite (Nat.div_mod (q / ne) nn) at 1 by lia. ring.
  - intros O. destruct H as (H1 & H2 & H3). split; [|split].
    + intros T'. destruct (H1 T') as (F & (F1 & F2 & I) & V). exists F. split; [|exact V]. exists F1, F2. eapply interp1_ext; [|exact I]. intros j J. symmetry. cbn [Nat.add]. apply O.
      destruct T' as (A & B & C & M). rewrite B, C. lia.
    + intros T'. destruct (H2 T') as (F & (Fx & Fy & Fxx & Fyy & Fxy & I & I') & V). exists F. split; [|exact V]. exists Fx, Fy, Fxx, Fyy, Fxy. split; [|exact I']. intros j k J K. rewrite I by assumption. symmetry. cbn [Nat.add]. apply O.
      destruct T' as (A & B & C & M). rewrite B, Z.mul_1_r, Z2Nat.inj_mul by lia. nia.
    + intros T'. destruct (H3 T') as (F & (Fx & Fy & Fz & Fxx & Fyy & Fzz & Fxy & Fxz & Fyz & I & I') & V). exists F. split; [|exact V]. exists Fx, Fy, Fz, Fxx, Fyy, Fzz, Fxy, Fxz, Fyz. split; [|exact I'].
      intros j k l J K L. rewrite I by assumption. symmetry. cbn [Nat.add]. apply O. destruct T' as (A & B & C & M).
      rewrite !Z2Nat.inj_mul by lia. set (ne := Z.to_nat (iat c "nenergy" i)) in *. set (nn := Z.to_nat (iat c "ndensity" i)) in *. set (nT := Z.to_nat (iat c "ntemperature" i)) in *.
      assert (l * nn + k + 1 <= nT * nn)%nat by nia. nia.
Qed.

(** ** The rates *)
(** reaction [i] is the last of the file with these names *)
Definition asked (c : content) (i : nat) (z a zz aa t : Z) : Prop := iat c "z1" i = z /\ iat c "a1" i = a /\ iat c "z2" i = zz /\ iat c "a2" i = aa /\ iat c "reactype" i = t.
Definition chosen_reac (c : content) (i : nat) (z a zz aa t : Z) : Prop := (i < Z.to_nat (intd c "nreac"))%nat /\ asked c i z a zz aa t /\ forall k, (i < k < Z.to_nat (intd c "nreac"))%nat -> ~ asked c k z a zz aa t.
Lemma named_matches c i r z a zz aa t : named c i r -> (matches z a zz aa t r = true <-> asked c i z a zz aa t).
Proof. intros (A & B & C & D & E). unfold matches, asked. rewrite !andb_true_iff, !Z.eqb_eq, A, B, C, D, E. intuition. Qed.
Lemma split_nth {A} (l : list A) i x : nth_error l i = Some x -> l = (firstn i l ++ x :: skipn (S i) l)%list.
Proof. revert i. induction l as [|y l IH]; intros [|i] E; try discriminate; cbn in *; [now injection E as ->|]. now rewrite <- (IH i E). Qed.
Lemma reactions_list f qid c junk rs : reactions_of f qid c junk rs -> (forall i, (i < Z.to_nat (intd c "nreac"))%nat -> tabulated c i) ->
  List.length rs = Z.to_nat (intd c "nreac") /\ forall i, (i < Z.to_nat (intd c "nreac"))%nat -> exists r, nth_error rs i = Some r /\ named c i r /\ serves c i 0 r.
Proof.
  intros (C & s & res & err & R & E) T. destruct (reactions_file f qid c s junk C T) as (res' & rs' & R' & E' & H). rewrite R in R'. injection R' as <-. rewrite E in E'. injection E' as <- _. exact H.
Qed.
Lemma chosen_last f qid c junk rs i z a zz aa t : reactions_of f qid c junk rs -> (forall i, (i < Z.to_nat (intd c "nreac"))%nat -> tabulated c i) -> chosen_reac c i z a zz aa t ->
  exists r, last_match (matches z a zz aa t) rs r /\ serves c i 0 r.
Proof.
  intros H T (I & A & L). destruct (reactions_list _ _ _ _ _ H T) as (N & G). destruct (G i I) as (r & E & NM & SV). exists r. split; [|exact SV].
  exists (firstn i rs), (skipn (S i) rs). split; [now apply split_nth|]. split; [now apply (named_matches c i)|].
  apply forallb_forall. intros x X. apply In_nth_error in X. destruct X as (k & X).
  assert (X' : nth_error rs (S i + k) = Some x) by (rewrite <- X; clear; generalize (S i); intros m; revert rs; induction m; intros [|y rs]; cbn; auto; now destruct k).
  assert (K : (S i + k < List.length rs)%nat) by (apply nth_error_Some; rewrite X'; discriminate).
  destruct (G (S i + k)%nat ltac:(lia)) as (r' & E' & NM' & _). rewrite X' in E'. injection E' as <-. destruct (matches z a zz aa t x) eqn:Q; [|reflexivity].
  apply (named_matches c _ _ _ _ _ _ _ NM') in Q. exfalso. apply (L (S i + k)%nat ltac:(lia) Q).
Qed.
(** a cross-section: the table at the energy in electronvolts per amu, nothing negative *)
Theorem sigma_file : forall f qid c junk rs u i z a zz aa t E x, reactions_of f qid c junk rs -> (forall i, (i < Z.to_nat (intd c "nreac"))%nat -> tabulated c i) ->
  chosen_reac c i z a zz aa t -> curve_of c i -> (1 <= t <= 3)%Z ->
  (energy_in c i E -> exists F, curve_at c i 0 F /\ asigma_eval_sigma u z a zz aa E t x (Some rs) = Some (0%Z, Rmax 0 (F E))) /\
  (~ energy_in c i E -> exists e, asigma_eval_sigma u z a zz aa E t x (Some rs) = Some (e, 0) /\ (e = 0%Z <-> x = true)).
Proof.
  intros f qid c junk rs u i z a zz aa t E x H T CH CV TT. destruct (chosen_last _ _ _ _ _ _ _ _ _ _ _ H T CH) as (r & LM & SV). destruct SV as (SV & _). destruct (SV CV) as (F & CF & V).
  assert (T3 : t = sigma_ioniz \/ t = sigma_recomb \/ t = sigma_CX) by (unfold sigma_ioniz, sigma_recomb, sigma_CX; lia). split; intros X.
  - exists F. split; [exact CF|]. destruct (V E) as [V1 _]. exact (sigma_value u z a zz aa E t x rs r (F E) LM T3 (V1 X)).
  - destruct (V E) as [_ V1]. specialize (V1 X). unfold asigma_eval_sigma, asigma_loc_eval_sigma. pose proof LM as (_ & _ & _ & M & _). apply find_some in LM. rewrite LM.
    assert (rtype r = t) as -> by (unfold matches in M; rewrite !andb_true_iff, !Z.eqb_eq in M; intuition).
    replace ((t =? sigma_ioniz) || (t =? sigma_recomb) || (t =? sigma_CX))%Z with true by (destruct T3 as [-> | [-> | ->]]; reflexivity). rewrite V1. destruct x; cbn [AtomModel.lookup of_look].
    + exists 0%Z. split; [|tauto]. cbn. destruct (Rlt_dec 0 0); [lra|reflexivity].
    + eexists. split; [reflexivity|]. split; discriminate.
Qed.
(** a rate coefficient: energy and neutral temperature in joules *)
Theorem sigmav_file : forall f qid c junk rs u i z a zz aa t E Te T0 n x, reactions_of f qid c junk rs -> (forall i, (i < Z.to_nat (intd c "nreac"))%nat -> tabulated c i) ->
  chosen_reac c i z a zz aa t -> sheet_of c i -> (4 <= t <= 6)%Z -> energy_in c i (E / CONST_E) -> temperature_in c i (T0 / CONST_E) ->
  exists F, sheet_at c i 0 F /\ asigma_eval_sigmav u z a zz aa E Te T0 n t x (Some rs) = Some (0%Z, Rmax 0 (F (E / CONST_E) (T0 / CONST_E))).
Proof.
  intros f qid c junk rs u i z a zz aa t E Te T0 n x H T CH CV TT EI TI. destruct (chosen_last _ _ _ _ _ _ _ _ _ _ _ H T CH) as (r & LM & SV). destruct SV as (_ & SV & _). destruct (SV CV) as (F & CF & V).
  exists F. split; [exact CF|]. destruct (V (E / CONST_E) (T0 / CONST_E)) as [V1 _].
  apply (sigmav_value u z a zz aa E Te T0 n t x rs r _ LM); [unfold sigmav_ioniz, sigmav_recomb, sigmav_CX; lia|exact (V1 EI TI)].
Qed.
(** charge exchange with all neutral species: the rates of the tables, weighted with the densities *)
Theorem cx_file : forall f qid c junk rs u z a E T0 x spec ix, reactions_of f qid c junk rs -> (forall i, (i < Z.to_nat (intd c "nreac"))%nat -> tabulated c i) ->
  Forall2 (fun sp i => chosen_reac c i z a (znum sp) (anum sp) 6 /\ sheet_of c i /\ energy_in c i (E / CONST_E) /\ temperature_in c i (T0 / CONST_E)) spec ix ->
  exists vs, Forall2 (fun i v => exists F, sheet_at c i 0 F /\ v = F (E / CONST_E) (T0 / CONST_E)) ix vs /\
    asigma_eval_cx u z a E T0 spec x (Some rs) = Some (0%Z, Rmax 0 (sumR (map (fun '(v, sp) => v * dens sp) (combine vs spec)))).
Proof.
  intros f qid c junk rs u z a E T0 x spec ix H T A.
  assert (B : exists vs, Forall2 (fun i v => exists F, sheet_at c i 0 F /\ v = F (E / CONST_E) (T0 / CONST_E)) ix vs /\ Forall2 (cx_value rs z a E T0 x) spec vs).
  { induction A as [|sp i spec ix (CH & CV & EI & TI) _ (vs & B1 & B2)]; [exists []; split; constructor|].
    destruct (chosen_last _ _ _ _ _ _ _ _ _ _ _ H T CH) as (r & LM & SV). destruct SV as (_ & SV & _). destruct (SV CV) as (F & CF & V). destruct (V (E / CONST_E) (T0 / CONST_E)) as [V1 _].
    exists (F (E / CONST_E) (T0 / CONST_E) :: vs). split; constructor; auto; [exists F; auto|]. exists r. split; [exact LM|left; exact (V1 EI TI)]. }
  destruct B as (vs & B1 & B2). exists vs. split; [exact B1|]. exact (cx_sum u rs z a E T0 x spec vs B2).
Qed.
(** beam stopping: one table for every ion species, whatever the isotopes; the mean over the electrons they bring *)
Definition asked_bms (c : content) (i : nat) (z zz : Z) : Prop := iat c "z1" i = z /\ iat c "z2" i = zz /\ iat c "reactype" i = 7%Z.
Definition only_bms (c : content) (i : nat) (z zz : Z) : Prop := (i < Z.to_nat (intd c "nreac"))%nat /\ asked_bms c i z zz /\ forall k, (k < Z.to_nat (intd c "nreac"))%nat -> k <> i -> ~ asked_bms c k z zz.
Lemma filter_none {A} (p : A -> bool) l : (forall x, In x l -> p x = false) -> filter p l = [].
Proof. induction l as [|y l IH]; intros H; [reflexivity|]. cbn [filter]. rewrite (H y (or_introl eq_refl)). apply IH. intros; apply H; now right. Qed.
Lemma filter_one {A} (p : A -> bool) l i x : nth_error l i = Some x -> p x = true -> (forall k y, nth_error l k = Some y -> k <> i -> p y = false) -> filter p l = [x].
Proof.
  revert i. induction l as [|y l IH]; intros [|i] E P H; try discriminate; cbn [filter].
  - injection E as ->. rewrite P. f_equal. apply filter_none. intros w W. apply In_nth_error in W. destruct W as (k & W). exact (H (S k) w W ltac:(discriminate)).
  - rewrite (H 0%nat y eq_refl ltac:(discriminate)). apply (IH i E P). intros k w W K. apply (H (S k) w W). congruence.
Qed.
Theorem bms_file : forall f qid c junk rs u z a E m Te x ions ix, reactions_of f qid c junk rs -> (forall i, (i < Z.to_nat (intd c "nreac"))%nat -> tabulated c i) ->
  Forall2 (fun sp i => only_bms c i z (znum sp) /\ solid_of c i /\ energy_in c i (E / CONST_E / IZR a) /\ density_in c i (IZR (znum sp) * dens sp) /\ temperature_in c i (Te / CONST_E)) ions ix ->
  ions <> [] -> sumR (map (fun sp => IZR (znum sp) * dens sp) ions) <> 0 ->
  exists vs, Forall2 (fun '(sp, i) v => exists F, solid_at c i 0 F /\ v = F (E / CONST_E / IZR a) (IZR (znum sp) * dens sp) (Te / CONST_E)) (combine ions ix) vs /\
    asigma_eval_bms u z a E m Te ions x (Some rs) =
      Some (0%Z, Rmax 0 (sumR (map (fun '(v, sp) => v * (IZR (znum sp) * dens sp)) (combine vs ions)) / sumR (map (fun sp => IZR (znum sp) * dens sp) ions))).
Proof.
  intros f qid c junk rs u z a E m Te x ions ix H T A NE N0. destruct (reactions_list _ _ _ _ _ H T) as (LN & G).
  assert (B : exists vs, Forall2 (fun '(sp, i) v => exists F, solid_at c i 0 F /\ v = F (E / CONST_E / IZR a) (IZR (znum sp) * dens sp) (Te / CONST_E)) (combine ions ix) vs /\
     Forall2 (bms_values rs z a E Te x) ions (map (fun v => [v]) vs) /\ List.length vs = List.length ions).
  { clear NE N0. induction A as [|sp i ions ix ((I & AS & ON) & CV & EI & DI & TI) _ (vs & B1 & B2 & B3)]; [exists []; cbn; repeat split; constructor|].
    destruct (G i I) as (r & E1 & (M1 & M2 & M3 & M4 & M5) & SV). destruct SV as (_ & _ & SV). destruct (SV CV) as (F & CF & V). pose proof (proj1 (V _ _ _) EI DI TI) as V1.
    exists (F (E / CONST_E / IZR a) (IZR (znum sp) * dens sp) (Te / CONST_E) :: vs). split; [cbn [combine]; constructor; [exists F; auto|exact B1]|]. split; [|cbn; lia]. cbn [map]. constructor; [|exact B2].
    unfold bms_values, bms_tables. rewrite (filter_one _ rs i r E1); [constructor; [left; exact V1|constructor]| |].
    - unfold asked_bms in AS. rewrite !andb_true_iff, !Z.eqb_eq, M1, M3, M5. unfold sigmav_BMS. tauto.
    - intros k w W K. assert (KL : (k < List.length rs)%nat) by (apply nth_error_Some; rewrite W; discriminate). destruct (G k ltac:(lia)) as (w' & W' & (Q1 & _ & Q3 & _ & Q5) & _). rewrite W in W'. injection W' as <-.
      destruct (_ && _ && _) eqn:Q; [|reflexivity]. exfalso. apply (ON k ltac:(lia) K). rewrite !andb_true_iff, !Z.eqb_eq, Q1, Q3, Q5 in Q. unfold asked_bms, sigmav_BMS in *. tauto. }
  destruct B as (vs & B1 & B2 & B3). exists vs. split; [exact B1|]. rewrite (bms_sum u rs z a E m Te x ions _ B2).
  - unfold ne_of. replace (map (fun '(vs, sp) => sumR vs * (IZR (znum sp) * dens sp)) (combine (map (fun v => [v]) vs) ions)) with (map (fun '(v, sp) => v * (IZR (znum sp) * dens sp)) (combine vs ions)); [reflexivity|].
    clear. revert ions. induction vs as [|v vs IH]; intros [|sp ions]; cbn [map combine]; auto. rewrite IH. f_equal. unfold sumR. cbn [fold_right]. rewrite Rplus_0_r. reflexivity.
  - destruct ions as [|sp ions]; [congruence|]. destruct vs as [|v vs]; [discriminate B3|]. exists [v]. split; [now left|discriminate].
  - exact N0.
Qed.

(** ** A file with two cross-sections *)
Definition ac_i (n : string) : list Z :=
  if String.eqb n "nreac" then [2%Z] else if existsb (String.eqb n) ["z1"; "a1"; "z2"] then [1%Z; 1%Z] else if String.eqb n "a2" then [1%Z; 2%Z] else
  if String.eqb n "reactype" then [3%Z; 3%Z] else if String.eqb n "nenergy" then [2%Z; 2%Z] else [1%Z; 1%Z].
Definition ac_r (n : string) : list R :=
  if existsb (String.eqb n) ["energymin"; "densitymin"; "temperaturemin"] then [0; 0] else if existsb (String.eqb n) ["energymax"; "densitymax"; "temperaturemax"] then [1; 1] else [5; 6; 7; 8].
Definition ac_c : content := mkcontent ac_i ac_r.
Definition ac_file : h5 := mkh5 (fun _ => true) (fun _ _ => None)
  (fun p => match p with [_; _; n] => Some (if existsb (String.eqb n) ["nreac"; "z1"; "a1"; "z2"; "a2"; "reactype"; "nenergy"; "ndensity"; "ntemperature"] then DInt (ac_i n) else DReal (ac_r n)) | _ => None end).
Lemma ac_complete : HinProofs.complete ac_file "/asigma/asigma_loc_XXXXXXXXXX/" "0123456789" ac_c s_As.
Proof.
  intros ds b z I. unfold s_As, i0, HinProofs.r0, rr, ii in I. cbn [map app In] in I.
  repeat (destruct I as [I|I]; [injection I as <- <- <-; eexists; split; [reflexivity|]; cbn; repeat split; repeat constructor; lia|]). destruct I.
Qed.
Lemma ac_tabulated i : (i < Z.to_nat (intd ac_c "nreac"))%nat -> curve_of ac_c i.
Proof. change (Z.to_nat (intd ac_c "nreac")) with 2%nat. intros I. destruct i as [|[|]]; [| |lia]; (split; [cbn; lia|split; [reflexivity|split; [reflexivity|change (0 < 1); lra]]]). Qed.
(** all reactions of a file are served from their own numbers: false *)
Definition all_own : Prop := forall f qid c junk rs i r, reactions_of f qid c junk rs -> (forall i, (i < Z.to_nat (intd c "nreac"))%nat -> tabulated c i) ->
  (i < Z.to_nat (intd c "nreac"))%nat -> nth_error rs i = Some r -> serves c i (start c i) r.
Theorem all_own_refuted : ~ all_own.
Proof.
  intros A. assert (T : forall i, (i < Z.to_nat (intd ac_c "nreac"))%nat -> tabulated ac_c i) by (intros i I; left; now apply ac_tabulated).
  destruct (reactions_file ac_file "0123456789" ac_c (mkloc (fun _ => []) (fun _ => [])) (fun _ => 0) ac_complete T) as (res & rs & RD & CA & L & G).
  assert (RO : reactions_of ac_file "0123456789" ac_c (fun _ => 0) rs) by (split; [exact ac_complete|exists (mkloc (fun _ => []) (fun _ => [])), res, false; auto]).
  assert (I1 : (1 < Z.to_nat (intd ac_c "nreac"))%nat) by (cbn; lia). destruct (G 1%nat I1) as (r & N & _ & SV).
  pose proof (A _ _ _ _ _ _ _ RO T I1 N) as S1. apply (own_iff ac_c 1 r (T 1%nat I1) SV) in S1. specialize (S1 0%nat ltac:(cbn; lia)). change (7 = 5) in S1. lra.
Qed.
(** the second cross-section is asked for at the lower end of its table: 7 in the file, 5 in the simulation *)
Theorem second_sigma : forall junk rs u x, reactions_of ac_file "0123456789" ac_c junk rs -> rat ac_c "sigma" (start ac_c 1) = 7 /\ asigma_eval_sigma u 1 1 1 2 0 3 x (Some rs) = Some (0%Z, 5).
Proof.
  intros junk rs u x RO. split; [reflexivity|].
  assert (T : forall i, (i < Z.to_nat (intd ac_c "nreac"))%nat -> tabulated ac_c i) by (intros i I; left; now apply ac_tabulated).
  assert (I1 : (1 < Z.to_nat (intd ac_c "nreac"))%nat) by (cbn; lia).
  assert (CH : chosen_reac ac_c 1 1 1 1 2 3).
  { split; [exact I1|]. split; [repeat split|]. change (Z.to_nat (intd ac_c "nreac")) with 2%nat. intros k K. lia. }
  destruct (sigma_file _ _ _ _ _ u 1 1 1 1 2 3 0 x RO T CH (ac_tabulated 1 I1) ltac:(lia)) as [V _]. destruct V as (F & (F1 & F2 & I & _) & V); [change (0 <= 0 <= 1); lra|].
  rewrite V. specialize (I 0%nat ltac:(cbn; lia)). change (F (0 + 0 * ((1 - 0) / INR 1)) = 5) in I. replace (0 + 0 * ((1 - 0) / INR 1)) with 0 in I by ring. rewrite I, Rmax_right by lra. reflexivity.
Qed.
