(** Model of the fusion reactions and the fusion source: src/boschhale.c and src/afsi.c.

    Exact arithmetic; CONST_2PI and CONST_PI are taken to be 2 pi and pi.  Random numbers are
    arguments.  Converting a negative bin number to size_t is undefined in C; the model takes
    the result to be out of range, as it is on common hardware.  File output, the OpenMP loop
    and the thermal plasma evaluation are left out. *)
From Coq Require Import Reals List ZArith Bool.
From Verif Require Import Vec PhysModel AtomModel DistModel.
Import ListNotations.
Local Open Scope R_scope.

(** ** boschhale.c *)
(** consts.h *)
Definition CONST_U : R := 1.660538921e-27.
(** boschhale.h: values 1 to 4 of the enumeration *)
Inductive reaction := DT_He4n | DHe3_He4p | DD_Tp | DD_He3n.
Record species := SP { rm1 : R; rq1 : R; rm2 : R; rq2 : R; pm1 : R; pq1 : R; pm2 : R; pq2 : R; qval : R }.
(** boschhale.c:28-77 *)
Definition boschhale_reaction (r : reaction) : species :=
  match r with
  | DT_He4n => SP 3.344e-27 CONST_E 5.008e-27 CONST_E 6.645e-27 (2 * CONST_E) 1.675e-27 0 (17.6e6 * CONST_E)
  | DHe3_He4p => SP 3.344e-27 CONST_E 5.008e-27 (2 * CONST_E) 6.645e-27 (2 * CONST_E) 1.673e-27 CONST_E (18.3e6 * CONST_E)
  | DD_Tp => SP 3.344e-27 CONST_E 3.344e-27 CONST_E 5.008e-27 CONST_E 1.673e-27 CONST_E (4.03e6 * CONST_E)
  | DD_He3n => SP 3.344e-27 CONST_E 3.344e-27 CONST_E 5.008e-27 (2 * CONST_E) 1.675e-27 0 (3.27e6 * CONST_E)
  end.
Record sfit := SF { BG : R; A0 : R; A1 : R; A2 : R; A3 : R; A4 : R; B0 : R; B1 : R; B2 : R; B3 : R; Emin : R; Emax : R }.
(** boschhale.c:93-180, the coefficients at the energy [E] in keV *)
Definition sigma_fit (r : reaction) (E : R) : sfit :=
  match r with
  | DT_He4n =>
      if Rle_dec E 530 then SF 34.3827 6.927e4 7.454e8 2.050e6 5.2002e4 0 6.38e1 (-9.95e-1) 6.981e-5 1.728e-4 0.5 4700
      else SF 34.3827 (-1.4714e6) 0 0 0 0 (-8.4127e-3) 4.7983e-6 (-1.0748e-9) 8.5184e-14 0.5 4700
  | DHe3_He4p =>
      if Rle_dec E 900 then SF 68.7508 5.7501e6 2.5226e3 4.5566e1 0 0 (-3.1995e-3) (-8.5530e-6) 5.9014e-8 0 0.3 4800
      else SF 68.7508 (-8.3993e5) 0 0 0 0 (-2.6830e-3) 1.1633e-6 (-2.1332e-10) 1.4250e-14 0.3 4800
  | DD_Tp => SF 31.3970 5.5576e4 2.1054e2 (-3.2638e-2) 1.4987e-6 1.8181e-10 0 0 0 0 0.5 5000
  | DD_He3n => SF 31.3970 5.3701e4 3.3027e2 (-1.2706e-1) 2.9327e-5 (-2.5151e-9) 0 0 0 0 0.5 4900
  end.
(** boschhale.c:187-206, [E] in keV *)
Definition sigma_of (c : sfit) (E : R) : R :=
  if Rle_dec E (Emin c) then 0
  else
    let E2 := if Rlt_dec (Emax c) E then Emax c else E in
    let S := (A0 c + E2 * (A1 c + E2 * (A2 c + E2 * (A3 c + E2 * A4 c)))) / (1 + E2 * (B0 c + E2 * (B1 c + E2 * (B2 c + E2 * B3 c)))) in
    if Rlt_dec 700 (BG c / sqrt E2) then 0 else S / (E * exp (BG c / sqrt E)) * 1e-31.
(** boschhale.c:87-207, [E] in joules *)
Definition boschhale_sigma (r : reaction) (E : R) : R := let E := E / (1e3 * CONST_E) in sigma_of (sigma_fit r E) E.
Record vfit := VF { vBG : R; MRC2 : R; C1 : R; C2 : R; C3 : R; C4 : R; C5 : R; C6 : R; C7 : R }.
(** boschhale.c:222-274 *)
Definition sigmav_fit (r : reaction) : vfit :=
  match r with
  | DT_He4n => VF 34.3827 1124656 1.17302e-9 1.51361e-2 7.51886e-2 4.60643e-3 1.35e-2 (-1.0675e-4) 1.366e-5
  | DHe3_He4p => VF 68.7508 1124572 5.51036e-10 6.41918e-3 (-2.02896e-3) (-1.9108e-5) 1.35776e-4 0 0
  | DD_Tp => VF 31.3970 937814 5.65718e-12 3.41267e-3 1.99167e-3 0 1.0506e-5 0 0
  | DD_He3n => VF 31.3970 937814 5.4336e-12 5.85778e-3 7.68222e-3 0 (-2.964e-6) 0 0
  end.
(** boschhale.c:276-277 *)
Definition theta_of (c : vfit) (T : R) : R := T / (1 - T * (C2 c + T * (C4 c + T * C6 c)) / (1 + T * (C3 c + T * (C5 c + T * C7 c)))).
(** boschhale.c:218-285; the power of a non-positive number is the value [junk] *)
Definition boschhale_sigmav (junk : R) (r : reaction) (T : R) : R :=
  let c := sigmav_fit r in
  let theta := theta_of c T in
  let x := vBG c * vBG c / (4 * theta) in
  let xi := if Rlt_dec 0 x then Rpower x (1 / 3) else junk in
  C1 c * theta * sqrt (xi / (MRC2 c * T * T * T)) * exp (-3 * xi) * 1e-6.

(** ** afsi.c *)
(** afsi.c:315-381; [u1] [u2] set the gyro-angles, [u3] [u4] the emission direction.  The
    results are the squared relative speed and the two velocities of the products. *)
Definition vreact (m ppar pperp u : R) : vec := V (cos (2 * PI * u) * pperp / m) (sin (2 * PI * u) * pperp / m) (ppar / m).
Definition product_velocities (m1 m2 mp1 mp2 Q : R) (v1 v2 : vec) (u3 u4 : R) : vec * vec :=
  let vcm := V ((m1 * vx v1 + m2 * vx v2) / (m1 + m2)) ((m1 * vy v1 + m2 * vy v2) / (m1 + m2)) ((m1 * vz v1 + m2 * vz v2) / (m1 + m2)) in
  let ekin := Q + 0.5 * m1 * ((vx v1 - vx vcm) * (vx v1 - vx vcm) + (vy v1 - vy vcm) * (vy v1 - vy vcm) + (vz v1 - vz vcm) * (vz v1 - vz vcm))
                + 0.5 * m2 * ((vx v2 - vx vcm) * (vx v2 - vx vcm) + (vy v2 - vy vcm) * (vy v2 - vy vcm) + (vz v2 - vz vcm) * (vz v2 - vz vcm)) in
  let phi := 2 * PI * u3 in
  let theta := acos (2 * (u4 - 0.5)) in
  let vnorm := sqrt (2.0 * ekin / (mp2 * (1.0 + mp2 / mp1))) in
  let v2c := V (vnorm * sin theta * cos phi) (vnorm * sin theta * sin phi) (vnorm * cos theta) in
  (V (- (mp2 / mp1) * vx v2c + vx vcm) (- (mp2 / mp1) * vy v2c + vy vcm) (- (mp2 / mp1) * vz v2c + vz vcm),
   V (vx v2c + vx vcm) (vy v2c + vy vcm) (vz v2c + vz vcm)).
Definition vcom2 (v1 v2 : vec) : R := (vx v1 - vx v2) * (vx v1 - vx v2) + (vy v1 - vy v2) * (vy v1 - vy v2) + (vz v1 - vz v2) * (vz v1 - vz v2).
Inductive momspace := PPARPPERP | EKINXI.
(** afsi.c:366-380 *)
Definition product_coords (s : momspace) (m : R) (v : vec) : R * R :=
  match s with
  | PPARPPERP => (vz v * m, sqrt (vx v * vx v + vy v * vy v) * m)
  | EKINXI => (Ekin_gamma m (gamma_vnorm (norm v)), vz v / norm v)
  end.
(** afsi.c:161-164, with [n] samples in a cell of volume [vol] *)
Definition fusion_weight (r : reaction) (m1 m2 d1 d2 vc2 vol : R) (n : nat) : R :=
  let E := 0.5 * (m1 * m2) / (m1 + m2) * vc2 in
  d1 * d2 * sqrt vc2 * boschhale_sigma r E / INR n * vol.
(** afsi.c:91-118: axes of the product histograms; [None] is the early return *)
Definition prod_axes (h : histogram) : option (nat * nat * nat * nat * nat * momspace) :=
  let sp := if negb (an (h_ax h 0) =? 0)%Z then Some (0, 1, 2)%nat else if negb (an (h_ax h 3) =? 0)%Z then Some (3, 4, 1)%nat else None in
  let mo := if negb (an (h_ax h 5) =? 0)%Z then Some (5, 6, PPARPPERP)%nat else if negb (an (h_ax h 10) =? 0)%Z then Some (10, 11, EKINXI)%nat else None in
  match sp, mo with Some (a, b, c), Some (p, q, s) => Some (a, b, c, p, q, s) | _, _ => None end.
(** afsi.c:166-180 (and 182-196 for the other product) *)
Definition deposit (h : histogram) (c0 c1 c2 cp1 cp2 : nat) (i0 i1 i2 : Z) (b : hist) (x1 x2 w : R) : hist :=
  let ip1 := hbin (h_ax h cp1) x1 in
  let ip2 := hbin (h_ax h cp2) x2 in
  if ((0 <=? ip1) && (ip1 <? an (h_ax h cp1)) && (0 <=? ip2) && (ip2 <? an (h_ax h cp2)))%Z then
    addto b (i0 * h_stride h c0 + i1 * h_stride h c1 + i2 * h_stride h c2 + ip1 * h_stride h cp1 + ip2 * h_stride h cp2)%Z w
  else b.
(** afsi.c:435-449 *)
Definition beam_axes (h : histogram) : option (nat * nat * momspace) :=
  if negb (an (h_ax h 5) =? 0)%Z then Some (5, 6, PPARPPERP)%nat else if negb (an (h_ax h 10) =? 0)%Z then Some (10, 11, EKINXI)%nat else None.
(** afsi.c:457-461 *)
Definition beam_index (h : histogram) (cp1 cp2 : nat) (i0 i1 i2 ip1 ip2 : Z) : Z :=
  (i0 * h_stride h 0 + i1 * h_stride h 1 + i2 * h_stride h 2 + ip1 * h_stride h cp1 + ip2 * h_stride h cp2)%Z.
(** afsi.c:454-471: the bins of a cell in the order they are visited, and the running sums *)
Definition cell_bins (h : histogram) (b : hist) (cp1 cp2 : nat) (i0 i1 i2 : Z) : list R :=
  flat_map (fun ip1 => map (fun ip2 => b (beam_index h cp1 cp2 i0 i1 i2 (Z.of_nat ip1) (Z.of_nat ip2))) (seq 0 (Z.to_nat (an (h_ax h cp2)))))
    (seq 0 (Z.to_nat (an (h_ax h cp1)))).
Fixpoint running_sums (acc : R) (l : list R) : list R := match l with [] => [] | x :: l => (acc + x) :: running_sums (acc + x) l end.
Definition cell_density (vol : R) (bins : list R) : R := fold_left (fun a x => a + x / vol) bins 0.
(** afsi.c:477-480: first position above the scaled number *)
Fixpoint first_above (l : list R) (r : R) (j : nat) : option nat :=
  match l with [] => None | x :: l => if Rlt_dec r x then Some j else first_above l r (S j) end.
Definition sample_cell (bins : list R) (u : R) : option nat :=
  let c := running_sums 0 bins in first_above c (u * last c 0) 0.
(** afsi.c:481-499: the two bin numbers *)
Definition decode (s : momspace) (n1 n2 j : nat) : nat * nat :=
  match s with PPARPPERP => (j / n1, j mod n2)%nat | EKINXI => (j / n1, j / n2)%nat end.
Definition centre (a : axis) (k : nat) : R := amin a + (INR k + 0.5) * (amax a - amin a) / IZR (an a).
Definition beam_momentum (s : momspace) (mass : R) (a1 a2 : axis) (k : nat * nat) : R * R :=
  match s with
  | PPARPPERP => (centre a1 (fst k), centre a2 (snd k))
  | EKINXI =>
      let pitch := centre a2 (snd k) in
      let gamma := gamma_Ekin mass (centre a1 (fst k)) in
      let pnorm := sqrt (gamma * gamma - 1.0) * mass * CONST_C in
      (pitch * pnorm, sqrt (1.0 - pitch * pitch) * pnorm)
  end.
(** afsi.c:531-541 *)
Definition thermal_momentum (ti mass u1 u2 u3 u4 : R) : R * R :=
  let r3 := cos (0.5 * u3 * PI) in
  let E := - ti * (ln u1 + ln u2 * r3 * r3) in
  let r4 := 1.0 - 2 * u4 in
  (r4 * sqrt (2 * E * mass), sqrt ((1 - r4 * r4) * 2 * E * mass)).
