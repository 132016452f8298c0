(** Model of src/physlib.h and the constants of src/consts.h it uses. *)
From Coq Require Import Reals.
From Verif Require Import Vec.
Local Open Scope R_scope.

(** consts.h:23.  CONST_C2 (consts.h:26) is the double nearest to the square of
    CONST_C; here it is the square, see [c2_literal] in PhysProps *)
Definition CONST_C : R := 299792458.
Definition CONST_C2 : R := CONST_C * CONST_C.
Definition CONST_C2_literal : Z := 89875517873681760.
(** consts.h:29 *)
Definition CONST_C3 : R := CONST_C * CONST_C * CONST_C.
Definition CONST_C3_literal : Z := 26944002417373989539335912.
(** consts.h:47 *)
Definition CONST_E0 : R := 8.8542e-12.

(** physlib.h:21-22 *)
Definition gamma_vnorm (v : R) : R := sqrt (1 / ((1 - v / CONST_C) * (1 + v / CONST_C))).
(** physlib.h:33-34 *)
Definition vnorm_gamma (g : R) : R := sqrt (1 - 1 / (g * g)) * CONST_C.
(** physlib.h:46-47 *)
Definition gamma_pnorm (m p : R) : R := sqrt (1 + (p * p) / (m * m * CONST_C2)).
(** physlib.h:61-63 *)
Definition gamma_vpar (m mu vpar B : R) : R :=
  sqrt ((1 + (2 * mu * B) / (m * CONST_C2)) / ((1 - vpar / CONST_C) * (1 + vpar / CONST_C))).
(** physlib.h:77-79 *)
Definition gamma_ppar (m mu ppar B : R) : R := sqrt (1 + 2 * mu * B / (m * CONST_C2) + ppar * ppar / (m * m * CONST_C2)).
(** physlib.h:91 *)
Definition Ekin_gamma (m g : R) : R := (g - 1) * m * CONST_C2.
(** physlib.h:103 *)
Definition gamma_Ekin (m e : R) : R := e / (m * CONST_C2) + 1.
(** physlib.h:115-116 *)
Definition Ekin_pnorm (m p : R) : R := (gamma_pnorm m p - 1) * m * CONST_C2.
(** physlib.h:128-129 *)
Definition Ekin_ppar (m mu ppar B : R) : R := (gamma_ppar m mu ppar B - 1) * m * CONST_C2.
(** physlib.h:141-142 *)
Definition vnorm_pnorm (m p : R) : R := p / sqrt (m * m + (p * p) / CONST_C2).
(** physlib.h:154 *)
Definition pnorm_vnorm (m v : R) : R := m * v * gamma_vnorm v.
(** physlib.h:167 *)
Definition gc_ppar (p xi : R) : R := p * xi.
(** physlib.h:182-183 *)
Definition gc_mu (m p xi B : R) : R := p * p * (1 - xi * xi) / (2 * B * m).
(** physlib.h:198-199 *)
Definition gc_p (m mu ppar B : R) : R := m * CONST_C * sqrt (gamma_ppar m mu ppar B ^ 2 - 1).
(** physlib.h:214-215 *)
Definition gc_xi (m mu ppar B : R) : R := ppar / gc_p m mu ppar B.
(** physlib.h:228-229 *)
Definition gyrolength_p (q : R) (p B : vec) : R := dot p B / (Rabs q * dot B B).
(** physlib.h:245-247 *)
Definition gyrolength_ppar (m q mu ppar B : R) : R := sqrt (2 * m * mu * gamma_ppar m mu ppar B / B) / Rabs q.
(** physlib.h:261-262 *)
Definition gyrofreq_pnorm (m q p B : R) : R := Rabs q * B / (m * gamma_pnorm m p).
(** physlib.h:278-279 *)
Definition gyrofreq_ppar (m q mu ppar B : R) : R := Rabs q * B / (m * gamma_ppar m mu ppar B).
(** physlib.h:295-296 *)
Definition ptoroid_fo (q Rr pphi psi : R) : R := Rr * pphi + q * psi.
(** physlib.h:314-315 *)
Definition ptoroid_gc (q Rr ppar psi B Bphi : R) : R := ppar * Rr * (Bphi / B) + q * psi.
(** physlib.h:329 and 343 *)
Definition vperp_gc (v vpar : R) : R := sqrt (v ^ 2 - vpar ^ 2).
Definition pperp_gc (p ppar : R) : R := sqrt (p ^ 2 - ppar ^ 2).
(** physlib.h:360-361 *)
Definition ppar_Ekin (m ekin mu B : R) : R :=
  sqrt ((gamma_Ekin m ekin * gamma_Ekin m ekin - 1) * m * m * CONST_C2 - 2 * m * mu * B).
(** physlib.h:376 *)
Definition vperp_mu (m mu B : R) : R := sqrt (2 * mu * B / m).
(** physlib.h:396-397 *)
Definition ppar_mu (m mu B q gyrof : R) : R :=
  m * CONST_C * sqrt ((q * B / (gyrof * m)) * (q * B / (gyrof * m)) - 2 * mu * B / (m * CONST_C2) - 1).
(** physlib.h:417 *)
Definition ppar_pphi (B Rr Bphi pphi q psi : R) : R := B / (Rr * Bphi) * (pphi - q * psi).
(** physlib.h:426-427 *)
Definition ald_force_chartime (q m B g : R) : R :=
  (q * q * q * q) * (B * B) / (6 * PI * CONST_E0 * g * (m * m * m) * CONST_C3).
