(** Model of the end-condition checks.
    Source: src/endcond.c:73-553, src/endcond.h:17-31.

    One marker slot at a time (the C loops treat slots independently).  Real
    numbers are exact.  The wall collision, the plasma temperature and the
    kinetic energy formulas are arbitrary functions. *)
From Coq Require Import Reals ZArith List Bool.
Import ListNotations.
Local Open Scope R_scope.

Definition Rltb (a b : R) : bool := if Rlt_dec a b then true else false.
Definition Reqb (a b : R) : bool := if Req_EM_T a b then true else false.

(** endcond.h:17-31 *)
Definition endcond_tlim   : Z := 1.
Definition endcond_emin   : Z := 2.
Definition endcond_therm  : Z := 4.
Definition endcond_wall   : Z := 8.
Definition endcond_rhomin : Z := 16.
Definition endcond_rhomax : Z := 32.
Definition endcond_polmax : Z := 64.
Definition endcond_tormax : Z := 128.
Definition endcond_cpumax : Z := 256.
Definition endcond_hybrid : Z := 512.
Definition endcond_neutr  : Z := 1024.
Definition endcond_ioniz  : Z := 2048.

(** simulate.h: the options the checks read. *)
Record opts := {
  active : Z;              (* endcond_active *)
  reverse_time : bool;
  sim_mode : Z;
  lim_simtime : R; max_mileage : R; min_ekin : R; min_thermal : R;
  max_rho : R; min_rho : R; max_tororb : R; max_polorb : R; max_cputime : R;
  torandpol : bool }.

(** particle.h: what the checks only read... *)
Record kin := {
  mileage : R; cputime : R; rho : R; theta : R; charge : R; mass : R;
  p_r : R; p_phi : R; p_z : R; B_r : R; B_phi : R; B_z : R;
  mu : R; ppar : R }.
(** ...and what they may change. *)
Record pos := mkpos { q_r : R; q_phi : R; q_z : R; q_time : R }.
Record st := mkst { at_ : pos; bounces : Z; endcond : Z; walltile : Z; running : bool; err : Z }.

Definition set_at q s := mkst q (bounces s) (endcond s) (walltile s) (running s) (err s).
Definition set_bounces b s := mkst (at_ s) b (endcond s) (walltile s) (running s) (err s).
Definition set_tile t s := mkst (at_ s) (bounces s) (endcond s) t (running s) (err s).
Definition set_err e s := mkst (at_ s) (bounces s) (endcond s) (walltile s) false e.
Definition zero_endcond s := mkst (at_ s) (bounces s) 0%Z (walltile s) (running s) (err s).

(** [if(b) { endcond |= m; running = 0; }] *)
Definition flag (b : bool) (m : Z) (s : st) : st :=
  if b then mkst (at_ s) (bounces s) (Z.lor (endcond s) m) (walltile s) false (err s) else s.

Definition on (o : opts) (m : Z) : bool := negb (Z.eqb (Z.land (active o) m) 0).

(** endcond.c:94-112 and 279-294 *)
Definition bounce (changed : bool) (b : Z) : Z :=
  if changed then
    if Z.ltb 0 b then (b * -1)%Z
    else if Z.ltb b 0 then (b * -1 + 1)%Z
    else (b + 1)%Z
  else b.

(** C conversion (int)x for in-range x: truncation towards zero. *)
Definition trunc (x : R) : Z := if Rlt_dec x 0 then (- Int_part (- x))%Z else Int_part x.
Definition CONST_2PI : R := 2 * PI.

(** endcond.c:114-128, 296-310, 452-466 *)
Definition check_tlim (o : opts) (kf : kin) (s : st) : st :=
  if on o endcond_tlim then
    let s1 := flag (negb (reverse_time o) && Rltb (lim_simtime o) (q_time (at_ s))) endcond_tlim s in
    let s2 := flag (reverse_time o && Rltb (q_time (at_ s)) (lim_simtime o)) endcond_tlim s1 in
    flag (Rltb (max_mileage o) (mileage kf)) endcond_tlim s2
  else s.

(** endcond.c:185-196, 348-359, 484-495 *)
Definition check_rho (o : opts) (kf : kin) (s : st) : st :=
  let s1 := flag (on o endcond_rhomax && Rltb (max_rho o) (rho kf)) endcond_rhomax s in
  flag (on o endcond_rhomin && Rltb (rho kf) (min_rho o)) endcond_rhomin s1.

(** endcond.c:198-223, 361-386, 497-517; [withb] whether bounces are counted
    (not for field lines). *)
Definition check_orbits (withb : bool) (o : opts) (kf : kin) (s : st) : st :=
  let tor := (on o endcond_tormax && Rltb (max_tororb o) (Rabs (q_phi (at_ s))))%bool in
  let pol := (on o endcond_polmax &&
     (if Rltb (max_polorb o) (Rabs (theta kf)) then true
      else withb && Z.leb (trunc (max_polorb o / CONST_2PI)) (bounces s - 1)))%bool in
  let m0 := if tor then Z.lor 0 endcond_tormax else 0%Z in
  let maxorb := if pol then Z.lor m0 endcond_polmax else m0 in
  if (torandpol o && negb (Z.eqb (Z.land maxorb endcond_tormax) 0)
        && negb (Z.eqb (Z.land maxorb endcond_polmax) 0))%bool
  then flag true maxorb s
  else if (negb (torandpol o) && negb (Z.eqb maxorb 0))%bool
  then flag true maxorb s
  else s.

(** endcond.c:225-231, 388-395, 519-526 *)
Definition check_cpu (o : opts) (kf : kin) (s : st) : st :=
  flag (on o endcond_cpumax && Rltb (max_cputime o) (cputime kf)) endcond_cpumax s.

Section Oracles.
(** wall_hit_wall(r1,phi1,z1,r2,phi2,z2,..,&w) *)
Context (wall_hit : R -> R -> R -> R -> R -> R -> Z * R).
(** plasma_eval_temp(&Ti, rho, r, phi, z, t, species 1): error and value *)
Context (eval_temp : R -> R -> R -> R -> R -> Z * R).
(** physlib_Ekin_pnorm(m,p), physlib_Ekin_ppar(m,mu,ppar,B) *)
Context (Ekin_pnorm : R -> R -> R) (Ekin_ppar : R -> R -> R -> R -> R).

Definition norm3 (x y z : R) : R := sqrt (x*x + y*y + z*z).

Definition wall_of (qi qf : pos) : Z * R :=
  wall_hit (q_r qi) (q_phi qi) (q_z qi) (q_r qf) (q_phi qf) (q_z qf).

(** endcond.c:130-149 (FO: the marker is moved to the wall) *)
Definition check_wall_fo (o : opts) (qi : pos) (s : st) : st :=
  if on o endcond_wall then
    let (tile, w) := wall_of qi (at_ s) in
    if Z.ltb 0 tile then
      let q := at_ s in
      let q' := mkpos (q_r qi + w * (q_r q - q_r qi)) (q_phi qi + w * (q_phi q - q_phi qi))
                      (q_z qi + w * (q_z q - q_z qi)) (q_time qi + w * (q_time q - q_time qi)) in
      flag true endcond_wall (set_tile tile (set_at q' s))
    else s
  else s.

(** endcond.c:312-325, 468-481 (GC, ML) *)
Definition check_wall (o : opts) (qi : pos) (s : st) : st :=
  if on o endcond_wall then
    let (tile, w) := wall_of qi (at_ s) in
    if Z.ltb 0 tile then flag true endcond_wall (set_tile tile s) else s
  else s.

(** endcond.c:151-183, 327-346 *)
Definition check_energy (o : opts) (kf : kin) (ekin : R) (s : st) : st :=
  if (on o endcond_emin || on o endcond_therm)%bool then
    let q := at_ s in
    let (e, T) := eval_temp (rho kf) (q_r q) (q_phi q) (q_z q) (q_time q) in
    let s1 := if Z.eqb e 0 then s else set_err e s in
    let Ti := if Z.eqb e 0 then T else 0 in
    let s2 := flag (on o endcond_emin && Rltb ekin (min_ekin o)) endcond_emin s1 in
    flag (on o endcond_therm && Rltb ekin (min_thermal o * Ti)) endcond_therm s2
  else s.

Definition clear_if_error (s : st) : st := if Z.eqb (err s) 0 then s else zero_endcond s.

Definition pdotB (k : kin) : R := p_r k * B_r k + p_phi k * B_phi k + p_z k * B_z k.

(** endcond.c:73-249 *)
Definition check_fo (o : opts) (ki : kin) (qi : pos) (kf : kin) (s : st) : st :=
  if running s then
    let s := set_bounces (bounce (Rltb (pdotB ki * pdotB kf) 0) (bounces s)) s in
    let s := check_tlim o kf s in
    let s := check_wall_fo o qi s in
    let s := check_energy o kf (Ekin_pnorm (mass kf) (norm3 (p_r kf) (p_phi kf) (p_z kf))) s in
    let s := check_rho o kf s in
    let s := check_orbits true o kf s in
    let s := check_cpu o kf s in
    let s := flag (on o endcond_neutr && (negb (Reqb (charge ki) 0) && Reqb (charge kf) 0)) endcond_neutr s in
    let s := flag (on o endcond_ioniz && (Reqb (charge ki) 0 && negb (Reqb (charge kf) 0))) endcond_ioniz s in
    clear_if_error s
  else s.

(** endcond.c:262-422 *)
Definition check_gc (o : opts) (ki : kin) (qi : pos) (kf : kin) (s : st) : st :=
  if running s then
    let s := set_bounces (bounce (Rltb (ppar ki * ppar kf) 0) (bounces s)) s in
    let s := check_tlim o kf s in
    let s := check_wall o qi s in
    let s := check_energy o kf (Ekin_ppar (mass kf) (mu kf) (ppar kf)
                                  (norm3 (B_r kf) (B_phi kf) (B_z kf))) s in
    let s := check_rho o kf s in
    let s := check_orbits true o kf s in
    let s := check_cpu o kf s in
    let s := flag (Z.eqb (sim_mode o) 3 && Rltb (max_rho o) (rho kf)) endcond_hybrid s in
    clear_if_error s
  else s.

(** endcond.c:435-528 *)
Definition check_ml (o : opts) (qi : pos) (kf : kin) (s : st) : st :=
  if running s then
    let s := check_tlim o kf s in
    let s := check_wall o qi s in
    let s := check_rho o kf s in
    let s := check_orbits false o kf s in
    check_cpu o kf s
  else s.
End Oracles.

(** endcond.c:538-553: the numbers written, in order. *)
Definition parse_table : list (Z * Z) :=
  [ (endcond_tlim, 1); (endcond_emin, 2); (endcond_therm, 3); (endcond_wall, 4);
    (endcond_rhomin, 5); (endcond_rhomax, 6); (endcond_polmax, 7); (endcond_tormax, 8);
    (endcond_cpumax, 9); (endcond_hybrid, 10); (endcond_neutr, 11); (endcond_ioniz, 12) ]%Z.
Definition endcond_parse (e : Z) : list Z :=
  flat_map (fun mc => if Z.eqb (Z.land e (fst mc)) 0 then [] else [snd mc]) parse_table.
