(** Marker state as stored in the queue, in MPI buffers and in the output. *)
From Coq Require Import ZArith.

(** src/particle.h:40-84: struct particle_state.  [X] is the type of C reals
    (the code moved here never computes with them). *)
Record pstate (X : Type) : Type := mkps {
  s_r : X;
  s_phi : X;
  s_z : X;
  s_ppar : X;
  s_mu : X;
  s_zeta : X;
  s_rprt : X;
  s_phiprt : X;
  s_zprt : X;
  s_p_r : X;
  s_p_phi : X;
  s_p_z : X;
  s_mass : X;
  s_charge : X;
  s_anum : Z;
  s_znum : Z;
  s_weight : X;
  s_time : X;
  s_mileage : X;
  s_cputime : X;
  s_rho : X;
  s_theta : X;
  s_id : Z;
  s_endcond : Z;
  s_walltile : Z;
  s_B_r : X;
  s_B_phi : X;
  s_B_z : X;
  s_B_r_dr : X;
  s_B_phi_dr : X;
  s_B_z_dr : X;
  s_B_r_dphi : X;
  s_B_phi_dphi : X;
  s_B_z_dphi : X;
  s_B_r_dz : X;
  s_B_phi_dz : X;
  s_B_z_dz : X;
  s_err : Z
}.
Arguments s_r {X} _.
Arguments s_phi {X} _.
Arguments s_z {X} _.
Arguments s_ppar {X} _.
Arguments s_mu {X} _.
Arguments s_zeta {X} _.
Arguments s_rprt {X} _.
Arguments s_phiprt {X} _.
Arguments s_zprt {X} _.
Arguments s_p_r {X} _.
Arguments s_p_phi {X} _.
Arguments s_p_z {X} _.
Arguments s_mass {X} _.
Arguments s_charge {X} _.
Arguments s_anum {X} _.
Arguments s_znum {X} _.
Arguments s_weight {X} _.
Arguments s_time {X} _.
Arguments s_mileage {X} _.
Arguments s_cputime {X} _.
Arguments s_rho {X} _.
Arguments s_theta {X} _.
Arguments s_id {X} _.
Arguments s_endcond {X} _.
Arguments s_walltile {X} _.
Arguments s_B_r {X} _.
Arguments s_B_phi {X} _.
Arguments s_B_z {X} _.
Arguments s_B_r_dr {X} _.
Arguments s_B_phi_dr {X} _.
Arguments s_B_z_dr {X} _.
Arguments s_B_r_dphi {X} _.
Arguments s_B_phi_dphi {X} _.
Arguments s_B_z_dphi {X} _.
Arguments s_B_r_dz {X} _.
Arguments s_B_phi_dz {X} _.
Arguments s_B_z_dz {X} _.
Arguments s_err {X} _.
Arguments mkps {X}.
