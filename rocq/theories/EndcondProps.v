(** C09, C10: end conditions.
    Specification in [EndcondProofs]: [cond] the twelve criteria, [bitno] their
    documented bit, [enabled] chosen by the user, [met] the criterion itself,
    [outcome P s s'] the check left exactly the old bits plus those in P, and
    stopped the marker iff some criterion in P holds. *)
From Coq Require Import Reals ZArith List Bool Lia Lra Sorted.
From Verif Require Import EndcondModel EndcondProofs.
Import ListNotations.
Local Open Scope R_scope.

(** Gyro-orbit markers.  [q] is the impact point when the wall was hit. *)
Theorem endcond_fo_iff :
  forall wall_hit eval_temp Ekin_pnorm o ki qi kf s,
  running s = true -> err s = 0%Z ->
  exists q, stopped_at wall_hit o qi (at_ s) q /\
    ((enabled o Emin \/ enabled o Therm -> temp_err eval_temp o kf q = 0%Z) ->
     let s' := check_fo wall_hit eval_temp Ekin_pnorm o ki qi kf s in
     outcome (fun c => fo_kind c /\
        met o ki kf (q_time (at_ s)) q (fo_ekin Ekin_pnorm kf) (temp_at eval_temp kf q)
                (0 < step_tile wall_hit qi (at_ s))%Z (Some (fo_bounces ki kf (bounces s))) c) s s' /\
     bounces s' = fo_bounces ki kf (bounces s) /\ at_ s' = q /\
     (hits wall_hit o qi (at_ s) -> walltile s' = step_tile wall_hit qi (at_ s)) /\
     (~ hits wall_hit o qi (at_ s) -> walltile s' = walltile s)).
Proof. intros wh et E. exact (fo_spec wh et E (fun _ _ _ _ => 0)). Qed.
Print Assumptions endcond_fo_iff.

(** Guiding-center markers. *)
Theorem endcond_gc_iff :
  forall wall_hit eval_temp Ekin_ppar o ki qi kf s,
  running s = true -> err s = 0%Z ->
  (enabled o Emin \/ enabled o Therm -> temp_err eval_temp o kf (at_ s) = 0%Z) ->
  let s' := check_gc wall_hit eval_temp Ekin_ppar o ki qi kf s in
  outcome (fun c => gc_kind c /\
        met o ki kf (q_time (at_ s)) (at_ s) (gc_ekin Ekin_ppar kf) (temp_at eval_temp kf (at_ s))
                (0 < step_tile wall_hit qi (at_ s))%Z (Some (gc_bounces ki kf (bounces s))) c) s s' /\
  bounces s' = gc_bounces ki kf (bounces s) /\ at_ s' = at_ s /\
  (hits wall_hit o qi (at_ s) -> walltile s' = step_tile wall_hit qi (at_ s)) /\
  (~ hits wall_hit o qi (at_ s) -> walltile s' = walltile s).
Proof. intros wh et E. exact (gc_spec wh et (fun _ _ => 0) E). Qed.
Print Assumptions endcond_gc_iff.

(** Field lines (energy criteria do not apply). *)
Theorem endcond_ml_iff :
  forall wall_hit o ki qi kf s,
  running s = true ->
  let s' := check_ml wall_hit o qi kf s in
  outcome (fun c => ml_kind c /\
        met o ki kf (q_time (at_ s)) (at_ s) 0 0 (0 < step_tile wall_hit qi (at_ s))%Z None c) s s' /\
  bounces s' = bounces s /\ at_ s' = at_ s /\
  (hits wall_hit o qi (at_ s) -> walltile s' = step_tile wall_hit qi (at_ s)) /\
  (~ hits wall_hit o qi (at_ s) -> walltile s' = walltile s).
Proof. intros wh. exact (ml_spec wh (fun _ _ _ _ _ => (0%Z, 0)) (fun _ _ => 0) (fun _ _ _ _ => 0)). Qed.
Print Assumptions endcond_ml_iff.

(** A failing temperature evaluation stops the marker with the error and with
    no end condition. *)
Theorem endcond_fo_error :
  forall wall_hit eval_temp Ekin_pnorm o ki qi kf s,
  running s = true -> (enabled o Emin \/ enabled o Therm) ->
  forall q, stopped_at wall_hit o qi (at_ s) q -> temp_err eval_temp o kf q <> 0%Z ->
  let s' := check_fo wall_hit eval_temp Ekin_pnorm o ki qi kf s in
  running s' = false /\ err s' = temp_err eval_temp o kf q /\ endcond s' = 0%Z.
Proof. intros wh et E. exact (fo_error wh et E (fun _ _ _ _ => 0)). Qed.
Print Assumptions endcond_fo_error.

Theorem endcond_gc_error :
  forall wall_hit eval_temp Ekin_ppar o ki qi kf s,
  running s = true -> (enabled o Emin \/ enabled o Therm) ->
  temp_err eval_temp o kf (at_ s) <> 0%Z ->
  let s' := check_gc wall_hit eval_temp Ekin_ppar o ki qi kf s in
  running s' = false /\ err s' = temp_err eval_temp o kf (at_ s) /\ endcond s' = 0%Z.
Proof. intros wh et E. exact (gc_error wh et (fun _ _ => 0) E). Qed.
Print Assumptions endcond_gc_error.

Theorem endcond_stopped_untouched :
  forall wall_hit eval_temp Ekin_pnorm Ekin_ppar o ki qi kf s, running s = false ->
  check_fo wall_hit eval_temp Ekin_pnorm o ki qi kf s = s /\
  check_gc wall_hit eval_temp Ekin_ppar o ki qi kf s = s /\
  check_ml wall_hit o qi kf s = s.
Proof. exact not_running. Qed.
Print Assumptions endcond_stopped_untouched.

(** Bounce counter after any history of steps: with k pitch sign changes it is
    0, 1, -1, 2, -2, 3, ... *)
Theorem endcond_bounce_count : forall changes : list bool,
  fold_left (fun b c => bounce c b) changes 0%Z =
  let k := count_true changes in
  if Nat.eqb k 0 then 0%Z
  else if Nat.odd k then Z.of_nat ((k + 1) / 2) else (- Z.of_nat (k / 2))%Z.
Proof. exact bounce_history. Qed.
Print Assumptions endcond_bounce_count.

(** C10 *)
Theorem endcond_parse_exact : forall e,
  (forall c, In (bitno c + 1)%Z (endcond_parse e) <-> Z.testbit e (bitno c) = true) /\
  (forall n, In n (endcond_parse e) -> exists c, n = (bitno c + 1)%Z) /\
  StronglySorted Z.lt (endcond_parse e) /\ (length (endcond_parse e) <= 12)%nat.
Proof.
  intros e. split; [|split].
  - exact (parse_in e).
  - exact (parse_only e).
  - exact (parse_sorted e).
Qed.
Print Assumptions endcond_parse_exact.

Theorem endcond_parse_injective : forall e e',
  (0 <= e < 4096)%Z -> (0 <= e' < 4096)%Z -> endcond_parse e = endcond_parse e' -> e = e'.
Proof. exact parse_inj. Qed.
Print Assumptions endcond_parse_injective.

(** ** Examples *)
Definition k0 : kin := {| mileage := 1; cputime := 0; rho := 2; theta := 0; charge := 1; mass := 1;
  p_r := 1; p_phi := 0; p_z := 0; B_r := 1; B_phi := 0; B_z := 0; mu := 0; ppar := 1 |}.
Definition o0 : opts := {| active := 41; reverse_time := false; sim_mode := 1; lim_simtime := 10;
  max_mileage := 5; min_ekin := 0; min_thermal := 0; max_rho := 1; min_rho := 0; max_tororb := 100;
  max_polorb := 100; max_cputime := 100; torandpol := false |}.
Definition q0 : pos := mkpos 1 0 0 0.
Definition q1 : pos := mkpos 2 0 0 1.
Definition s0 : st := mkst q1 0 0 0 true 0.
(** A step that crosses rho = 1 and hits tile 7 half-way. *)
Definition hit7 (_ _ _ _ _ _ : R) : Z * R := (7%Z, 1/2).
Example fo_ex : let s' := check_fo hit7 (fun _ _ _ _ _ => (0%Z, 1)) (fun _ _ => 1) o0 k0 q0 k0 s0 in
  running s' = false /\ endcond s' = 40%Z /\ walltile s' = 7%Z /\ at_ s' = along q0 q1 (1/2).
Proof.
  assert (E0 : set_bounces (bounce (Rltb (pdotB k0 * pdotB k0) 0) (bounces s0)) s0 = s0).
  { unfold Rltb. destruct (Rlt_dec _ _) as [L|L]; [exfalso; unfold pdotB in L; cbn in L; lra|reflexivity]. }
  assert (E1 : check_tlim o0 k0 s0 = s0).
  { unfold check_tlim, Rltb. cbn.
    destruct (Rlt_dec 10 1); [exfalso; lra|]. destruct (Rlt_dec 5 1); [exfalso; lra|]. reflexivity. }
  set (s2 := mkst (along q0 q1 (1/2)) 0 8 7 false 0).
  assert (E2 : check_wall_fo hit7 o0 q0 s0 = s2) by reflexivity.
  set (s3 := mkst (along q0 q1 (1/2)) 0 40 7 false 0).
  assert (E3 : check_rho o0 k0 s2 = s3).
  { unfold check_rho, Rltb. cbn. destruct (Rlt_dec 1 2); [reflexivity|exfalso; lra]. }
  assert (E : check_fo hit7 (fun _ _ _ _ _ => (0%Z, 1)) (fun _ _ => 1) o0 k0 q0 k0 s0 = s3).
  { unfold check_fo. change (running s0) with true. cbv iota. rewrite E0, E1, E2.
    change (check_energy _ o0 k0 _ s2) with s2. rewrite E3. reflexivity. }
  rewrite E. cbn. auto.
Qed.
Example gc_ex : running s0 = true /\ err s0 = 0%Z /\
  (enabled o0 Emin \/ enabled o0 Therm -> temp_err (fun _ _ _ _ _ => (0%Z, 1)) o0 k0 q1 = 0%Z) /\
  met o0 k0 k0 1 q1 1 1 True None Rhomax /\ ~ met o0 k0 k0 1 q1 1 1 True None Tlim.
Proof.
  repeat split; auto; cbn; try lra. intros [_ [[_ H]|[[H _]|H]]]; cbn in H; try lra; discriminate.
Qed.
Example err_ex : temp_err (fun _ _ _ _ _ => (5%Z, 1)) o0 k0 q1 <> 0%Z /\
  enabled {| active := 2; reverse_time := false; sim_mode := 1; lim_simtime := 10;
  max_mileage := 5; min_ekin := 0; min_thermal := 0; max_rho := 1; min_rho := 0; max_tororb := 100;
  max_polorb := 100; max_cputime := 100; torandpol := false |} Emin.
Proof. split; [discriminate|reflexivity]. Qed.
Example parse_ex : endcond_parse 40 = [4; 6]%Z.
Proof. reflexivity. Qed.
