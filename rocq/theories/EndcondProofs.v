From Coq Require Import Reals ZArith List Bool Lia Lra.
From Verif Require Import EndcondModel.
Import ListNotations.
Local Open Scope R_scope.

(** ** Specification *)
Inductive cond := Tlim | Emin | Therm | Wall | Rhomin | Rhomax | Polmax | Tormax
                | Cpumax | Hybrid | Neutr | Ioniz.
Definition bitno (c : cond) : Z :=
  match c with Tlim => 0 | Emin => 1 | Therm => 2 | Wall => 3 | Rhomin => 4 | Rhomax => 5
  | Polmax => 6 | Tormax => 7 | Cpumax => 8 | Hybrid => 9 | Neutr => 10 | Ioniz => 11 end%Z.
(** The criterion is selected by the user. *)
Definition enabled (o : opts) (c : cond) : Prop := Z.testbit (active o) (bitno c) = true.

(** Orbit limits: either one alone, or both together if so requested. *)
Definition orbit_crit (o : opts) (tor pol : Prop) (c : cond) : Prop :=
  match c with
  | Tormax => enabled o Tormax /\ tor /\ (torandpol o = true -> enabled o Polmax /\ pol)
  | Polmax => enabled o Polmax /\ pol /\ (torandpol o = true -> enabled o Tormax /\ tor)
  | _ => False
  end.
Definition time_over (o : opts) (t miles : R) : Prop :=
  (reverse_time o = false /\ lim_simtime o < t) \/
  (reverse_time o = true /\ t < lim_simtime o) \/ max_mileage o < miles.

(** [T]: temperature at the marker, [hit]: the step crossed the wall,
    [q]: marker position used for the remaining criteria, [nb]: bounce counter *)
Definition met (o : opts) (ki kf : kin) (tm : R) (q : pos) (ekin T : R) (hit : Prop)
    (nb : option Z) (c : cond) : Prop :=
  match c with
  | Tlim => enabled o Tlim /\ time_over o tm (mileage kf)
  | Emin => enabled o Emin /\ ekin < min_ekin o
  | Therm => enabled o Therm /\ ekin < min_thermal o * T
  | Wall => enabled o Wall /\ hit
  | Rhomin => enabled o Rhomin /\ rho kf < min_rho o
  | Rhomax => enabled o Rhomax /\ max_rho o < rho kf
  | Cpumax => enabled o Cpumax /\ max_cputime o < cputime kf
  | Polmax | Tormax =>
      orbit_crit o (max_tororb o < Rabs (q_phi q))
        (max_polorb o < Rabs (theta kf) \/
         match nb with Some n => (trunc (max_polorb o / (2 * PI)) <= n - 1)%Z | None => False end) c
  | Neutr => enabled o Neutr /\ charge ki <> 0 /\ charge kf = 0
  | Ioniz => enabled o Ioniz /\ charge ki = 0 /\ charge kf <> 0
  | Hybrid => sim_mode o = 3%Z /\ max_rho o < rho kf
  end.

(** ** Bits *)
Lemma pow_bit (k i : Z) : (0 <= k)%Z -> Z.testbit (2 ^ k) i = Z.eqb k i.
Proof. intros. apply Z.pow2_bits_eqb; auto. Qed.

Lemma land_pow_zero (a k : Z) : (0 <= k)%Z -> Z.eqb (Z.land a (2 ^ k)) 0 = negb (Z.testbit a k).
Proof.
  intros Hk. destruct (Z.testbit a k) eqn:E; cbn.
  - apply Z.eqb_neq. intros H. assert (Q : Z.testbit (Z.land a (2^k)) k = true).
    { rewrite Z.land_spec, E, pow_bit by auto. now rewrite Z.eqb_refl. }
    rewrite H, Z.bits_0 in Q. discriminate.
  - apply Z.eqb_eq. apply Z.bits_inj'. intros n Hn. rewrite Z.land_spec, pow_bit, Z.bits_0 by auto.
    destruct (Z.eqb_spec k n); [subst; now rewrite E|apply andb_false_r].
Qed.

Definition mask (c : cond) : Z :=
  match c with Tlim => endcond_tlim | Emin => endcond_emin | Therm => endcond_therm
  | Wall => endcond_wall | Rhomin => endcond_rhomin | Rhomax => endcond_rhomax
  | Polmax => endcond_polmax | Tormax => endcond_tormax | Cpumax => endcond_cpumax
  | Hybrid => endcond_hybrid | Neutr => endcond_neutr | Ioniz => endcond_ioniz end.
Lemma mask_pow c : mask c = (2 ^ bitno c)%Z.
Proof. destruct c; reflexivity. Qed.
Lemma bitno_nonneg c : (0 <= bitno c)%Z.
Proof. destruct c; cbn; lia. Qed.
Lemma bitno_inj c d : bitno c = bitno d -> c = d.
Proof. destruct c, d; cbn; intros; auto; discriminate. Qed.

Lemma on_enabled o c : on o (mask c) = true <-> enabled o c.
Proof.
  unfold on, enabled. rewrite mask_pow, land_pow_zero, negb_involutive by apply bitno_nonneg. tauto.
Qed.
Lemma mask_bit c i : Z.testbit (mask c) i = Z.eqb (bitno c) i.
Proof. rewrite mask_pow. apply pow_bit, bitno_nonneg. Qed.

Lemma Rltb_true a b : Rltb a b = true <-> a < b.
Proof. unfold Rltb. destruct (Rlt_dec a b); split; intros; auto; try discriminate; contradiction. Qed.
Lemma Reqb_true a b : Reqb a b = true <-> a = b.
Proof. unfold Reqb. destruct (Req_EM_T a b); split; intros; auto; try discriminate; contradiction. Qed.

(** What a step does to bits, running flag and the rest: bits in P are set. *)
Definition sets (P : cond -> Prop) (s s' : st) : Prop :=
  (forall i, Z.testbit (endcond s') i = true <->
     Z.testbit (endcond s) i = true \/ exists c, bitno c = i /\ P c) /\
  (running s' = false <-> running s = false \/ exists c, P c) /\
  bounces s' = bounces s /\ err s' = err s.

Lemma sets_trans P Q s s' s'' : sets P s s' -> sets Q s' s'' -> sets (fun c => P c \/ Q c) s s''.
Proof.
  intros (A1 & A2 & A3 & A4) (B1 & B2 & B3 & B4). split; [|split; [|split; congruence]].
  - intros i. rewrite B1, A1. split.
    + intros [[H|(c & E & H)]|(c & E & H)]; eauto.
    + intros [H|(c & E & [H|H])]; eauto.
  - rewrite B2, A2. split.
    + intros [[H|(c & H)]|(c & H)]; eauto.
    + intros [H|(c & [H|H])]; eauto.
Qed.
Lemma sets_ext P Q s s' : (forall c, P c <-> Q c) -> sets P s s' -> sets Q s s'.
Proof.
  intros E (A1 & A2 & A3 & A4). split; [|split; [|auto]].
  - intros i. rewrite A1. firstorder.
  - rewrite A2. firstorder.
Qed.
Lemma sets_none P s s' : (forall c, ~ P c) -> endcond s' = endcond s -> running s' = running s ->
  bounces s' = bounces s -> err s' = err s -> sets P s s'.
Proof.
  intros N E1 E2 E3 E4. split; [|split; [|auto]].
  - intros i. rewrite E1. firstorder.
  - rewrite E2. firstorder.
Qed.

Lemma flag_sets b c s P : (b = true <-> P) -> sets (fun d => d = c /\ P) s (flag b (mask c) s).
Proof.
  intros E. unfold flag. destruct b.
  - assert (P) by tauto. split; [|split; [|auto]]; cbn.
    + intros i. rewrite Z.lor_spec, orb_true_iff, mask_bit, Z.eqb_eq. split.
      * intros [H1|H1]; eauto.
      * intros [H1|(d & H1 & -> & _)]; auto.
    + split; auto. intros _. right. eauto.
  - apply sets_none; auto. intros d (_ & HP). apply E in HP. discriminate.
Qed.
Lemma flag_pos b m s : at_ (flag b m s) = at_ s.
Proof. unfold flag. now destruct b. Qed.
Lemma flag_tile b m s : walltile (flag b m s) = walltile s.
Proof. unfold flag. now destruct b. Qed.

Ltac bsimp := rewrite ?andb_true_iff, ?orb_true_iff, ?negb_true_iff, ?Rltb_true, ?Reqb_true.

Lemma tlim_sets o kf s :
  sets (fun d => d = Tlim /\ enabled o Tlim /\ time_over o (q_time (at_ s)) (mileage kf)) s
       (check_tlim o kf s) /\ at_ (check_tlim o kf s) = at_ s /\
  walltile (check_tlim o kf s) = walltile s.
Proof.
  unfold check_tlim. destruct (on o endcond_tlim) eqn:E.
  - assert (En : enabled o Tlim) by (now apply on_enabled).
    split; [|rewrite !flag_pos, !flag_tile; auto].
    set (b1 := (negb _ && _)%bool). set (b2 := (_ && Rltb _ (lim_simtime o))%bool). set (b3 := Rltb (max_mileage o) _).
    pose proof (flag_sets b1 Tlim s (b1 = true) ltac:(tauto)) as S1. cbn [mask] in S1.
    pose proof (flag_sets b2 Tlim (flag b1 endcond_tlim s) (b2 = true) ltac:(tauto)) as S2. cbn [mask] in S2.
    pose proof (flag_sets b3 Tlim (flag b2 endcond_tlim (flag b1 endcond_tlim s)) (b3 = true) ltac:(tauto)) as S3.
    cbn [mask] in S3.
    pose proof (sets_trans _ _ _ _ _ (sets_trans _ _ _ _ _ S1 S2) S3) as S.
    revert S. apply sets_ext. intros c. unfold time_over, b1, b2, b3. bsimp. tauto.
  - split; auto. apply sets_none; auto. intros c (_ & En & _). apply (on_enabled o Tlim) in En.
    cbn in En. congruence.
Qed.

Lemma rho_sets o kf s :
  sets (fun d => (d = Rhomax /\ enabled o Rhomax /\ max_rho o < rho kf) \/
                 (d = Rhomin /\ enabled o Rhomin /\ rho kf < min_rho o)) s (check_rho o kf s) /\
  at_ (check_rho o kf s) = at_ s /\ walltile (check_rho o kf s) = walltile s.
Proof.
  split; [|unfold check_rho; rewrite !flag_pos, !flag_tile; auto].
  unfold check_rho. apply sets_trans with (s' := flag (on o endcond_rhomax && Rltb (max_rho o) (rho kf)) endcond_rhomax s).
  - apply (flag_sets _ Rhomax). bsimp. rewrite (on_enabled o Rhomax). tauto.
  - apply (flag_sets _ Rhomin). bsimp. rewrite (on_enabled o Rhomin). tauto.
Qed.

Lemma cpu_sets o kf s :
  sets (fun d => d = Cpumax /\ enabled o Cpumax /\ max_cputime o < cputime kf) s (check_cpu o kf s) /\
  at_ (check_cpu o kf s) = at_ s /\ walltile (check_cpu o kf s) = walltile s.
Proof.
  split; [|unfold check_cpu; rewrite !flag_pos, !flag_tile; auto].
  apply (flag_sets _ Cpumax). bsimp. rewrite (on_enabled o Cpumax). tauto.
Qed.

Lemma orbit_sets (withb : bool) o kf s :
  sets (orbit_crit o (max_tororb o < Rabs (q_phi (at_ s)))
         (max_polorb o < Rabs (theta kf) \/
          (withb = true /\ (trunc (max_polorb o / (2 * PI)%R) <= bounces s - 1)%Z)))
       s (check_orbits withb o kf s) /\
  at_ (check_orbits withb o kf s) = at_ s /\ walltile (check_orbits withb o kf s) = walltile s.
Proof.
  unfold check_orbits.
  set (tor := (on o endcond_tormax && _)%bool). set (pol := (on o endcond_polmax && _)%bool).
  assert (Ht : tor = true <-> enabled o Tormax /\ max_tororb o < Rabs (q_phi (at_ s))).
  { unfold tor. bsimp. rewrite (on_enabled o Tormax). tauto. }
  assert (Hp : pol = true <-> enabled o Polmax /\ (max_polorb o < Rabs (theta kf) \/
          (withb = true /\ (trunc (max_polorb o / (2 * PI)%R) <= bounces s - 1)%Z))).
  { unfold pol. bsimp. rewrite (on_enabled o Polmax).
    rewrite <- (Rltb_true (max_polorb o)). unfold CONST_2PI.
    destruct (Rltb (max_polorb o) (Rabs (theta kf))); [intuition|].
    rewrite andb_true_iff, Z.leb_le. destruct withb; intuition discriminate. }
  set (T := max_tororb o < _) in *.
  set (P := max_polorb o < Rabs (theta kf) \/
          (withb = true /\ (trunc (max_polorb o / (2 * PI)%R) <= bounces s - 1)%Z)) in *.
  clearbody tor pol T P.
  assert (K : forall m, (forall i, Z.testbit m i = true <-> exists c, bitno c = i /\ orbit_crit o T P c) ->
     (exists c, orbit_crit o T P c) -> sets (orbit_crit o T P) s (flag true m s)).
  { intros m Hm He. split; [|split; [|auto]].
    - intros i. cbn. rewrite Z.lor_spec, orb_true_iff, Hm. tauto.
    - cbn. tauto. }
  assert (B1 : forall i c, bitno c = i -> Z.testbit (mask c) i = true).
  { intros i c <-. rewrite mask_bit. apply Z.eqb_refl. }
  destruct (torandpol o) eqn:TP; destruct tor; destruct pol; cbn;
    (split; [|auto]);
    try (apply sets_none; auto; intros c; unfold orbit_crit; rewrite TP; destruct c;
         intuition discriminate).
  - apply K.
    + intros i. change (Z.testbit _ i) with (Z.testbit (Z.lor (mask Polmax) (mask Tormax)) i).
      rewrite Z.lor_spec, orb_true_iff, !mask_bit, !Z.eqb_eq. split.
      * intros [H|H]; eexists; (split; [exact H|]); unfold orbit_crit; tauto.
      * intros (c & H & HC). destruct c; try contradiction; auto.
    + exists Tormax. unfold orbit_crit. tauto.
  - apply K.
    + intros i. change (Z.testbit _ i) with (Z.testbit (Z.lor (mask Polmax) (mask Tormax)) i).
      rewrite Z.lor_spec, orb_true_iff, !mask_bit, !Z.eqb_eq. split.
      * intros [H|H]; eexists; (split; [exact H|]); unfold orbit_crit; rewrite TP; intuition discriminate.
      * intros (c & H & HC). destruct c; try contradiction; auto.
    + exists Tormax. unfold orbit_crit. rewrite TP. intuition discriminate.
  - apply K.
    + intros i. change (Z.testbit _ i) with (Z.testbit (mask Tormax) i).
      rewrite !mask_bit, !Z.eqb_eq. split.
      * intros H; eexists; (split; [exact H|]); unfold orbit_crit; rewrite TP; intuition discriminate.
      * intros (c & H & HC). unfold orbit_crit in HC. destruct c; try contradiction; auto; intuition discriminate.
    + exists Tormax. unfold orbit_crit. rewrite TP. intuition discriminate.
  - apply K.
    + intros i. change (Z.testbit _ i) with (Z.testbit (mask Polmax) i).
      rewrite !mask_bit, !Z.eqb_eq. split.
      * intros H; eexists; (split; [exact H|]); unfold orbit_crit; rewrite TP; intuition discriminate.
      * intros (c & H & HC). unfold orbit_crit in HC. destruct c; try contradiction; auto; intuition discriminate.
    + exists Polmax. unfold orbit_crit. rewrite TP. intuition discriminate.
Qed.

Lemma orbit_sets_b (withb : bool) o kf s :
  sets (orbit_crit o (max_tororb o < Rabs (q_phi (at_ s)))
         (max_polorb o < Rabs (theta kf) \/
          match (if withb then Some (bounces s) else None) with
          | Some n => (trunc (max_polorb o / (2 * PI)%R) <= n - 1)%Z | None => False end))
       s (check_orbits withb o kf s) /\
  at_ (check_orbits withb o kf s) = at_ s /\ walltile (check_orbits withb o kf s) = walltile s.
Proof.
  destruct (orbit_sets withb o kf s) as (A & B). split; auto. revert A. apply sets_ext.
  intros c. destruct withb; destruct c; cbn [orbit_crit]; intuition discriminate.
Qed.

Section O.
Context (wall_hit : R -> R -> R -> R -> R -> R -> Z * R).
Context (eval_temp : R -> R -> R -> R -> R -> Z * R).
Context (Ekin_pnorm : R -> R -> R) (Ekin_ppar : R -> R -> R -> R -> R).
Notation check_fo := (check_fo wall_hit eval_temp Ekin_pnorm).
Notation check_gc := (check_gc wall_hit eval_temp Ekin_ppar).
Notation check_ml := (check_ml wall_hit).

Definition step_tile (qi qf : pos) : Z :=
  fst (wall_hit (q_r qi) (q_phi qi) (q_z qi) (q_r qf) (q_phi qf) (q_z qf)).
Definition step_w (qi qf : pos) : R :=
  snd (wall_hit (q_r qi) (q_phi qi) (q_z qi) (q_r qf) (q_phi qf) (q_z qf)).
(** Point at fraction [w] of the step. *)
Definition along (qi qf : pos) (w : R) : pos :=
  mkpos (q_r qi + w * (q_r qf - q_r qi)) (q_phi qi + w * (q_phi qf - q_phi qi))
        (q_z qi + w * (q_z qf - q_z qi)) (q_time qi + w * (q_time qf - q_time qi)).
Definition hits (o : opts) (qi qf : pos) : Prop := enabled o Wall /\ (0 < step_tile qi qf)%Z.

Lemma wall_sets o qi s :
  sets (fun d => d = Wall /\ enabled o Wall /\ (0 < step_tile qi (at_ s))%Z) s (check_wall wall_hit o qi s) /\
  at_ (check_wall wall_hit o qi s) = at_ s /\
  (hits o qi (at_ s) -> walltile (check_wall wall_hit o qi s) = step_tile qi (at_ s)) /\
  (~ hits o qi (at_ s) -> walltile (check_wall wall_hit o qi s) = walltile s).
Proof.
  unfold check_wall, hits, step_tile. fold (wall_of wall_hit qi (at_ s)).
  destruct (on o endcond_wall) eqn:E.
  - apply (on_enabled o Wall) in E. destruct (wall_of wall_hit qi (at_ s)) as [tile w]. cbn [fst].
    destruct (Z.ltb_spec 0 tile).
    + split; [|split; [reflexivity|split; [reflexivity|intros; tauto]]].
      destruct (flag_sets true Wall (set_tile tile s) True ltac:(tauto)) as (A1 & A2 & A3 & A4).
      split; [|split; [|auto]].
      * intros i. rewrite A1. cbn. firstorder.
      * rewrite A2. cbn. firstorder.
    + split; [|split; [reflexivity|split; [intros; lia|reflexivity]]].
      apply sets_none; auto. intros; lia.
  - assert (~ enabled o Wall) by (rewrite <- (on_enabled o Wall); cbn; congruence).
    split; [|split; [reflexivity|split; [tauto|reflexivity]]].
    apply sets_none; auto. tauto.
Qed.

Lemma wall_fo_sets o qi s :
  sets (fun d => d = Wall /\ enabled o Wall /\ (0 < step_tile qi (at_ s))%Z) s (check_wall_fo wall_hit o qi s) /\
  (hits o qi (at_ s) -> walltile (check_wall_fo wall_hit o qi s) = step_tile qi (at_ s) /\
     at_ (check_wall_fo wall_hit o qi s) = along qi (at_ s) (step_w qi (at_ s))) /\
  (~ hits o qi (at_ s) -> walltile (check_wall_fo wall_hit o qi s) = walltile s /\
     at_ (check_wall_fo wall_hit o qi s) = at_ s).
Proof.
  unfold check_wall_fo, hits, step_tile, step_w. fold (wall_of wall_hit qi (at_ s)).
  destruct (on o endcond_wall) eqn:E.
  - apply (on_enabled o Wall) in E. destruct (wall_of wall_hit qi (at_ s)) as [tile w]. cbn [fst snd].
    destruct (Z.ltb_spec 0 tile).
    + split; [|split; [auto|intros; tauto]].
      match goal with |- sets _ _ (flag true _ ?x) =>
        destruct (flag_sets true Wall x True ltac:(tauto)) as (A1 & A2 & A3 & A4) end.
      split; [|split; [|auto]].
      * intros i. rewrite A1. cbn. firstorder.
      * rewrite A2. cbn. firstorder.
    + split; [|split; [intros; lia|auto]].
      apply sets_none; auto. intros; lia.
  - assert (~ enabled o Wall) by (rewrite <- (on_enabled o Wall); cbn; congruence).
    split; [|split; [tauto|auto]].
    apply sets_none; auto. tauto.
Qed.

Definition temp_err (o : opts) (kf : kin) (q : pos) : Z :=
  fst (eval_temp (rho kf) (q_r q) (q_phi q) (q_z q) (q_time q)).
Definition temp_at (kf : kin) (q : pos) : R :=
  snd (eval_temp (rho kf) (q_r q) (q_phi q) (q_z q) (q_time q)).

Lemma energy_sets o kf ekin s :
  (enabled o Emin \/ enabled o Therm -> temp_err o kf (at_ s) = 0%Z) ->
  sets (fun d => (d = Emin /\ enabled o Emin /\ ekin < min_ekin o) \/
                 (d = Therm /\ enabled o Therm /\ ekin < min_thermal o * temp_at kf (at_ s))) s
       (check_energy eval_temp o kf ekin s) /\
  at_ (check_energy eval_temp o kf ekin s) = at_ s /\
  walltile (check_energy eval_temp o kf ekin s) = walltile s.
Proof.
  unfold check_energy, temp_err, temp_at. intros H.
  destruct (on o endcond_emin || on o endcond_therm)%bool eqn:E.
  - rewrite orb_true_iff, (on_enabled o Emin), (on_enabled o Therm) in E. specialize (H E).
    destruct (eval_temp _ _ _ _ _) as [e T]. cbn [fst snd] in *. subst e. cbn [Z.eqb].
    split; [|rewrite !flag_pos, !flag_tile; auto].
    apply sets_trans with (s' := flag (on o endcond_emin && Rltb ekin (min_ekin o)) endcond_emin s).
    + apply (flag_sets _ Emin). bsimp. rewrite (on_enabled o Emin). tauto.
    + apply (flag_sets _ Therm). bsimp. rewrite (on_enabled o Therm). tauto.
  - apply orb_false_iff in E. destruct E as [E1 E2]. split; [|auto].
    apply sets_none; auto. intros c [(_ & A & _)|(_ & A & _)].
    + apply (on_enabled o Emin) in A. cbn in A. congruence.
    + apply (on_enabled o Therm) in A. cbn in A. congruence.
Qed.

Lemma energy_err o kf ekin s :
  (enabled o Emin \/ enabled o Therm) -> temp_err o kf (at_ s) <> 0%Z ->
  err (check_energy eval_temp o kf ekin s) = temp_err o kf (at_ s) /\
  running (check_energy eval_temp o kf ekin s) = false.
Proof.
  unfold check_energy, temp_err. intros A H.
  replace (on o endcond_emin || on o endcond_therm)%bool with true.
  - destruct (eval_temp _ _ _ _ _) as [e T]. cbn [fst] in *. apply Z.eqb_neq in H. rewrite H.
    unfold flag. destruct (_ && Rltb ekin (min_ekin o))%bool; destruct (_ && Rltb ekin _)%bool; auto.
  - symmetry. rewrite orb_true_iff, (on_enabled o Emin), (on_enabled o Therm). auto.
Qed.

(** Effect of the whole check. *)
Definition outcome (P : cond -> Prop) (s s' : st) : Prop :=
  (forall c, Z.testbit (endcond s') (bitno c) = true <-> Z.testbit (endcond s) (bitno c) = true \/ P c) /\
  (forall i, (forall c, bitno c <> i) -> Z.testbit (endcond s') i = Z.testbit (endcond s) i) /\
  (running s' = false <-> exists c, P c) /\ err s' = err s.

Lemma sets_outcome P s s' : running s = true -> sets P s s' -> outcome P s s'.
Proof.
  intros Hr (A1 & A2 & A3 & A4). split; [|split; [|split; auto]].
  - intros c. rewrite A1. split; intros [H|H]; auto.
    + destruct H as (d & E & HP). apply bitno_inj in E. subst; auto.
    + right; eauto.
  - intros i Hi. destruct (Z.testbit (endcond s') i) eqn:E1; destruct (Z.testbit (endcond s) i) eqn:E2; auto.
    + apply A1 in E1. destruct E1 as [E1|(c & E1 & _)]; [congruence|exfalso; eapply Hi; eauto].
    + assert (Z.testbit (endcond s') i = true) by (apply A1; auto). congruence.
  - rewrite A2. split; intros H; auto. destruct H as [H|H]; auto. congruence.
Qed.

Definition fo_ekin kf := Ekin_pnorm (mass kf) (sqrt (p_r kf * p_r kf + p_phi kf * p_phi kf + p_z kf * p_z kf)).
Definition gc_ekin kf := Ekin_ppar (mass kf) (mu kf) (ppar kf)
   (sqrt (B_r kf * B_r kf + B_phi kf * B_phi kf + B_z kf * B_z kf)).

(** Position after the wall check: the impact point if the wall was hit. *)
Definition stopped_at (o : opts) (qi qf q : pos) : Prop :=
  (hits o qi qf /\ q = along qi qf (step_w qi qf)) \/ (~ hits o qi qf /\ q = qf).

Lemma hits_dec o qi qf : hits o qi qf \/ ~ hits o qi qf.
Proof.
  unfold hits. destruct (on o endcond_wall) eqn:E.
  - apply (on_enabled o Wall) in E. destruct (Z_lt_dec 0 (step_tile qi qf)); tauto.
  - right. intros [A _]. apply (on_enabled o Wall) in A. cbn in A. congruence.
Qed.

Definition fo_bounces ki kf b := bounce (Rltb (pdotB ki * pdotB kf) 0) b.
Definition gc_bounces ki kf b := bounce (Rltb (ppar ki * ppar kf) 0) b.

(** Criteria that a given marker representation checks. *)
Definition fo_kind (c : cond) : Prop := c <> Hybrid.
Definition gc_kind (c : cond) : Prop := c <> Neutr /\ c <> Ioniz.
Definition ml_kind (c : cond) : Prop :=
  c <> Neutr /\ c <> Ioniz /\ c <> Hybrid /\ c <> Emin /\ c <> Therm.

Lemma outcome_ext P Q s s' : (forall c, P c <-> Q c) -> outcome P s s' -> outcome Q s s'.
Proof.
  intros E (A1 & A2 & A3 & A4). split; [|split; [|split; auto]]; auto.
  - intros c. rewrite A1, E. tauto.
  - rewrite A3. split; intros (c & H); exists c; now apply E.
Qed.

Lemma clear_noerr s : err s = 0%Z -> clear_if_error s = s.
Proof. unfold clear_if_error. intros ->. reflexivity. Qed.

Lemma sets_err P s s' : sets P s s' -> err s' = err s.
Proof. intros (_ & _ & _ & H). exact H. Qed.
Lemma sets_bounces P s s' : sets P s s' -> bounces s' = bounces s.
Proof. intros (_ & _ & H & _). exact H. Qed.

(** Disjunctions of [c = d /\ A] for concrete [c], [d]. *)
Ltac neqs := repeat split; discriminate.
Ltac dig H :=
  lazymatch type of H with
  | _ \/ _ => destruct H as [H|H]; dig H
  | False => destruct H
  | _ => first [exfalso; let E := fresh in destruct H as [E _]; discriminate E
               | split; [neqs|exact (proj2 H)] | split; [neqs|exact H]]
  end.
Ltac pick H := solve [exact H | split; [reflexivity|exact H] | left; pick H | right; pick H].
Ltac pick2 H :=
  let K := fresh in destruct H as [K H];
  first [exfalso; unfold not in K; decompose [and] K; solve [eauto] | pick H].

Lemma fo_spec o ki qi kf s :
  running s = true -> err s = 0%Z ->
  exists q, stopped_at o qi (at_ s) q /\
    ((enabled o Emin \/ enabled o Therm -> temp_err o kf q = 0%Z) ->
     let s' := check_fo o ki qi kf s in
     outcome (fun c => fo_kind c /\
        met o ki kf (q_time (at_ s)) q (fo_ekin kf) (temp_at kf q)
                (0 < step_tile qi (at_ s))%Z (Some (fo_bounces ki kf (bounces s))) c) s s' /\
     bounces s' = fo_bounces ki kf (bounces s) /\ at_ s' = q /\
     (hits o qi (at_ s) -> walltile s' = step_tile qi (at_ s)) /\
     (~ hits o qi (at_ s) -> walltile s' = walltile s)).
Proof.
  intros Hr He.
  set (s0 := set_bounces (fo_bounces ki kf (bounces s)) s).
  destruct (tlim_sets o kf s0) as (T1 & T2 & T3). set (s1 := check_tlim o kf s0) in *.
  destruct (wall_fo_sets o qi s1) as (W1 & W2 & W3). set (s2 := check_wall_fo wall_hit o qi s1) in *.
  exists (at_ s2). split.
  { unfold stopped_at. rewrite T2 in W2, W3. cbn [at_ set_bounces s0] in W2, W3.
    destruct (hits_dec o qi (at_ s)) as [H|H]; [left|right]; (split; [auto|]);
      [now apply W2|now apply W3]. }
  intros Ht. cbv zeta.
  destruct (energy_sets o kf (fo_ekin kf) s2 Ht) as (E1 & E2 & E3).
  set (s3 := check_energy eval_temp o kf (fo_ekin kf) s2) in *.
  destruct (rho_sets o kf s3) as (R1 & R2 & R3). set (s4 := check_rho o kf s3) in *.
  destruct (orbit_sets_b true o kf s4) as (O1 & O2 & O3). set (s5 := check_orbits true o kf s4) in *.
  destruct (cpu_sets o kf s5) as (C1 & C2 & C3). set (s6 := check_cpu o kf s5) in *.
  set (b7 := (on o endcond_neutr && (negb (Reqb (charge ki) 0) && Reqb (charge kf) 0))%bool).
  set (b8 := (on o endcond_ioniz && (Reqb (charge ki) 0 && negb (Reqb (charge kf) 0)))%bool).
  assert (N0 : forall x y, negb (Reqb x y) = true <-> x <> y).
  { intros x y. rewrite negb_true_iff, <- not_true_iff_false, Reqb_true. tauto. }
  assert (H7 : b7 = true <-> enabled o Neutr /\ charge ki <> 0 /\ charge kf = 0).
  { unfold b7. rewrite !andb_true_iff, N0, Reqb_true, (on_enabled o Neutr). tauto. }
  assert (H8 : b8 = true <-> enabled o Ioniz /\ charge ki = 0 /\ charge kf <> 0).
  { unfold b8. rewrite !andb_true_iff, N0, Reqb_true, (on_enabled o Ioniz). tauto. }
  pose proof (flag_sets b7 Neutr s6 _ H7) as F7. cbn [mask] in F7. set (s7 := flag b7 endcond_neutr s6) in *.
  pose proof (flag_sets b8 Ioniz s7 _ H8) as F8. cbn [mask] in F8. set (s8 := flag b8 endcond_ioniz s7) in *.
  assert (B4 : bounces s4 = fo_bounces ki kf (bounces s)).
  { now rewrite (sets_bounces _ _ _ R1), (sets_bounces _ _ _ E1), (sets_bounces _ _ _ W1), (sets_bounces _ _ _ T1). }
  assert (P4 : at_ s4 = at_ s2) by congruence.
  rewrite P4, B4 in O1. rewrite T2 in W1.
  pose proof (sets_trans _ _ _ _ _ (sets_trans _ _ _ _ _ (sets_trans _ _ _ _ _ (sets_trans _ _ _ _ _
    (sets_trans _ _ _ _ _ (sets_trans _ _ _ _ _ (sets_trans _ _ _ _ _ T1 W1) E1) R1) O1) C1) F7) F8) as S.
  assert (K : check_fo o ki qi kf s = s8).
  { assert (Q : check_fo o ki qi kf s = clear_if_error s8).
    { unfold EndcondModel.check_fo. rewrite Hr. reflexivity. }
    rewrite Q. apply clear_noerr. rewrite (sets_err _ _ _ S). exact He. }
  rewrite K.
  assert (Hr0 : running s0 = true) by exact Hr.
  split; [|split; [|split; [|split]]].
  - pose proof (sets_outcome _ _ _ Hr0 S) as OC. change (at_ s0) with (at_ s) in OC.
    apply outcome_ext with (2 := OC).
    intros c. unfold fo_kind, met. destruct c; cbn [orbit_crit]; (split; intros H; [dig H|pick2 H]).
  - rewrite (sets_bounces _ _ _ S). reflexivity.
  - unfold s8, s7. rewrite !flag_pos. congruence.
  - intros H. unfold s8, s7. rewrite !flag_tile, C3, O3, R3, E3.
    rewrite T2 in W2. now apply W2.
  - intros H. unfold s8, s7. rewrite !flag_tile, C3, O3, R3, E3.
    rewrite T2 in W3. destruct (W3 H) as [-> _]. now rewrite T3.
Qed.

Lemma gc_spec o ki qi kf s :
  running s = true -> err s = 0%Z ->
  (enabled o Emin \/ enabled o Therm -> temp_err o kf (at_ s) = 0%Z) ->
  let s' := check_gc o ki qi kf s in
  outcome (fun c => gc_kind c /\
        met o ki kf (q_time (at_ s)) (at_ s) (gc_ekin kf) (temp_at kf (at_ s))
                (0 < step_tile qi (at_ s))%Z (Some (gc_bounces ki kf (bounces s))) c) s s' /\
  bounces s' = gc_bounces ki kf (bounces s) /\ at_ s' = at_ s /\
  (hits o qi (at_ s) -> walltile s' = step_tile qi (at_ s)) /\
  (~ hits o qi (at_ s) -> walltile s' = walltile s).
Proof.
  intros Hr He Ht. cbv zeta.
  set (s0 := set_bounces (gc_bounces ki kf (bounces s)) s).
  destruct (tlim_sets o kf s0) as (T1 & T2 & T3). set (s1 := check_tlim o kf s0) in *.
  destruct (wall_sets o qi s1) as (W1 & WA & W2 & W3). set (s2 := check_wall wall_hit o qi s1) in *.
  assert (P2 : at_ s2 = at_ s) by (rewrite WA, T2; reflexivity).
  rewrite <- P2 in Ht.
  destruct (energy_sets o kf (gc_ekin kf) s2 Ht) as (E1 & E2 & E3). rewrite P2 in E1.
  set (s3 := check_energy eval_temp o kf (gc_ekin kf) s2) in *.
  destruct (rho_sets o kf s3) as (R1 & R2 & R3). set (s4 := check_rho o kf s3) in *.
  destruct (orbit_sets_b true o kf s4) as (O1 & O2 & O3). set (s5 := check_orbits true o kf s4) in *.
  destruct (cpu_sets o kf s5) as (C1 & C2 & C3). set (s6 := check_cpu o kf s5) in *.
  set (b7 := (Z.eqb (sim_mode o) 3 && Rltb (max_rho o) (rho kf))%bool).
  assert (H7 : b7 = true <-> sim_mode o = 3%Z /\ max_rho o < rho kf).
  { unfold b7. rewrite !andb_true_iff, Z.eqb_eq, Rltb_true. tauto. }
  pose proof (flag_sets b7 Hybrid s6 _ H7) as F7. cbn [mask] in F7. set (s7 := flag b7 endcond_hybrid s6) in *.
  assert (B4 : bounces s4 = gc_bounces ki kf (bounces s)).
  { now rewrite (sets_bounces _ _ _ R1), (sets_bounces _ _ _ E1), (sets_bounces _ _ _ W1), (sets_bounces _ _ _ T1). }
  assert (P4 : at_ s4 = at_ s) by congruence.
  rewrite P4, B4 in O1. rewrite T2 in W1.
  pose proof (sets_trans _ _ _ _ _ (sets_trans _ _ _ _ _ (sets_trans _ _ _ _ _
    (sets_trans _ _ _ _ _ (sets_trans _ _ _ _ _ (sets_trans _ _ _ _ _ T1 W1) E1) R1) O1) C1) F7) as S.
  assert (K : check_gc o ki qi kf s = s7).
  { assert (Q : check_gc o ki qi kf s = clear_if_error s7).
    { unfold EndcondModel.check_gc. rewrite Hr. reflexivity. }
    rewrite Q. apply clear_noerr. rewrite (sets_err _ _ _ S). exact He. }
  rewrite K.
  assert (Hr0 : running s0 = true) by exact Hr.
  split; [|split; [|split; [|split]]].
  - pose proof (sets_outcome _ _ _ Hr0 S) as OC. change (at_ s0) with (at_ s) in OC.
    apply outcome_ext with (2 := OC).
    intros c. unfold gc_kind, met. destruct c; cbn [orbit_crit]; (split; intros H; [dig H|pick2 H]).
  - rewrite (sets_bounces _ _ _ S). reflexivity.
  - unfold s7. rewrite !flag_pos. congruence.
  - intros H. unfold s7. rewrite !flag_tile, C3, O3, R3, E3.
    rewrite T2 in W2. now apply W2.
  - intros H. unfold s7. rewrite !flag_tile, C3, O3, R3, E3.
    rewrite T2 in W3. rewrite (W3 H). now rewrite T3.
Qed.

Lemma ml_spec o ki qi kf s :
  running s = true ->
  let s' := check_ml o qi kf s in
  outcome (fun c => ml_kind c /\
        met o ki kf (q_time (at_ s)) (at_ s) 0 0 (0 < step_tile qi (at_ s))%Z None c) s s' /\
  bounces s' = bounces s /\ at_ s' = at_ s /\
  (hits o qi (at_ s) -> walltile s' = step_tile qi (at_ s)) /\
  (~ hits o qi (at_ s) -> walltile s' = walltile s).
Proof.
  intros Hr. cbv zeta.
  destruct (tlim_sets o kf s) as (T1 & T2 & T3). set (s1 := check_tlim o kf s) in *.
  destruct (wall_sets o qi s1) as (W1 & WA & W2 & W3). set (s2 := check_wall wall_hit o qi s1) in *.
  assert (P2 : at_ s2 = at_ s) by (rewrite WA, T2; reflexivity).
  destruct (rho_sets o kf s2) as (R1 & R2 & R3). set (s4 := check_rho o kf s2) in *.
  destruct (orbit_sets_b false o kf s4) as (O1 & O2 & O3). set (s5 := check_orbits false o kf s4) in *.
  destruct (cpu_sets o kf s5) as (C1 & C2 & C3). set (s6 := check_cpu o kf s5) in *.
  assert (P4 : at_ s4 = at_ s) by congruence.
  rewrite P4 in O1. rewrite T2 in W1.
  pose proof (sets_trans _ _ _ _ _ (sets_trans _ _ _ _ _ (sets_trans _ _ _ _ _
    (sets_trans _ _ _ _ _ T1 W1) R1) O1) C1) as S.
  assert (K : check_ml o qi kf s = s6).
  { unfold EndcondModel.check_ml. rewrite Hr. reflexivity. }
  rewrite K.
  split; [|split; [|split; [|split]]].
  - pose proof (sets_outcome _ _ _ Hr S) as OC.
    apply outcome_ext with (2 := OC).
    intros c. unfold ml_kind, met. destruct c; cbn [orbit_crit]; (split; intros H; [dig H|pick2 H]).
  - exact (sets_bounces _ _ _ S).
  - congruence.
  - intros H. rewrite C3, O3, R3. rewrite T2 in W2. now apply W2.
  - intros H. rewrite C3, O3, R3. rewrite T2 in W3. rewrite (W3 H). now rewrite T3.
Qed.

(** Errors: no end condition is reported together with an error. *)
Lemma running_false_flag b m s : running s = false -> running (flag b m s) = false.
Proof. unfold flag. now destruct b. Qed.
Lemma err_flag b m s : err (flag b m s) = err s.
Proof. unfold flag. now destruct b. Qed.

Lemma err_mono_rest o kf s : err (check_orbits true o kf (check_rho o kf s)) = err s /\
   (running s = false -> running (check_orbits true o kf (check_rho o kf s)) = false).
Proof.
  destruct (rho_sets o kf s) as ((_ & A2 & _ & A4) & _).
  destruct (orbit_sets true o kf (check_rho o kf s)) as ((_ & B2 & _ & B4) & _).
  rewrite B4, A4. split; auto. intros. apply B2. left. apply A2. auto.
Qed.

Lemma fo_error o ki qi kf s :
  running s = true -> (enabled o Emin \/ enabled o Therm) ->
  forall q, stopped_at o qi (at_ s) q -> temp_err o kf q <> 0%Z ->
  let s' := check_fo o ki qi kf s in
  running s' = false /\ err s' = temp_err o kf q /\ endcond s' = 0%Z.
Proof.
  intros Hr En q Hq Te. cbv zeta.
  set (s0 := set_bounces (fo_bounces ki kf (bounces s)) s).
  destruct (tlim_sets o kf s0) as (T1 & T2 & T3). set (s1 := check_tlim o kf s0) in *.
  destruct (wall_fo_sets o qi s1) as (W1 & W2 & W3). set (s2 := check_wall_fo wall_hit o qi s1) in *.
  assert (Q2 : at_ s2 = q).
  { rewrite T2 in W2, W3. destruct Hq as [[H ->]|[H ->]]; [now apply W2|now apply W3]. }
  rewrite <- Q2 in *.
  destruct (energy_err o kf (fo_ekin kf) s2 En Te) as [E1 E2].
  set (s3 := check_energy eval_temp o kf (fo_ekin kf) s2) in *.
  destruct (err_mono_rest o kf s3) as [R1 R2].
  unfold EndcondModel.check_fo. rewrite Hr. fold (fo_bounces ki kf (bounces s)). fold s0 s1 s2.
  unfold norm3. fold (fo_ekin kf). fold s3.
  unfold check_cpu, clear_if_error. rewrite !err_flag, R1, E1.
  apply Z.eqb_neq in Te. rewrite Te. cbn. rewrite !err_flag, R1, E1.
  split; [|split; auto]. apply running_false_flag, running_false_flag, running_false_flag. auto.
Qed.

Lemma gc_error o ki qi kf s :
  running s = true -> (enabled o Emin \/ enabled o Therm) ->
  temp_err o kf (at_ s) <> 0%Z ->
  let s' := check_gc o ki qi kf s in
  running s' = false /\ err s' = temp_err o kf (at_ s) /\ endcond s' = 0%Z.
Proof.
  intros Hr En Te. cbv zeta.
  set (s0 := set_bounces (gc_bounces ki kf (bounces s)) s).
  destruct (tlim_sets o kf s0) as (T1 & T2 & T3). set (s1 := check_tlim o kf s0) in *.
  destruct (wall_sets o qi s1) as (W1 & WA & W2 & W3). set (s2 := check_wall wall_hit o qi s1) in *.
  assert (P2 : at_ s2 = at_ s) by (rewrite WA, T2; reflexivity).
  rewrite <- P2 in Te |- *.
  destruct (energy_err o kf (gc_ekin kf) s2 En Te) as [E1 E2].
  set (s3 := check_energy eval_temp o kf (gc_ekin kf) s2) in *.
  destruct (err_mono_rest o kf s3) as [R1 R2].
  unfold EndcondModel.check_gc. rewrite Hr. fold (gc_bounces ki kf (bounces s)). fold s0 s1 s2.
  unfold norm3. fold (gc_ekin kf). fold s3.
  unfold check_cpu, clear_if_error. rewrite !err_flag, R1, E1.
  pose proof Te as Te'. apply Z.eqb_neq in Te'. rewrite Te'. cbn. rewrite !err_flag, R1, E1.
  split; [|split; auto]. apply running_false_flag, running_false_flag. auto.
Qed.

Lemma not_running o ki qi kf s : running s = false ->
  check_fo o ki qi kf s = s /\ check_gc o ki qi kf s = s /\ check_ml o qi kf s = s.
Proof.
  unfold EndcondModel.check_fo, EndcondModel.check_gc, EndcondModel.check_ml. intros ->. auto.
Qed.
End O.

(** ** Bounce counter: after k sign changes it encodes k. *)
Definition bounce_code (k : nat) : Z :=
  if Nat.eqb k 0 then 0%Z
  else if Nat.odd k then Z.of_nat ((k + 1) / 2) else (- Z.of_nat (k / 2))%Z.

Lemma bounce_false b : bounce false b = b.
Proof. reflexivity. Qed.

Lemma bounce_code_odd j : bounce_code (2 * j + 1) = Z.of_nat (j + 1).
Proof.
  unfold bounce_code. destruct (Nat.eqb_spec (2 * j + 1) 0); [lia|].
  rewrite Nat.add_1_r, Nat.odd_succ, Nat.even_mul. cbn [Nat.even orb].
  replace (S (2 * j) + 1)%nat with ((j + 1) * 2)%nat by lia. now rewrite Nat.div_mul by lia.
Qed.
Lemma bounce_code_even j : (0 < j)%nat -> bounce_code (2 * j) = (- Z.of_nat j)%Z.
Proof.
  intros Hj. unfold bounce_code. destruct (Nat.eqb_spec (2 * j) 0); [lia|].
  rewrite <- Nat.negb_even, Nat.even_mul. cbn [Nat.even orb negb].
  rewrite (Nat.mul_comm 2), Nat.div_mul by lia. reflexivity.
Qed.

Lemma bounce_code_S k : bounce true (bounce_code k) = bounce_code (S k).
Proof.
  destruct (Nat.Even_or_Odd k) as [[j ->]|[j ->]].
  - destruct j as [|j]; [reflexivity|]. rewrite bounce_code_even by lia.
    replace (S (2 * S j)) with (2 * S j + 1)%nat by lia. rewrite bounce_code_odd.
    unfold bounce. destruct (Z.ltb_spec 0 (- Z.of_nat (S j))); [lia|].
    destruct (Z.ltb_spec (- Z.of_nat (S j)) 0); lia.
  - rewrite bounce_code_odd. replace (S (2 * j + 1)) with (2 * (j + 1))%nat by lia.
    rewrite bounce_code_even by lia.
    unfold bounce. destruct (Z.ltb_spec 0 (Z.of_nat (j + 1))); lia.
Qed.

Fixpoint count_true (l : list bool) : nat :=
  match l with [] => 0 | true :: r => S (count_true r) | false :: r => count_true r end.

Lemma bounce_history l : fold_left (fun b c => bounce c b) l 0%Z = bounce_code (count_true l).
Proof.
  assert (G : forall l k, fold_left (fun b c => bounce c b) l (bounce_code k) = bounce_code (k + count_true l)).
  { induction l0 as [|[] r IH]; intros k; cbn [fold_left count_true].
    - now rewrite Nat.add_0_r.
    - rewrite bounce_code_S, IH. f_equal. lia.
    - rewrite bounce_false, IH. reflexivity. }
  exact (G l 0%nat).
Qed.

(** ** Decoding *)
Definition all_conds := [Tlim; Emin; Therm; Wall; Rhomin; Rhomax; Polmax; Tormax; Cpumax; Hybrid; Neutr; Ioniz].
Lemma parse_alt e : endcond_parse e = flat_map (fun c => if Z.testbit e (bitno c) then [(bitno c + 1)%Z] else []) all_conds.
Proof.
  assert (H : parse_table = map (fun c => (mask c, (bitno c + 1)%Z)) all_conds) by reflexivity.
  unfold endcond_parse. rewrite H. rewrite flat_map_concat_map, map_map, flat_map_concat_map. f_equal.
  apply map_ext. intros c. cbn [fst snd]. rewrite mask_pow, land_pow_zero by apply bitno_nonneg.
  now destruct (Z.testbit e (bitno c)).
Qed.

Lemma all_conds_in c : In c all_conds.
Proof. destruct c; cbn; tauto. Qed.

Lemma parse_in e c : In (bitno c + 1)%Z (endcond_parse e) <-> Z.testbit e (bitno c) = true.
Proof.
  rewrite parse_alt, in_flat_map. split.
  - intros (d & _ & H). destruct (Z.testbit e (bitno d)) eqn:E; [|easy].
    destruct H as [H|[]]. assert (d = c) by (apply bitno_inj; lia). now subst.
  - intros H. exists c. split; [apply all_conds_in|]. rewrite H. now left.
Qed.
Lemma parse_only e n : In n (endcond_parse e) -> exists c, n = (bitno c + 1)%Z.
Proof.
  rewrite parse_alt, in_flat_map. intros (d & _ & H). destruct (Z.testbit e (bitno d)); [|easy].
  destruct H as [<-|[]]. eauto.
Qed.

Require Import Sorted.
Lemma parse_sorted e : StronglySorted Z.lt (endcond_parse e) /\ (length (endcond_parse e) <= 12)%nat.
Proof.
  rewrite parse_alt.
  assert (G : forall l, StronglySorted (fun c d => (bitno c < bitno d)%Z) l ->
    StronglySorted Z.lt (flat_map (fun c => if Z.testbit e (bitno c) then [(bitno c + 1)%Z] else []) l) /\
    (length (flat_map (fun c => if Z.testbit e (bitno c) then [(bitno c + 1)%Z] else []) l) <= length l)%nat).
  { induction l as [|c l IH]; intros S; [split; [constructor|auto]|].
    apply StronglySorted_inv in S. destruct S as [S F]. destruct (IH S) as [I1 I2].
    cbn [flat_map]. destruct (Z.testbit e (bitno c)); cbn [app length]; (split; [|lia]); auto.
    constructor; auto. apply Forall_forall. intros n Hn. apply in_flat_map in Hn.
    destruct Hn as (d & Hd & Hn). rewrite Forall_forall in F. specialize (F d Hd).
    destruct (Z.testbit e (bitno d)); [|easy]. destruct Hn as [<-|[]]. lia. }
  apply G. repeat (constructor; [|repeat (constructor; [cbn; lia|]); constructor]). constructor.
Qed.

Lemma parse_inj e e' : (0 <= e < 4096)%Z -> (0 <= e' < 4096)%Z -> endcond_parse e = endcond_parse e' -> e = e'.
Proof.
  intros H H' E. apply Z.bits_inj'. intros n Hn.
  destruct (Z_lt_dec n 12) as [L|L].
  - assert (exists c, bitno c = n) as (c & <-).
    { assert (Q : (n = 0 \/ n = 1 \/ n = 2 \/ n = 3 \/ n = 4 \/ n = 5 \/ n = 6 \/ n = 7 \/ n = 8 \/ n = 9 \/ n = 10 \/ n = 11)%Z) by lia.
      destruct Q as [->|[->|[->|[->|[->|[->|[->|[->|[->|[->|[->| ->]]]]]]]]]]];
      [exists Tlim|exists Emin|exists Therm|exists Wall|exists Rhomin|exists Rhomax|exists Polmax|exists Tormax|exists Cpumax|exists Hybrid|exists Neutr|exists Ioniz]; reflexivity. }
    pose proof (parse_in e c) as A. pose proof (parse_in e' c) as B. rewrite E in A.
    destruct (Z.testbit e (bitno c)), (Z.testbit e' (bitno c)); auto; [symmetry|]; tauto.
  - assert (G : forall x, (0 <= x < 4096)%Z -> Z.testbit x n = false).
    { intros x Hx. destruct (Z.eq_dec x 0) as [->|]; [apply Z.bits_0|].
      apply Z.bits_above_log2; [lia|]. assert (Z.log2 x < 12)%Z; [|lia].
      apply Z.log2_lt_pow2; lia. }
    now rewrite !G.
Qed.
