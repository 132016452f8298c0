(** Properties of the transport coefficient diagnostics (src/diag/diag_transcoef.c). *)
From Coq Require Import Reals ZArith List Bool Lra Lia Sorted.
From Verif Require Import MathModel TcModel TcProofs.
Import ListNotations.
Local Open Scope R_scope.

(** C53, C82. *)
(** a step is recorded when it passes the outer midplane, unless it starts exactly on it *)
Theorem tc_crossing : forall fang iang, 0 < crossing fang iang <-> passes fang iang /\ ~ multiple iang.
Proof. exact crossing_iff. Qed.
Print Assumptions tc_crossing.
(** a backward passage that steps exactly on the midplane is not recorded at all *)
Theorem tc_crossing_lost : forall k d, 0 < d < 2 * PI ->
  let m := 2 * PI * IZR k in crossing m (m + d) = 0 /\ crossing (m - d) m = 0 /\ 0 < crossing (m - d) (m + d).
Proof. exact crossing_lost. Qed.
Print Assumptions tc_crossing_lost.
(** processing visits recorded points only, frees each of them once and leaves the other markers alone *)
Theorem tc_process : forall fuel c s v cs i id, represents s v cs -> (0 < p_navg c)%Z -> (length (cs i) <= fuel)%nat ->
  exists s', process fuel c s i id = Some s' /\
    represents s' (upd v i ([], result c id (fst (v i)) (snd (v i)))) (upd cs i []).
Proof. exact process_spec. Qed.
Print Assumptions tc_process.
Theorem tc_run : forall c es fuel, (0 < p_navg c)%Z -> 0 <= p_interval c -> (length es <= fuel)%nat ->
  exists s v cs, run fuel c tc_init es = Some s /\ spec_run c start es v /\ represents s v cs.
Proof. exact run_spec. Qed.
Print Assumptions tc_run.
Theorem tc_no_leak : forall c es fuel s, (0 < p_navg c)%Z -> 0 <= p_interval c -> (length es <= fuel)%nat ->
  run fuel c tc_init es = Some s -> (forall i e, last_of i es = Some e -> ended e) ->
  (forall a, heap s a = None) /\ (forall i, dp s i = None).
Proof. exact no_leak. Qed.
Print Assumptions tc_no_leak.
Theorem tc_markers_independent : forall c es i v u v' u', spec_run c v es v' ->
  spec_run c u (filter (fun e => Nat.eqb (e_index e) i) es) u' -> v i = u i -> v' i = u' i.
Proof. exact markers_independent. Qed.
Print Assumptions tc_markers_independent.
(** the averaged points, and the points they are taken from *)
Theorem tc_groups : forall w l, (0 < w)%nat -> (w <= length l)%nat ->
  let d := length l in let used := (d - (if d mod w =? 0 then 0 else w))%nat in
  length (grouping w l) = (d / w)%nat /\ concat (grouping w l) = firstn used l /\
  Forall (fun g => (0 < length g <= w)%nat) (grouping w l) /\ Forall (fun g => length g = w) (tl (grouping w l)).
Proof. exact grouping_spec. Qed.
Print Assumptions tc_groups.
Theorem tc_number_of_averages : forall w l, (0 < w)%nat -> (w <= length l)%nat -> length (averaged w l) = (length l / w)%nat.
Proof. exact averaged_length. Qed.
Print Assumptions tc_number_of_averages.
Theorem tc_times_increase : forall w l, (0 < w)%nat -> (w <= length l)%nat -> newest_first l -> increasing (averaged w l).
Proof. exact averaged_increase. Qed.
Print Assumptions tc_times_increase.
Theorem tc_diffusion_nonneg : forall w l, (0 < w)%nat -> (w <= length l)%nat -> newest_first l -> 0 <= diffusion (averaged w l).
Proof. exact diffusion_nonneg. Qed.
Print Assumptions tc_diffusion_nonneg.
(** finding: the sums of n - 1 terms are divided by n *)
Theorem tc_constant_drift : forall w l a v, (0 < w)%nat -> (w <= length l)%nat -> newest_first l ->
  (forall p, In p l -> q_rho p = a + v * q_time p) ->
  let n := INR (length l / w) in
  drift (averaged w l) = v * (n - 1) / n /\
  (v <> 0 -> (2 * w <= length l)%nat -> Rabs (drift (averaged w l)) < Rabs v /\ 0 < diffusion (averaged w l)).
Proof. exact constant_drift. Qed.
Print Assumptions tc_constant_drift.
(** finding: coefficients are stored although there is nothing to take a difference of *)
Theorem tc_one_group : forall w l, (0 < w)%nat -> (w <= length l < 2 * w)%nat -> drift (averaged w l) = 0 /\ diffusion (averaged w l) = 0.
Proof. exact one_group. Qed.
Print Assumptions tc_one_group.
Theorem tc_bad_window : forall fuel c s i id, (p_navg c < 0)%Z -> process fuel c s i id = None.
Proof. exact bad_window. Qed.
Print Assumptions tc_bad_window.

(** three crossings, one point per average *)
Definition ex_c := Par 1 true 0.5.
Definition ex_e (t x : R) (run : Z) := Ev 0 7 run x 0 1 t (t - 1) 1 (-1).
Lemma ex_cross : passes 1 (-1) /\ ~ multiple (-1).
Proof.
  split; [exists 0%Z; left; lra|]. intros [k E]. pose proof PI2_1 as P.
  destruct (Z_lt_le_dec k 0) as [L|L]; [|assert (0 <= IZR k) by (apply (IZR_le 0); lia); pose proof PI_RGT_0; nra].
  assert (IZR k <= -1) by (apply (IZR_le k (-1)); lia). nra.
Qed.
Example three_points : exists s,
  run 3 ex_c tc_init [ex_e 1 1 1; ex_e 2 2 1; ex_e 3 4 0] = Some s /\
  o_id s 0 = 7%Z /\ o_K s 0 = Some 1 /\ o_D s 0 = Some (1 / 6) /\ (forall a, heap s a = None).
Proof.
  destruct (tc_run ex_c [ex_e 1 1 1; ex_e 2 2 1; ex_e 3 4 0] 3) as (s & v & cs & R & S & H); [cbn; lia|cbn; lra|cbn; lia|].
  exists s. split; [exact R|].
  inversion S as [|? ? v1 ? [(l1 & L1 & _ & A1) _] S1]; subst. inversion S1 as [|? ? v2 ? [(l2 & L2 & _ & A2) _] S2]; subst.
  inversion S2 as [|? ? v3 ? [(l3 & L3 & A3 & _) _] S3]; subst. inversion S3; subst. cbn [e_index ex_e] in *.
  assert (N : forall t x, ~ ended (ex_e t x 1)) by (intros; unfold ended; cbn; lia).
  specialize (A1 (N _ _)). specialize (A2 (N _ _)). specialize (A3 ltac:(unfold ended; cbn; lia)).
  pose proof ex_cross as [X Y].
  assert (E1 : l1 = [point ex_c (ex_e 1 1 1)]). { eapply log_step_fun; [exact L1|]. apply log_yes. repeat split; cbn; auto; try lia; try lra. }
  rewrite A1 in *. cbn [fst snd] in *. subst l1.
  assert (E2 : l2 = [point ex_c (ex_e 2 2 1); point ex_c (ex_e 1 1 1)]). { eapply log_step_fun; [exact L2|]. apply log_yes. repeat split; cbn; auto; try lia; try lra. }
  rewrite A2 in *. cbn [fst snd] in *. subst l2.
  assert (E3 : l3 = [point ex_c (ex_e 3 4 0); point ex_c (ex_e 2 2 1); point ex_c (ex_e 1 1 1)]). { eapply log_step_fun; [exact L3|]. apply log_yes. repeat split; cbn; auto; try lia; try lra. }
  subst l3. pose proof (rep_out _ _ _ H 0%nat) as O. rewrite A3 in O.
  unfold result, point, ex_e, ex_c in O. cbn [e_b e_tf e_rho p_recordrho p_navg e_id] in O. destruct (Rlt_dec 1 0); [lra|].
  unfold majority, codir, counter in O. cbn [filter q_fwd negb length Nat.leb snd] in O. change (Z.to_nat 1) with 1%nat in O. cbn [Nat.ltb Nat.leb length filter q_fwd] in O.
  destruct O as (O1 & O2 & O3). split; [exact O1|]. rewrite O2, O3.
  assert (E : averaged 1 [Pt 4 3 true; Pt 2 2 true; Pt 1 1 true] = [(1, 1); (2, 2); (4, 3)]).
  { unfold averaged, grouping, head_size, avg, mean. cbn. repeat f_equal; lra. }
  rewrite E. assert (D : drift [(1, 1); (2, 2); (4, 3)] = 1) by (unfold drift, steps; cbn; field).
  split; [f_equal; exact D|]. split; [f_equal; unfold diffusion; rewrite D; unfold steps; cbn; field|].
  apply (tc_no_leak ex_c [ex_e 1 1 1; ex_e 2 2 1; ex_e 3 4 0] 3 s); auto; [cbn; lia|cbn; lra|].
  intros i e. cbn. destruct i; [|discriminate]. cbn. intros Q. injection Q as <-. unfold ended. cbn. lia.
Qed.
(** five points in windows of two: the two oldest are not used *)
Example five_in_twos : forall a b c d e, grouping 2 [a; b; c; d; e] = [[a]; [b; c]].
Proof. reflexivity. Qed.
(** uniform motion in three averages gives two thirds of the velocity and a positive diffusion *)
Example uniform_motion : let l := [Pt 30 3 true; Pt 20 2 true; Pt 10 1 true] in
  drift (averaged 1 l) = 20 / 3 /\ 0 < diffusion (averaged 1 l).
Proof.
  intros l. destruct (tc_constant_drift 1 l 0 10) as [A B]; [lia|cbn; lia| |intros p [P|[P|[P|[]]]]; subst; cbn; lra|].
  - repeat constructor; cbn; lra.
  - split; [rewrite A; cbn; lra|]. apply B; [lra|cbn; lia].
Qed.
