(** Dispatch to the diagnostics and distributions of whole simulations *)
From Coq Require Import Reals ZArith List Bool Lia Lra Permutation.
From Verif Require Import Vec OrbModel DistModel DistProofs TcModel DgModel DgProofs.
Import ListNotations.
Import ListNotations.
Local Open Scope R_scope.

(** ** Every diagnostic sees its own calls and nothing else *)
(** orbits: the recorded points are those of the orbit diagnostic alone, in the order of the calls *)
Theorem diag_orbits_own : forall E0 c0 psi mom u cs s,
  d_orb (diag_run E0 c0 psi mom u cs s) = if orb_on u then OrbModel.run (orb_cfg u) (map orb_view cs) (d_orb s) else d_orb s.
Proof. exact run_orb. Qed.
Print Assumptions diag_orbits_own.
(** transport coefficients: likewise *)
Theorem diag_transport_own : forall E0 c0 psi mom u cs s,
  d_tc (diag_run E0 c0 psi mom u cs s) = if tc_on u then match d_tc s with None => None | Some k => TcModel.run (tc_fuel u) (tc_par u) k (concat (map tc_view cs)) end else d_tc s.
Proof. exact run_tc. Qed.
Print Assumptions diag_transport_own.
(** a distribution that is not collected stays as it was, and so does every one in a field-line simulation *)
Theorem diag_distribution_untouched : forall E0 c0 psi mom u cs s t, dist_on u t = false \/ (forall c, In c cs -> exists l, c = CMl l) ->
  d_hist (diag_run E0 c0 psi mom u cs s) t = d_hist s t.
Proof.
  intros E0 c0 psi mom u cs s t H. pose proof (run_hist E0 c0 psi mom u cs t s) as R. unfold run in R. rewrite R. destruct H as [->|H]; [reflexivity|]. destruct (dist_on u t); [|reflexivity].
  clear R. generalize (d_hist s t). induction cs as [|c cs IH]; intros h; cbn [fold_left]; [reflexivity|]. destruct (H c (or_introl eq_refl)) as [l ->]. cbn [hist_call]. apply IH. intros c C. apply H. now right.
Qed.
Print Assumptions diag_distribution_untouched.

(** ** Distributions of a whole simulation *)
(** after any sequence of calls of any kinds a bin holds the weight times elapsed time of the steps that ended in its cell with the marker still running *)
Theorem diag_distribution_exact : forall E0 c0 psi mom u t cs, dist_on u t = true -> wf t (dist_ax u t) -> (forall c, In c cs -> particles_inside E0 c0 psi u t c) ->
  forall d, inrange (map an (dist_ax u t)) d ->
  d_hist (diag_run E0 c0 psi mom u cs (snd diag_init)) t (index t (dist_ax u t) d) =
  sumif (fun v => v_run v && incell (dist_ax u t) d (v_x v))%bool v_w (flat_map (visits E0 c0 psi mom t) cs).
Proof. intros E0 c0 psi mom u t cs O W P d D. pose proof (run_bin E0 c0 psi mom u t cs O W P (snd diag_init) d D) as R. unfold run in R. rewrite R. cbn [snd diag_init d_hist]. apply Rplus_0_l. Qed.
Print Assumptions diag_distribution_exact.
(** for markers that stay in the grid, in any interleaving of their steps, the sum over all bins is the weight times the time up to the last step but one *)
Theorem diag_residence_time : forall E0 c0 psi mom u t cs lives, dist_on u t = true -> wf t (dist_ax u t) -> (forall c, In c cs -> particles_inside E0 c0 psi u t c) ->
  Permutation (flat_map (visits E0 c0 psi mom t) cs) (flat_map seen_of lives) -> Forall (fun b => Forall (fun p => inbox (dist_ax u t) (snd p) = true) (l_steps b)) lives ->
  sumbins (d_hist (diag_run E0 c0 psi mom u cs (snd diag_init)) t) (total t (dist_ax u t)) = fold_right (fun b a => l_w b * (before_end b - l_t0 b) + a) 0 lives.
Proof.
  intros E0 c0 psi mom u t cs lives O W P PM F. pose proof (residence E0 c0 psi mom u t cs (snd diag_init) lives O W P PM F) as R. unfold run in R. rewrite R. cbn [snd diag_init d_hist].
  replace (sumbins _ _) with 0; [apply Rplus_0_l|]. unfold sumbins. induction (seq 0 _) as [|k l IH]; cbn [map fold_right]; [reflexivity|]. rewrite <- IH. ring.
Qed.
Print Assumptions diag_residence_time.
(** finding: the step that ends the simulation of a marker is not in the distribution; the residence time falls short by that step of every marker *)
Theorem diag_residence_time_refuted : forall E0 c0 psi mom u t cs lives, dist_on u t = true -> wf t (dist_ax u t) -> (forall c, In c cs -> particles_inside E0 c0 psi u t c) ->
  Permutation (flat_map (visits E0 c0 psi mom t) cs) (flat_map seen_of lives) -> Forall (fun b => Forall (fun p => inbox (dist_ax u t) (snd p) = true) (l_steps b)) lives ->
  lives <> [] -> Forall (fun b => 0 < l_w b /\ before_end b < fst (l_end b)) lives ->
  sumbins (d_hist (diag_run E0 c0 psi mom u cs (snd diag_init)) t) (total t (dist_ax u t)) < fold_right (fun b a => l_w b * (fst (l_end b) - l_t0 b) + a) 0 lives.
Proof.
  intros E0 c0 psi mom u t cs lives O W P PM F N L. rewrite (diag_residence_time E0 c0 psi mom u t cs lives O W P PM F). clear PM F.
  destruct lives as [|b lives]; [contradiction|]. inversion L as [|? ? [L1 L2] L3]; subst. cbn [fold_right].
  assert (G : fold_right (fun b a => l_w b * (before_end b - l_t0 b) + a) 0 lives <= fold_right (fun b a => l_w b * (fst (l_end b) - l_t0 b) + a) 0 lives).
  { clear N L L1 L2. induction lives as [|e lives IH]; cbn [fold_right]; [lra|]. inversion L3 as [|? ? [M1 M2] M3]; subst. specialize (IH M3). nra. }
  nra.
Qed.
Print Assumptions diag_residence_time_refuted.
(** finding: when time runs backward no bin is positive *)
Theorem diag_backward_negative_refuted : forall E0 c0 psi mom u t cs d, dist_on u t = true -> wf t (dist_ax u t) -> (forall c, In c cs -> particles_inside E0 c0 psi u t c) -> inrange (map an (dist_ax u t)) d ->
  (forall l x, In (CFo l) cs -> In x l -> 0 <= f_weight (fst (sf x)) /\ f_time (fst (sf x)) <= f_time (snd (sf x))) ->
  (forall l x, In (CGc l) cs -> In x l -> 0 <= g_weight (fst (sg x)) /\ g_time (fst (sg x)) <= g_time (snd (sg x))) ->
  d_hist (diag_run E0 c0 psi mom u cs (snd diag_init)) t (index t (dist_ax u t) d) <= 0.
Proof.
  intros E0 c0 psi mom u t cs d O W P D HF HG. apply (backward E0 c0 psi mom u t cs d O W P D). intros v V. apply in_flat_map in V. destruct V as (c & C & V). destruct c as [l|l|l]; cbn [visits] in V.
  - apply in_map_iff in V. destruct V as (x & <- & X). destruct (HF l x C X). cbn [v_w visit_fo]. nra.
  - apply in_map_iff in V. destruct V as (x & <- & X). destruct (HG l x C X). cbn [v_w visit_gc]. nra.
  - destruct V.
Qed.
Print Assumptions diag_backward_negative_refuted.

(** ** Example: a guiding centre of weight 2 followed from time 0 to 4 in steps 1, 2, 1; three of the four seconds are in the distribution *)
Definition demo_ax : list DistModel.axis := [AX 0 1 1; AX 0 1 1; AX (-1) 1 1].
Definition demo_u : setup := Setup false (CFG 1 1 true 0 [] [] []) (fun t => match t with DCOM => true | _ => false end) (fun _ => demo_ax) false (Par 1 false 0) 0.
Definition demo_gc (run : bool) (time : R) : gc := GCM run 1 0 0 0 0 (V 0 1 0) 0 0 time 1 1 2.
Definition demo_slot (rf : bool) (tf ti : R) : gc_slot := SG (demo_gc rf tf, demo_gc true ti) (MK 0 0 0 (fun _ => 0), MK 0 0 0 (fun _ => 0)) (Ev 0 0 0 0 0 0 0 0 0 0).
Definition demo_cs : list call := [CGc [demo_slot true 1 0]; CGc [demo_slot true 3 1]; CGc [demo_slot false 4 3]].
Definition demo_psi (a b c d : R) : R := 0.
Definition demo_mom (m : gc) : R * R * R := (0, 0, 0).
Example demo_total : sumbins (d_hist (diag_run 1 1 demo_psi demo_mom demo_u demo_cs (snd diag_init)) DCOM) (total DCOM demo_ax) = 6.
Proof.
  set (x := coords_gc 1 1 demo_psi demo_mom DCOM (demo_gc true 0)).
  assert (X : x = [0; 0; 0]).
  { unfold x, coords_gc, demo_mom, demo_gc, demo_psi, ekin_ppar, norm, dot. cbn [g_mu g_ppar g_mass g_charge g_B g_r g_phi g_z g_time vx vy vz]. replace (0 * 0 + 1 * 1 + 0 * 0) with 1 by ring. rewrite sqrt_1.
    replace (1 + 2 * 0 * 1 / (1 * (1 * 1)) + 0 * 0 / (1 * 1 * (1 * 1))) with 1 by field. rewrite sqrt_1. repeat f_equal; field. }
  pose proof (diag_residence_time 1 1 demo_psi demo_mom demo_u DCOM demo_cs [Life 2 0 [(1, x); (3, x)] (4, x)]) as T. cbn [dist_ax demo_u] in T. rewrite T.
  - unfold before_end. cbn. lra.
  - reflexivity.
  - split; [reflexivity|]. unfold demo_ax. repeat constructor; cbn; lra || lia.
  - intros c C. repeat (destruct C as [<-|C]; [exact I|]). destruct C.
  - apply Permutation_refl.
  - repeat constructor; rewrite X; unfold inbox, demo_ax, leR, ltR; cbn [combine forallb fst snd amin amax];
      repeat match goal with |- context [Rle_dec ?a ?b] => destruct (Rle_dec a b); [|exfalso; lra] end; repeat match goal with |- context [Rlt_dec ?a ?b] => destruct (Rlt_dec a b); [|exfalso; lra] end; reflexivity.
Qed.
