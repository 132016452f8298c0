(** C23-C24, C62-C63: distributions, histograms and their summation *)
From Coq Require Import Reals ZArith List Bool Lia Lra.
From Verif Require Import MathModel MathProofs Vec DistModel DistProofs.
Import ListNotations.
Local Open Scope R_scope.

(** ** C23: one array position per bin tuple *)
Theorem dist_index_injective : forall t ax d d', length ax = naxes t ->
  inrange (map an ax) d -> inrange (map an ax) d' -> index t ax d = index t ax d' -> d = d'.
Proof. exact index_inj. Qed.
Print Assumptions dist_index_injective.
Theorem dist_index_bounds : forall t ax d, length ax = naxes t -> inrange (map an ax) d ->
  (0 <= index t ax d < total t ax)%Z.
Proof. exact index_range. Qed.
Print Assumptions dist_index_bounds.
Theorem dist_index_onto : forall t ax k, wf t ax -> (0 <= k < total t ax)%Z ->
  exists d, inrange (map an ax) d /\ index t ax d = k.
Proof. exact index_onto. Qed.
Print Assumptions dist_index_onto.
(** the first axis is the slowest *)
Theorem dist_index_order : forall t ax d, length ax = naxes t -> length d = naxes t ->
  index t ax d = flat (map an ax) d.
Proof. exact index_flat. Qed.
Print Assumptions dist_index_order.

(** ** C24 *)
(** every bin receives exactly the weight times step of the running guiding
    centres whose coordinates lie in its cell *)
Theorem dist_gc_bin_exact : forall E0 c0 psi mom t ax h calls d, wf t ax -> inrange (map an ax) d ->
  run_gc E0 c0 psi mom t ax h calls (index t ax d) =
  h (index t ax d) + sumif (fun p => g_run (fst p) && incell ax d (coords_gc E0 c0 psi mom t (fst p)))%bool wdt (concat calls).
Proof. exact gc_bin. Qed.
Print Assumptions dist_gc_bin_exact.
Theorem dist_gc_total : forall E0 c0 psi mom t ax h calls, wf t ax ->
  sumbins (run_gc E0 c0 psi mom t ax h calls) (total t ax) =
  sumbins h (total t ax) +
  sumif (fun p => g_run (fst p) && inbox ax (coords_gc E0 c0 psi mom t (fst p)))%bool wdt (concat calls).
Proof. exact gc_total. Qed.
Print Assumptions dist_gc_total.
(** particles: the same while every running particle is inside the grid ... *)
Theorem dist_fo_bin_exact : forall E0 c0 psi t ax h calls d, wf t ax -> inrange (map an ax) d ->
  all_inside E0 c0 psi t ax (concat calls) ->
  run_fo E0 c0 psi t ax h calls (index t ax d) =
  h (index t ax d) + sumif (fun q => f_run (fst (fst q)) && incell ax d (coords_fo E0 c0 psi t (fst (fst q))))%bool wdtf (concat calls).
Proof. exact fo_bin. Qed.
Print Assumptions dist_fo_bin_exact.
Theorem dist_fo_total : forall E0 c0 psi t ax h calls, wf t ax -> all_inside E0 c0 psi t ax (concat calls) ->
  sumbins (run_fo E0 c0 psi t ax h calls) (total t ax) =
  sumbins h (total t ax) + sumif (fun q => f_run (fst (fst q))) wdtf (concat calls).
Proof. exact fo_total. Qed.
Print Assumptions dist_fo_total.
(** ... and one outside deposits the uninitialised weight in the uninitialised
    position *)
Theorem dist_fo_outside_refuted : forall E0 c0 psi t ax h p i w, wf t ax -> f_run (fst p) = true ->
  inbox ax (coords_fo E0 c0 psi t (fst p)) = false -> (0 <= i < total t ax)%Z ->
  update_fo E0 c0 psi t ax h [(p, (i, w))] i = h i + w.
Proof. exact fo_junk. Qed.
Print Assumptions dist_fo_outside_refuted.
Theorem dist_angle_wrapped : forall phi, 0 <= wrap phi < 2 * PI /\ exists n, wrap phi = phi - 2 * PI * IZR n.
Proof. exact wrap_spec. Qed.
Print Assumptions dist_angle_wrapped.
Theorem dist_momentum_split : forall m, f_B m <> vzero ->
  0 <= pperp m /\ ppara m * ppara m + pperp m * pperp m = dot (f_p m) (f_p m) /\
  ppara m * norm (f_B m) = dot (f_p m) (f_B m).
Proof. exact pperp_spec. Qed.
Print Assumptions dist_momentum_split.
Theorem dist_com_mu : forall E0 c0 psi m, f_B m <> vzero -> f_p m <> vzero -> f_mass m <> 0 ->
  nth 0 (coords_fo E0 c0 psi DCOM m) 0 = pperp m * pperp m / (2 * norm (f_B m) * f_mass m).
Proof. exact com_mu. Qed.
Print Assumptions dist_com_mu.

(** ** C62: histogram object *)
Theorem hist_positions : forall req dg, NoDup (map fst req) -> (forall p, In p req -> an (snd p) <> 0%Z) ->
  inrange (sizes (hist_init req)) (digits dg) ->
  (0 <= hist_index (hist_init req) dg < h_nbin (hist_init req))%Z /\
  (forall dg', inrange (sizes (hist_init req)) (digits dg') ->
     hist_index (hist_init req) dg = hist_index (hist_init req) dg' -> digits dg = digits dg').
Proof. exact hist_index_ok. Qed.
Print Assumptions hist_positions.
Theorem hist_update_inside : forall req b w x, NoDup (map fst req) ->
  (forall i a, In (i, a) req -> supported i = true /\ amin a < amax a /\ (0 < an a)%Z /\ amin a <= x i < amax a) ->
  exists j, (0 <= j < h_nbin (hist_init req))%Z /\
    (forall k, hist_update (hist_init req) b true w x k = if Z.eqb k j then b k + w else b k) /\
    exists dg, hist_index (hist_init req) dg = j /\ inrange (sizes (hist_init req)) (digits dg) /\
      forall i a, In (i, a) req -> amin a + IZR (dg i) * width a <= x i < amin a + IZR (dg i + 1) * width a.
Proof. exact hist_deposit. Qed.
Print Assumptions hist_update_inside.
Theorem hist_outside_counted_refuted : forall b w x, x 0%nat = 1/4 -> x 2%nat = 1 ->
  hist_update (hist_init spill_req) b true w x 3%Z = b 3%Z + w.
Proof. exact hist_spill. Qed.
Print Assumptions hist_outside_counted_refuted.

(** ** C63: summing two sets of distributions *)
Theorem diag_sum_complete : forall d1 d2 t, (t = DR5 \/ t = DR6 \/ (t = D6 /\ collect d1 DCOM = false)) -> wf t (axes d1 t) ->
  forall i, (0 <= i < total t (axes d1 t))%Z ->
  histo (diag_sum d1 d2) t i = if collect d1 t then histo d1 t i + histo d2 t i else histo d1 t i.
Proof. exact sum_ok. Qed.
Print Assumptions diag_sum_complete.
Theorem diag_sum_5d_refuted : forall d1 d2 n_phi rest a, collect d1 D5 = true -> axes d1 D5 = a :: n_phi :: rest -> wf D5 (axes d1 D5) ->
  (stop_of D5 (axes d1 D5) * an n_phi = total D5 (axes d1 D5))%Z /\
  (forall i, (0 <= i < stop_of D5 (axes d1 D5))%Z -> histo (diag_sum d1 d2) D5 i = histo d1 D5 i + histo d2 D5 i) /\
  (forall i, (stop_of D5 (axes d1 D5) <= i)%Z -> histo (diag_sum d1 d2) D5 i = histo d1 D5 i).
Proof. exact sum_5d. Qed.
Print Assumptions diag_sum_5d_refuted.
Theorem diag_sum_com_refuted : forall d1 d2, histo (diag_sum d1 d2) DCOM = histo d1 DCOM.
Proof. exact sum_com. Qed.
Print Assumptions diag_sum_com_refuted.
Theorem diag_sum_6d_twice : forall d1 d2 i, collect d1 D6 = true -> collect d1 DCOM = true ->
  (0 <= i < stop_of D6 (axes d1 D6))%Z -> (i < stop_of DCOM (axes d1 DCOM))%Z ->
  histo (diag_sum d1 d2) D6 i = histo d1 D6 i + 2 * histo d2 D6 i.
Proof. exact sum_6d_twice. Qed.
Print Assumptions diag_sum_6d_twice.

(** ** Examples *)
Definition ex_axes : list axis := [AX 0 1 2; AX 0 7 3; AX (-1) 1 4; AX (-2) 2 5; AX 0 2 2; AX 0 1 1; AX 0 2 2].
Example ex_total : total D5 ex_axes = 480%Z. Proof. reflexivity. Qed.
Example ex_index : index D5 ex_axes [1; 2; 3; 4; 1; 0; 1]%Z = 479%Z /\ index D5 ex_axes [0; 0; 0; 0; 1; 0; 0]%Z = 2%Z.
Proof. split; reflexivity. Qed.
Example ex_wf : wf D5 ex_axes.
Proof. split; [reflexivity|]. repeat constructor; cbn; lra || lia. Qed.
(** a guiding centre in the middle of the COM grid deposits 3 * 2; one outside nothing *)
Definition ex_com : list axis := [AX 0 1 2; AX (-1) 1 3; AX (-1) 1 2].
Definition ex_gc (mu t : R) : gc := GCM true 1 0 0 0 mu (V 0 1 0) 0 0 t 0 1 3.
Example ex_gc_in : run_gc 1 1 (fun _ _ _ _ => 0) (fun _ => (0, 0, 0)) DCOM ex_com (fun _ => 0)
    [[(ex_gc 0 5, ex_gc 0 3)]; [(ex_gc 4 7, ex_gc 4 5)]] (index DCOM ex_com [0; 1; 1]%Z) = 6.
Proof.
  rewrite dist_gc_bin_exact.
  2:{ split; [reflexivity|]. repeat constructor; cbn; lra || lia. }
  2:{ repeat constructor; cbn; lia. }
  assert (EK : ekin_ppar 1 1 0 0 1 = 0).
  { unfold ekin_ppar. replace (1 + 2 * 0 * 1 / (1 * (1 * 1)) + 0 * 0 / (1 * 1 * (1 * 1))) with 1 by field. rewrite sqrt_1. ring. }
  assert (NB : norm (V 0 1 0) = 1) by (unfold norm; cbn; replace (0 * 0 + 1 * 1 + 0 * 0) with 1 by ring; apply sqrt_1).
  cbn [concat app sumif fold_right fst snd ex_gc g_run andb].
  replace (incell ex_com [0; 1; 1]%Z (coords_gc 1 1 (fun _ _ _ _ => 0) (fun _ => (0, 0, 0)) DCOM (ex_gc 0 5))) with true.
  2:{ symmetry. unfold coords_gc, ex_gc. cbn [g_mu g_mass g_ppar g_B g_charge g_r g_phi g_z g_time vy]. rewrite NB, EK.
      unfold incell, ex_com. cbn [combine forallb fst snd amin amax an]. unfold width. cbn [amin amax an Z.add].
      rewrite !(proj2 (leR_spec _ _)), !(proj2 (ltR_spec _ _)); auto; cbn; lra. }
  replace (incell ex_com [0; 1; 1]%Z (coords_gc 1 1 (fun _ _ _ _ => 0) (fun _ => (0, 0, 0)) DCOM (ex_gc 4 7))) with false.
  2:{ symmetry. unfold coords_gc, ex_gc. cbn [g_mu g_mass g_ppar g_B g_charge g_r g_phi g_z g_time vy].
      unfold incell, ex_com. cbn [combine forallb fst snd amin amax an]. unfold width. cbn [amin amax an Z.add].
      unfold ltR at 1. destruct (Rlt_dec 4 _); [exfalso; cbn in *; lra|]. rewrite andb_false_r. reflexivity. }
  unfold wdt, ex_gc. cbn. lra.
Qed.
Example ex_hist : h_nbin (hist_init spill_req) = 6%Z /\ sizes (hist_init spill_req) = [2;1;3;1;1;1;1;1;1;1;1;1;1;1;1;1]%Z.
Proof. split; reflexivity. Qed.
Example ex_sum5 : stop_of D5 ex_axes = 160%Z. Proof. reflexivity. Qed.
