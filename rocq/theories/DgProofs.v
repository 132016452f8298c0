From Coq Require Import Reals ZArith List Bool Lia Lra Permutation.
From Verif Require Import Vec OrbModel DistModel DistProofs TcModel DgModel.
Import ListNotations.
Local Open Scope R_scope.

(** ** What a distribution sees of a step: whether the marker still runs, where it is in the coordinates of the distribution, weight times elapsed time *)
Record visit := Visit { v_run : bool; v_x : list R; v_w : R }.
Section Dg.
Variables (E0 c0 : R) (psi : R -> R -> R -> R -> R) (mom : gc -> R * R * R) (u : setup).
Definition visit_fo (t : dtype) (p : fo * fo) : visit := Visit (f_run (fst p)) (coords_fo E0 c0 psi t (fst p)) (f_weight (fst p) * (f_time (fst p) - f_time (snd p))).
Definition visit_gc (t : dtype) (p : gc * gc) : visit := Visit (g_run (fst p)) (coords_gc E0 c0 psi mom t (fst p)) (g_weight (fst p) * (g_time (fst p) - g_time (snd p))).
Definition visits (t : dtype) (c : call) : list visit :=
  match c with CFo l => map (fun x => visit_fo t (sf x)) l | CGc l => map (fun x => visit_gc t (sg x)) l | CMl _ => [] end.
(** full-orbit markers must stay in the grid while they run (dist_fo_outside_refuted tells what happens if not) *)
Definition particles_inside (t : dtype) (c : call) : Prop :=
  match c with CFo l => forall x, In x l -> f_run (fst (sf x)) = true -> inbox (dist_ax u t) (coords_fo E0 c0 psi t (fst (sf x))) = true | _ => True end.
Definition run := diag_run E0 c0 psi mom u.

(** ** Each diagnostic for itself *)
Lemma put_same f t h : put f t h t = h. Proof. unfold put. destruct t; reflexivity. Qed.
Lemma put_other f t h s : s <> t -> put f t h s = f s. Proof. intros N. unfold put. destruct s, t; try reflexivity; congruence. Qed.
Lemma dist_hist t f s k : d_hist (on_dist u t f s) k = if andb (dist_on u k) (dt_eqb k t) then f (dist_ax u t) (d_hist s t) else d_hist s k.
Proof.
  unfold on_dist. destruct (dist_on u t) eqn:O; cbn [d_hist].
  - unfold put. destruct k, t; cbn [dt_eqb]; rewrite ?O, ?andb_true_r, ?andb_false_r; try reflexivity.
  - destruct k, t; cbn [dt_eqb]; rewrite ?O, ?andb_true_r, ?andb_false_r; try reflexivity; cbn [andb]; reflexivity.
Qed.
Lemma dist_orb t f s : d_orb (on_dist u t f s) = d_orb s. Proof. unfold on_dist. destruct (dist_on u t); reflexivity. Qed.
Lemma dist_tc t f s : d_tc (on_dist u t f s) = d_tc s. Proof. unfold on_dist. destruct (dist_on u t); reflexivity. Qed.
Lemma orb_hist k l s : d_hist (on_orb u k l s) = d_hist s. Proof. unfold on_orb. destruct (orb_on u); reflexivity. Qed.
Lemma orb_tc k l s : d_tc (on_orb u k l s) = d_tc s. Proof. unfold on_orb. destruct (orb_on u); reflexivity. Qed.
Lemma tc_hist l s : d_hist (on_tc u l s) = d_hist s. Proof. unfold on_tc. destruct (tc_on u); reflexivity. Qed.
Lemma tc_orb l s : d_orb (on_tc u l s) = d_orb s. Proof. unfold on_tc. destruct (tc_on u); reflexivity. Qed.

Definition orb_view (c : call) : kind * list (mk * mk) := match c with CFo l => (FO, map sf_orb l) | CGc l => (GC, map sg_orb l) | CMl l => (ML, map sm_orb l) end.
Definition tc_view (c : call) : list ev := match c with CFo l => map sf_tc l | CGc l => map sg_tc l | CMl l => map sm_tc l end.
Definition hist_call (t : dtype) (h : hist) (c : call) : hist :=
  match c with
  | CFo l => update_fo E0 c0 psi t (dist_ax u t) h (map (fun x => (sf x, sf_junk x t)) l)
  | CGc l => update_gc E0 c0 psi mom t (dist_ax u t) h (map sg l)
  | CMl _ => h end.
Ltac strip := rewrite ?dist_orb, ?dist_tc, ?orb_hist, ?orb_tc, ?tc_hist, ?tc_orb.
Lemma call_hist s c t : d_hist (diag_call E0 c0 psi mom u s c) t = if dist_on u t then hist_call t (d_hist s t) c else d_hist s t.
Proof.
  destruct c as [l|l|l]; cbn [diag_call hist_call].
  - unfold diag_update_fo. rewrite tc_hist. rewrite !dist_hist, orb_hist. destruct t; cbn [dt_eqb]; rewrite ?andb_true_r, ?andb_false_r; destruct (dist_on u _); reflexivity.
  - unfold diag_update_gc. rewrite tc_hist. rewrite !dist_hist, orb_hist. destruct t; cbn [dt_eqb]; rewrite ?andb_true_r, ?andb_false_r; destruct (dist_on u _); reflexivity.
  - unfold diag_update_ml. rewrite tc_hist, orb_hist. destruct (dist_on u t); reflexivity.
Qed.
Lemma orb_orb k l s : d_orb (on_orb u k l s) = if orb_on u then OrbModel.update (orb_cfg u) k (d_orb s) l else d_orb s.
Proof. unfold on_orb. destruct (orb_on u); reflexivity. Qed.
Lemma call_orb s c : d_orb (diag_call E0 c0 psi mom u s c) = if orb_on u then OrbModel.update (orb_cfg u) (fst (orb_view c)) (d_orb s) (snd (orb_view c)) else d_orb s.
Proof.
  destruct c as [l|l|l]; cbn [diag_call orb_view fst snd]; [unfold diag_update_fo|unfold diag_update_gc|unfold diag_update_ml]; rewrite tc_orb, ?dist_orb, orb_orb; reflexivity.
Qed.
Lemma tc_tc l s : d_tc (on_tc u l s) = if tc_on u then match d_tc s with None => None | Some c => TcModel.run (tc_fuel u) (tc_par u) c l end else d_tc s.
Proof. unfold on_tc. destruct (tc_on u); reflexivity. Qed.
Lemma call_tc s c : d_tc (diag_call E0 c0 psi mom u s c) = if tc_on u then match d_tc s with None => None | Some k => TcModel.run (tc_fuel u) (tc_par u) k (tc_view c) end else d_tc s.
Proof.
  destruct c as [l|l|l]; cbn [diag_call tc_view]; [unfold diag_update_fo|unfold diag_update_gc|unfold diag_update_ml]; rewrite tc_tc, ?dist_tc, orb_tc; reflexivity.
Qed.

Lemma run_orb cs : forall s, d_orb (run cs s) = if orb_on u then OrbModel.run (orb_cfg u) (map orb_view cs) (d_orb s) else d_orb s.
Proof.
  unfold run, diag_run, OrbModel.run. induction cs as [|c cs IH]; intros s; cbn [fold_left map]; [destruct (orb_on u); reflexivity|].
  rewrite IH, call_orb. destruct (orb_on u); reflexivity.
Qed.
Lemma tcrun_app f p l1 l2 : forall s, TcModel.run f p s (l1 ++ l2) = match TcModel.run f p s l1 with None => None | Some k => TcModel.run f p k l2 end.
Proof. induction l1 as [|e l1 IH]; intros s; cbn [TcModel.run app]; [reflexivity|]. destruct (TcModel.update f p s e); [apply IH|reflexivity]. Qed.
Lemma run_tc cs : forall s, d_tc (run cs s) = if tc_on u then match d_tc s with None => None | Some k => TcModel.run (tc_fuel u) (tc_par u) k (concat (map tc_view cs)) end else d_tc s.
Proof.
  unfold run, diag_run. induction cs as [|c cs IH]; intros s; cbn [fold_left map concat]; [destruct (tc_on u); [destruct (d_tc s)|]; reflexivity|].
  rewrite IH, call_tc. destruct (tc_on u); [|reflexivity]. destruct (d_tc s); [|reflexivity]. rewrite tcrun_app. reflexivity.
Qed.
Lemma run_hist cs t : forall s, d_hist (run cs s) t = if dist_on u t then fold_left (hist_call t) cs (d_hist s t) else d_hist s t.
Proof.
  unfold run, diag_run. induction cs as [|c cs IH]; intros s; cbn [fold_left]; [destruct (dist_on u t); reflexivity|].
  rewrite IH, call_hist. destruct (dist_on u t); reflexivity.
Qed.

(** ** Distributions of a whole simulation *)
Lemma sumif_app {A} f w (l l' : list A) : sumif f w (l ++ l') = sumif f w l + sumif f w l'.
Proof. unfold sumif. induction l; cbn [app fold_right]; [ring|rewrite IHl; ring]. Qed.
Lemma sumif_map {A B} (g : A -> B) f w l : sumif f w (map g l) = sumif (fun a => f (g a)) (fun a => w (g a)) l.
Proof. unfold sumif. induction l; cbn [map fold_right]; [reflexivity|now rewrite IHl]. Qed.
Lemma sumif_ext {A} f f' w w' (l : list A) : (forall a, In a l -> f a = f' a /\ w a = w' a) -> sumif f w l = sumif f' w' l.
Proof. unfold sumif. induction l as [|a l IH]; intros H; cbn [fold_right]; [reflexivity|]. destruct (H a (or_introl eq_refl)) as [-> ->]. f_equal. apply IH. intros b B. apply H. now right. Qed.
Lemma sumif_perm {A} f w (l l' : list A) : Permutation l l' -> sumif f w l = sumif f w l'.
Proof. unfold sumif. induction 1; cbn [fold_right]; lra. Qed.
Lemma hist_call_bin t h c d : wf t (dist_ax u t) -> inrange (map an (dist_ax u t)) d -> particles_inside t c ->
  hist_call t h c (index t (dist_ax u t) d) = h (index t (dist_ax u t) d) + sumif (fun v => v_run v && incell (dist_ax u t) d (v_x v))%bool v_w (visits t c).
Proof.
  intros W D P. destruct c as [l|l|l]; cbn [hist_call visits].
  - pose proof (fo_bin E0 c0 psi t (dist_ax u t) h [map (fun x => (sf x, sf_junk x t)) l] d W D) as F. unfold run_fo in F. cbn [fold_left concat] in F. rewrite app_nil_r in F. rewrite F.
    + rewrite !sumif_map. reflexivity.
    + intros q Q. apply in_map_iff in Q. destruct Q as (x & <- & X). cbn [fst]. apply P. exact X.
  - pose proof (gc_bin E0 c0 psi mom t (dist_ax u t) h [map sg l] d W D) as F. unfold run_gc in F. cbn [fold_left concat] in F. rewrite app_nil_r in F. rewrite F. rewrite !sumif_map. reflexivity.
  - unfold sumif. cbn [fold_right]. ring.
Qed.
Lemma hist_call_total t h c : wf t (dist_ax u t) -> particles_inside t c ->
  sumbins (hist_call t h c) (total t (dist_ax u t)) = sumbins h (total t (dist_ax u t)) + sumif (fun v => v_run v && inbox (dist_ax u t) (v_x v))%bool v_w (visits t c).
Proof.
  intros W P. destruct c as [l|l|l]; cbn [hist_call visits].
  - pose proof (fo_total E0 c0 psi t (dist_ax u t) h [map (fun x => (sf x, sf_junk x t)) l] W) as F. unfold run_fo in F. cbn [fold_left concat] in F. rewrite app_nil_r in F. rewrite F.
    + rewrite !sumif_map. f_equal. apply sumif_ext. intros x X. cbn [fst snd v_run v_x v_w visit_fo]. split; [|reflexivity]. cbn in P. specialize (P x X). destruct (f_run (fst (sf x))); [rewrite P; reflexivity|reflexivity].
    + intros q Q. apply in_map_iff in Q. destruct Q as (x & <- & X). cbn [fst]. apply P. exact X.
  - pose proof (gc_total E0 c0 psi mom t (dist_ax u t) h [map sg l] W) as F. unfold run_gc in F. cbn [fold_left concat] in F. rewrite app_nil_r in F. rewrite F. rewrite !sumif_map. reflexivity.
  - unfold sumif. cbn [fold_right]. ring.
Qed.
Lemma run_bin t cs : dist_on u t = true -> wf t (dist_ax u t) -> (forall c, In c cs -> particles_inside t c) -> forall s d, inrange (map an (dist_ax u t)) d ->
  d_hist (run cs s) t (index t (dist_ax u t) d) = d_hist s t (index t (dist_ax u t) d) + sumif (fun v => v_run v && incell (dist_ax u t) d (v_x v))%bool v_w (flat_map (visits t) cs).
Proof.
  intros O W P s d D. rewrite run_hist, O. generalize (d_hist s t). induction cs as [|c cs IH]; intros h; cbn [fold_left flat_map]; [unfold sumif; cbn; ring|].
  rewrite IH by (intros; apply P; now right). rewrite hist_call_bin by (auto; apply P; now left). rewrite sumif_app. ring.
Qed.
Lemma run_total t cs : dist_on u t = true -> wf t (dist_ax u t) -> (forall c, In c cs -> particles_inside t c) -> forall s,
  sumbins (d_hist (run cs s) t) (total t (dist_ax u t)) = sumbins (d_hist s t) (total t (dist_ax u t)) + sumif (fun v => v_run v && inbox (dist_ax u t) (v_x v))%bool v_w (flat_map (visits t) cs).
Proof.
  intros O W P s. rewrite run_hist, O. generalize (d_hist s t). induction cs as [|c cs IH]; intros h; cbn [fold_left flat_map]; [unfold sumif; cbn; ring|].
  rewrite IH by (intros; apply P; now right). rewrite hist_call_total by (auto; apply P; now left). rewrite sumif_app. ring.
Qed.

(** ** Residence time *)
(** the life of a marker of weight w: when it starts, then the states after each of its steps (time, coordinates, still running) *)
Record life := Life { l_w : R; l_t0 : R; l_steps : list (R * list R); l_end : R * list R }.
Fixpoint seen (w t0 : R) (l : list (R * list R)) (e : R * list R) : list visit :=
  match l with
  | [] => [Visit false (snd e) (w * (fst e - t0))]
  | (t1, x) :: l => Visit true x (w * (t1 - t0)) :: seen w t1 l e
  end.
Definition seen_of (b : life) : list visit := seen (l_w b) (l_t0 b) (l_steps b) (l_end b).
Definition before_end (b : life) : R := last (map fst (l_steps b)) (l_t0 b).
Lemma last_cons {A} (l : list A) : forall a d, last (a :: l) d = last l a.
Proof. induction l as [|b l IH]; intros a d; [reflexivity|]. change (last (a :: b :: l) d) with (last (b :: l) d). rewrite IH. symmetry. apply IH. Qed.
Lemma seen_sum ax w l e : forall t0, Forall (fun p => inbox ax (snd p) = true) l -> sumif (fun v => v_run v && inbox ax (v_x v))%bool v_w (seen w t0 l e) = w * (last (map fst l) t0 - t0).
Proof.
  induction l as [|[t1 x] l IH]; intros t0 F; cbn [seen].
  - unfold sumif. cbn. ring.
  - inversion F as [|? ? F1 F2]; subst. cbn [snd] in F1. unfold sumif. cbn [fold_right v_run v_x v_w andb]. rewrite F1. fold (sumif (fun v => v_run v && inbox ax (v_x v))%bool v_w (seen w t1 l e)). rewrite IH by exact F2.
    cbn [map fst]. rewrite last_cons. ring.
Qed.
Lemma residence t cs s lives : dist_on u t = true -> wf t (dist_ax u t) -> (forall c, In c cs -> particles_inside t c) ->
  Permutation (flat_map (visits t) cs) (flat_map seen_of lives) -> Forall (fun b => Forall (fun p => inbox (dist_ax u t) (snd p) = true) (l_steps b)) lives ->
  sumbins (d_hist (run cs s) t) (total t (dist_ax u t)) = sumbins (d_hist s t) (total t (dist_ax u t)) + fold_right (fun b a => l_w b * (before_end b - l_t0 b) + a) 0 lives.
Proof.
  intros O W P PM F. rewrite run_total by assumption. f_equal. rewrite (sumif_perm _ _ _ _ PM). clear PM.
  induction lives as [|b lives IH]; cbn [flat_map fold_right]; [reflexivity|]. inversion F as [|? ? F1 F2]; subst. rewrite sumif_app, IH by exact F2. unfold seen_of at 1. rewrite seen_sum by exact F1. reflexivity.
Qed.

(** ** Backward in time *)
Lemma sumif_nonpos {A} f w (l : list A) : (forall a, In a l -> w a <= 0) -> sumif f w l <= 0.
Proof. unfold sumif. induction l as [|a l IH]; intros H; cbn [fold_right]; [lra|]. assert (w a <= 0) by (apply H; now left). assert (fold_right (fun a s => (if f a then w a else 0) + s) 0 l <= 0) by (apply IH; intros; apply H; now right). destruct (f a); lra. Qed.
Lemma backward t cs d : dist_on u t = true -> wf t (dist_ax u t) -> (forall c, In c cs -> particles_inside t c) -> inrange (map an (dist_ax u t)) d ->
  (forall v, In v (flat_map (visits t) cs) -> v_w v <= 0) -> d_hist (run cs (snd diag_init)) t (index t (dist_ax u t) d) <= 0.
Proof. intros O W P D V. rewrite run_bin by assumption. cbn [snd diag_init d_hist]. pose proof (sumif_nonpos (fun v => v_run v && incell (dist_ax u t) d (v_x v))%bool v_w _ V). lra. Qed.
End Dg.
