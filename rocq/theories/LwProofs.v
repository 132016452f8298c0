From Coq Require Import Reals ZArith List String Bool Lia Lra Permutation.
Import ListNotations.
From Verif Require Import Vec Deriv ErrorModel ErrorProofs AxisModel SplineModel SplineProofs SplineProps LintModel GsModel GsProofs GsProps BfModel BfProofs BfProps NeutralModel NeutralProofs NeutralProps MhdModel MhdProofs.
From Verif Require Import MainModel HdfModel HmkModel HinModel HinProofs HuseModel HuseProofs HqryProofs LwModel.
Import Verif.Vec.
Local Open Scope string_scope.
Local Open Scope R_scope.

(** ** The loop over the points *)
(** the element after the assignments of its own iteration *)
Definition after (l : assignments) (a : string) (old : R) : R := fold_left (fun v p => if String.eqb a (fst p) then snd p else v) l old.
Lemma assign_all k l : forall s a j, fold_left (assign k) l s a j = if Nat.eqb j k then after l a (s a j) else s a j.
Proof.
  induction l as [|p l IH]; intros s a j; cbn [fold_left after]; [now destruct (Nat.eqb j k)|]. rewrite IH. unfold assign, after. cbn [fold_left].
  destruct (Nat.eqb j k), (String.eqb a (fst p)); reflexivity.
Qed.
Lemma points_spec body : forall order s s', NoDup order -> for_all_points order body s = Some s' ->
  (forall k, In k order -> exists l, body k = Some l /\ forall a, s' a k = after l a (s a k)) /\ (forall k a, ~ In k order -> s' a k = s a k).
Proof.
  induction order as [|k rest IH]; intros s s' ND H; cbn [for_all_points] in H.
  - injection H as <-. split; [intros k []|auto].
  - destruct (body k) as [l|] eqn:E; [|discriminate]. inversion_clear ND as [|? ? NI ND']. destruct (IH _ _ ND' H) as [A B]. split.
    + intros j [<-|I].
      * exists l. split; [exact E|]. intros a. rewrite (B k a NI), assign_all, Nat.eqb_refl. reflexivity.
      * destruct (A j I) as (l' & E' & V). exists l'. split; [exact E'|]. intros a. rewrite V, assign_all. destruct (Nat.eqb j k) eqn:Q; [|reflexivity]. apply Nat.eqb_eq in Q. subst. contradiction.
    + intros j a N. rewrite B by (intros I; apply N; right; exact I). rewrite assign_all. destruct (Nat.eqb j k) eqn:Q; [|reflexivity]. apply Nat.eqb_eq in Q. subst. exfalso. apply N. left. reflexivity.
Qed.
Lemma points_some body : forall order s, (forall k, In k order -> body k <> None) -> exists s', for_all_points order body s = Some s'.
Proof.
  induction order as [|k rest IH]; intros s H; cbn [for_all_points]; [eauto|]. destruct (body k) as [l|] eqn:E; [|exfalso; apply (H k); [left; reflexivity|exact E]]. apply IH. intros j J. apply H. right. exact J.
Qed.
Lemma points_none body : forall order s k, In k order -> body k = None -> for_all_points order body s = None.
Proof.
  induction order as [|j rest IH]; intros s k I N; [destruct I|]. cbn [for_all_points]. destruct I as [<-|I]; [now rewrite N|]. destruct (body j); [|reflexivity]. eauto.
Qed.
Lemma order_facts order n : Permutation order (seq 0 n) -> NoDup order /\ forall k, In k order <-> (k < n)%nat.
Proof.
  intros P. split; [eapply Permutation_NoDup; [apply Permutation_sym; exact P|apply seq_NoDup]|]. intros k. split; intros H.
  - apply (Permutation_in _ P) in H. apply in_seq in H. lia.
  - apply (Permutation_in _ (Permutation_sym P)). apply in_seq. lia.
Qed.
Theorem order_free body order order' n s : Permutation order (seq 0 n) -> Permutation order' (seq 0 n) ->
  match for_all_points order body s, for_all_points order' body s with
  | Some s1, Some s2 => forall a k, s1 a k = s2 a k
  | None, None => True
  | _, _ => False
  end.
Proof.
  intros P P'. destruct (order_facts _ _ P) as [ND I]. destruct (order_facts _ _ P') as [ND' I'].
  destruct (for_all_points order body s) as [s1|] eqn:E; destruct (for_all_points order' body s) as [s2|] eqn:E'.
  - destruct (points_spec _ _ _ _ ND E) as [A B]. destruct (points_spec _ _ _ _ ND' E') as [A' B']. intros a k. destruct (in_dec Nat.eq_dec k order) as [Q|Q].
    + destruct (A k Q) as (l & L & V). destruct (A' k ltac:(apply I', I, Q)) as (l' & L' & V'). rewrite L in L'. injection L' as <-. now rewrite V, V'.
    + rewrite (B k a Q), (B' k a); [reflexivity|]. intros X. apply Q, I, I', X.
  - assert (X : exists s2, for_all_points order' body s = Some s2); [|destruct X; congruence]. apply points_some. intros k K N.
    rewrite (points_none body order s k ltac:(apply I, I', K) N) in E. discriminate.
  - assert (X : exists s1, for_all_points order body s = Some s1); [|destruct X; congruence]. apply points_some. intros k K N.
    rewrite (points_none body order' s k ltac:(apply I', I, K) N) in E'. discriminate.
  - trivial.
Qed.
Theorem defined_iff body order n s : Permutation order (seq 0 n) -> ((exists s', for_all_points order body s = Some s') <-> forall k, (k < n)%nat -> body k <> None).
Proof.
  intros P. destruct (order_facts _ _ P) as [ND I]. split.
  - intros [s' E] k K N. rewrite (points_none body order s k ltac:(apply I, K) N) in E. discriminate.
  - intros H. apply points_some. intros k K. apply H, I, K.
Qed.

Section result.
Context (order : list nat) (n : nat) (body : nat -> option assignments) (s s' : store).
Hypothesis P : Permutation order (seq 0 n).
Hypothesis E : for_all_points order body s = Some s'.
Lemma inside_points k l : (k < n)%nat -> body k = Some l -> forall a, s' a k = after l a (s a k).
Proof. intros K L a. destruct (order_facts _ _ P) as [ND I]. destruct (points_spec _ _ _ _ ND E) as [A _]. destruct (A k ltac:(apply I, K)) as (l' & L' & V). rewrite L in L'. injection L' as <-. apply V. Qed.
Lemma outside_points k a : (n <= k)%nat -> s' a k = s a k.
Proof. intros K. destruct (order_facts _ _ P) as [ND I]. destruct (points_spec _ _ _ _ ND E) as [_ B]. apply B. intros X. apply I in X. lia. Qed.
End result.
(** nothing changes beyond the points asked for and where the evaluation fails *)
Definition kept (n : nat) (failed : nat -> Prop) (s s' : store) : Prop := forall k, (n <= k)%nat \/ failed k -> forall a, s' a k = s a k.
Lemma kept_of order n body s s' (failed : nat -> Prop) : Permutation order (seq 0 n) -> for_all_points order body s = Some s' -> (forall k, failed k -> body k = Some []) -> kept n failed s s'.
Proof.
  intros P E F k [K|K] a; [eapply outside_points; eauto|]. destruct (Nat.lt_ge_cases k n) as [L|L]; [|eapply outside_points; eauto].
  rewrite (inside_points order n body s s' P E k [] L (F k K) a). reflexivity.
Qed.
Ltac points I := repeat match goal with |- context [?s' ?a ?k] => is_var s'; rewrite (I a) end; cbn.

Section queries.
Context (r phi z t : nat -> R) (order : list nat) (n : nat) (s s' : store).
Hypothesis P : Permutation order (seq 0 n).

(** ** Magnetic field *)
Definition field_failed (B : bfield) (k : nat) : Prop := exists e v, e <> 0%Z /\ B_field_eval_B_dB B (r k) (phi k) (z k) = Out e v.
Lemma nz e : e <> 0%Z -> negb (e =? 0)%Z = true. Proof. intros H. apply Z.eqb_neq in H. now rewrite H. Qed.
Theorem query_field B : for_all_points order (point_B_dB r phi z B) s = Some s' ->
  kept n (field_failed B) s s' /\
  forall k v F, (k < n)%nat -> B_field_eval_B_dB B (r k) (phi k) (z k) = Out 0 v -> jac_of F (r k) (phi k) (z k) v ->
    V (s' "BR" k) (s' "Bphi" k) (s' "Bz" k) = F (r k) (phi k) (z k) /\
    Dx (fun x => vx (F x (phi k) (z k))) (r k) (s' "BR_dR" k) /\ Dx (fun x => vx (F (r k) x (z k))) (phi k) (s' "BR_dphi" k) /\ Dx (fun x => vx (F (r k) (phi k) x)) (z k) (s' "BR_dz" k) /\
    Dx (fun x => vy (F x (phi k) (z k))) (r k) (s' "Bphi_dR" k) /\ Dx (fun x => vy (F (r k) x (z k))) (phi k) (s' "Bphi_dphi" k) /\ Dx (fun x => vy (F (r k) (phi k) x)) (z k) (s' "Bphi_dz" k) /\
    Dx (fun x => vz (F x (phi k) (z k))) (r k) (s' "Bz_dR" k) /\ Dx (fun x => vz (F (r k) x (z k))) (phi k) (s' "Bz_dphi" k) /\ Dx (fun x => vz (F (r k) (phi k) x)) (z k) (s' "Bz_dz" k).
Proof.
  intros E. split.
  - apply (kept_of _ _ _ _ _ _ P E). intros k (e & v & N & X). unfold point_B_dB. rewrite X. cbn [if_ok]. now rewrite nz.
  - intros k v F K X (J1 & J2). assert (X' := X). assert (L : exists l, point_B_dB r phi z B k = Some l /\ l = [("BR", v 0%nat); ("Bphi", v 4%nat); ("Bz", v 8%nat);
      ("BR_dR", v 1%nat); ("BR_dphi", v 2%nat); ("BR_dz", v 3%nat); ("Bphi_dR", v 5%nat); ("Bphi_dphi", v 6%nat); ("Bphi_dz", v 7%nat); ("Bz_dR", v 9%nat); ("Bz_dphi", v 10%nat); ("Bz_dz", v 11%nat)]).
    { eexists. split; [|reflexivity]. unfold point_B_dB. rewrite X. reflexivity. }
    destruct L as (l & L & El). pose proof (inside_points order n _ s s' P E k l K L) as I. rewrite El in I. clear El L.
    rewrite !I. cbn. rewrite <- J1.
    destruct (J2 0%nat vx ltac:(left; reflexivity)) as (A1 & A2 & A3). destruct (J2 4%nat vy ltac:(right; left; reflexivity)) as (A4 & A5 & A6). destruct (J2 8%nat vz ltac:(right; right; left; reflexivity)) as (A7 & A8 & A9).
    cbn in A1, A2, A3, A4, A5, A6, A7, A8, A9. repeat split; assumption.
Qed.
(** the analytic equilibrium *)
Theorem query_analytic g : 0 < gR0 g -> (forall k, (k < n)%nat -> 0 < r k /\ ripple_smooth g (r k) (z k)) ->
  exists s', for_all_points order (point_B_dB r phi z (BF_GS g)) s = Some s' /\
  forall k, (k < n)%nat -> B_field_eval_B (BF_GS g) (r k) (phi k) (z k) = Out 0 (V (s' "BR" k) (s' "Bphi" k) (s' "Bz" k)) /\ jac_of (B_GS_eval_B g) (r k) (phi k) (z k)
    (fun i => nth i [s' "BR" k; s' "BR_dR" k; s' "BR_dphi" k; s' "BR_dz" k; s' "Bphi" k; s' "Bphi_dR" k; s' "Bphi_dphi" k; s' "Bphi_dz" k; s' "Bz" k; s' "Bz_dR" k; s' "Bz_dphi" k; s' "Bz_dz" k] 0).
Proof.
  intros G H. destruct (proj2 (defined_iff (point_B_dB r phi z (BF_GS g)) order n s P)) as [s1 E]; [intros k K; cbn; discriminate|]. exists s1. split; [exact E|].
  intros k K. destruct (H k K) as [R0 SM]. assert (J := gs_jacobian_l g (r k) (phi k) (z k) G R0 SM).
  assert (L : exists l, point_B_dB r phi z (BF_GS g) k = Some l /\ l = let v := B_GS_eval_B_dB g (r k) (phi k) (z k) in [("BR", v 0%nat); ("Bphi", v 4%nat); ("Bz", v 8%nat);
      ("BR_dR", v 1%nat); ("BR_dphi", v 2%nat); ("BR_dz", v 3%nat); ("Bphi_dR", v 5%nat); ("Bphi_dphi", v 6%nat); ("Bphi_dz", v 7%nat); ("Bz_dR", v 9%nat); ("Bz_dphi", v 10%nat); ("Bz_dz", v 11%nat)]).
  { eexists. split; reflexivity. }
  destruct L as (l & L & El). pose proof (inside_points order n _ s s1 P E k l K L) as I. rewrite El in I. clear El L. rewrite !I. cbn [after fold_left fst snd String.eqb Ascii.eqb Bool.eqb].
  destruct J as (J1 & J2). split.
  - unfold B_field_eval_B. cbn [wrapup]. f_equal. symmetry. exact J1.
  - split; [exact J1|]. intros i c [Q|[Q|[Q|[]]]]; injection Q as <- <-; [exact (J2 0%nat vx ltac:(left; reflexivity))|exact (J2 4%nat vy ltac:(right; left; reflexivity))|exact (J2 8%nat vz ltac:(right; right; left; reflexivity))].
Qed.

(** ** Flux and normalised radius *)
Definition flux_failed (B : bfield) (k : nat) : Prop := exists e v, e <> 0%Z /\ B_field_eval_psi_dpsi B (r k) (phi k) (z k) = Out e v.
Theorem query_rho B : for_all_points order (point_rho r phi z B) s = Some s' ->
  kept n (flux_failed B) s s' /\
  forall k p g, (k < n)%nat -> B_field_eval_psi_dpsi B (r k) (phi k) (z k) = Out 0 (p, g) ->
    s' "psi" k = p /\ V (s' "dpsidr" k) (s' "dpsidphi" k) (s' "dpsidz" k) = g /\
    (B <> BF_unknown -> fst (psi_limits B) <> snd (psi_limits B) -> 0 < norm_psi B p ->
       s' "rho" k = sqrt (norm_psi B (s' "psi" k)) /\ Dx (fun x => sqrt (norm_psi B x)) (s' "psi" k) (s' "drhodpsi" k)) /\
    (fst (psi_limits B) <> snd (psi_limits B) -> norm_psi B p < 0 -> s' "rho" k = s "rho" k /\ s' "drhodpsi" k = s "drhodpsi" k).
Proof.
  intros E. split.
  - apply (kept_of _ _ _ _ _ _ P E). intros k (e & v & N & X). unfold point_rho. rewrite X. cbn [if_ok]. now rewrite nz.
  - intros k p g K X. destruct (point_rho r phi z B k) as [l|] eqn:L.
    2: { exfalso. apply (proj1 (defined_iff _ _ _ s P) ltac:(eauto) k K L). }
    pose proof (inside_points order n _ s s' P E k l K L) as I. unfold point_rho in L. rewrite X in L. cbn [if_ok Z.eqb negb] in L.
    assert (Q : exists m, l = ([("psi", p); ("dpsidr", vx g); ("dpsidphi", vy g); ("dpsidz", vz g)] ++ m)%list /\ if_ok (B_field_eval_rho B p) (fun '(x, d) => Some [("rho", x); ("drhodpsi", d)]) = Some m).
    { destruct (if_ok (B_field_eval_rho B p) (fun '(x, d) => Some [("rho", x); ("drhodpsi", d)])) as [m|]; [|discriminate]. injection L as <-. exists m. auto. }
    destruct Q as (m & -> & M). assert (MM : m = [] \/ exists x d, B_field_eval_rho B p = Out 0 (x, d) /\ m = [("rho", x); ("drhodpsi", d)]).
    { destruct (B_field_eval_rho B p) as [e [x d]| |]; cbn [if_ok] in M; try discriminate. destruct (negb (e =? 0)%Z) eqn:Ez; injection M as <-; [left; reflexivity|]. right. exists x, d. apply negb_false_iff, Z.eqb_eq in Ez. subst. auto. }
    assert (V1 : s' "psi" k = p /\ s' "dpsidr" k = vx g /\ s' "dpsidphi" k = vy g /\ s' "dpsidz" k = vz g).
    { rewrite !I. destruct MM as [->|(x & d & _ & ->)]; cbn; auto. }
    destruct V1 as (V1 & V2 & V3 & V4). split; [exact V1|]. split; [rewrite V2, V3, V4; now destruct g|].
    split; intros.
    + destruct (BfProofs.eval_rho_main B p) as (Y & _); [assumption|]. destruct (Y ltac:(assumption) ltac:(assumption)) as [Y1 Y2]. rewrite V1. rewrite !I. rewrite Y1 in M. cbn in M. injection M as <-. cbn. auto.
    + destruct (BfProofs.eval_rho_main B p) as (_ & _ & Y); [assumption|]. destruct Y as (e & N & Y); [auto|]. rewrite Y in M. cbn [if_ok] in M. rewrite (nz e N) in M. injection M as <-. rewrite !I. cbn. auto.
Qed.
Theorem query_axis B : for_all_points order (point_axis phi B) s = Some s' ->
  kept n (fun k => exists e v, e <> 0%Z /\ B_field_get_axis_rz B (phi k) = Out e v) s s' /\
  forall k v, (k < n)%nat -> B_field_get_axis_rz B (phi k) = Out 0 v -> (s' "Raxis" k, s' "zaxis" k) = v.
Proof.
  intros E. split.
  - apply (kept_of _ _ _ _ _ _ P E). intros k (e & v & N & X). unfold point_axis. rewrite X. cbn [if_ok]. now rewrite nz.
  - intros k [x y] K X. assert (L : point_axis phi B k = Some [("Raxis", x); ("zaxis", y)]) by (unfold point_axis; rewrite X; reflexivity).
    pose proof (inside_points order n _ s s' P E k _ K L) as I. rewrite !I. reflexivity.
Qed.
Theorem query_E Ef B : for_all_points order (point_E r phi z Ef B) s = Some s' ->
  kept n (fun k => exists e, E_field_eval_E Ef B (r k) (phi k) (z k) = FErr e) s s' /\
  forall k v, (k < n)%nat -> E_field_eval_E Ef B (r k) (phi k) (z k) = FVal v -> V (s' "ER" k) (s' "Ephi" k) (s' "Ez" k) = v.
Proof.
  intros E. split.
  - apply (kept_of _ _ _ _ _ _ P E). intros k (e & X). unfold point_E. now rewrite X.
  - intros k v K X. assert (L : point_E r phi z Ef B k = Some [("ER", vx v); ("Ephi", vy v); ("Ez", vz v)]) by (unfold point_E; rewrite X; reflexivity).
    pose proof (inside_points order n _ s s' P E k _ K L) as I. rewrite !I. now destruct v.
Qed.
End queries.

(** ** Neutral density *)
Lemma eval_all_vals nsp ev line ef old f i : eval_all nsp ev line ef old = Some (0%Z, f) -> (0 <= line < 1000)%Z -> (i < nsp)%nat -> exists v, ev i = Val v /\ f i = v.
Proof.
  unfold eval_all. intros H NE L. destruct (existsb (fun i => isO (ev i)) (seq 0 nsp)) eqn:O; [discriminate|]. injection H as H1 <-.
  destruct (existsb (fun i => isE (ev i)) (seq 0 nsp)) eqn:X; [exfalso; revert H1; apply raise_nonzero; lia|].
  assert (I : In i (seq 0 nsp)) by (apply in_seq; lia). destruct (ev i) as [| |v] eqn:V.
  - exfalso. assert (existsb (fun i => isE (ev i)) (seq 0 nsp) = true) by (apply existsb_exists; exists i; split; [exact I|now rewrite V]). congruence.
  - exfalso. assert (existsb (fun i => isO (ev i)) (seq 0 nsp) = true) by (apply existsb_exists; exists i; split; [exact I|now rewrite V]). congruence.
  - exists v. split; [reflexivity|]. apply Nat.ltb_lt in L. now rewrite L.
Qed.

Lemma all_stored nd rho r phi z junk f i : neutral_eval_n0 nd rho r phi z junk = Some (0%Z, f) -> (i < neutral_get_n_species nd)%nat -> stores_n0 nd rho r phi z i = true.
Proof.
  intros H L. apply first_default_spec in H. destruct H as (f0 & H & _). destruct nd as [d|d|]; cbn [neutral_get_n_species stores_n0] in *; [| |lia].
  - unfold N0_1D_eval_n0 in H. apply (eval_all_vals _ _ _ _ _ _ i) in H; [|lia|exact L]. destruct H as (v & E & _). cbn beta in E. now rewrite E.
  - unfold N0_3D_eval_n0 in H. apply (eval_all_vals _ _ _ _ _ _ i) in H; [|lia|exact L]. destruct H as (v & E & _). cbn beta in E. now rewrite E.
Qed.
Section density.
Context (r phi z : nat -> R) (order : list nat) (n : nat) (s s' : store) (junk : nat -> R) (B : bfield) (nd : neutral).
Hypothesis P : Permutation order (seq 0 n).
(** the flux, the radius and the densities are known at the point *)
Definition known_density (k : nat) (f : nat -> R) : Prop := exists psi rho d, B_field_eval_psi B (r k) (phi k) (z k) = Out 0 psi /\ B_field_eval_rho B psi = Out 0 (rho, d) /\
  neutral_eval_n0 nd rho (r k) (phi k) (z k) junk = Some (0%Z, f).
Theorem query_density : (neutral_get_n_species nd <= 1)%nat -> for_all_points order (point_density r phi z junk B nd) s = Some s' ->
  forall k f, (k < n)%nat -> known_density k f -> s' "dens" k = f 0%nat.
Proof.
  intros N E k f K (psi & rho & d & H1 & H2 & H3). assert (L : point_density r phi z junk B nd k = Some [("dens", f 0%nat)]).
  { unfold point_density. rewrite H1. cbn [if_ok Z.eqb negb]. rewrite H2. cbn [if_ok Z.eqb negb]. replace (neutral_get_n_species nd - 1)%nat with 0%nat by lia. cbn [seq existsb]. rewrite H3. reflexivity. }
  rewrite (inside_points order n _ s s' P E k _ K L). reflexivity.
Qed.
Theorem query_density_overflow : (2 <= neutral_get_n_species nd)%nat -> (exists k f, (k < n)%nat /\ known_density k f) ->
  for_all_points order (point_density r phi z junk B nd) s = None.
Proof.
  intros N (k & f & K & (psi & rho & d & H1 & H2 & H3)). apply (points_none _ order s k); [apply (order_facts _ _ P), K|].
  unfold point_density. rewrite H1. cbn [if_ok Z.eqb negb]. rewrite H2. cbn [if_ok Z.eqb negb].
  replace (existsb (stores_n0 nd rho (r k) (phi k) (z k)) (seq 1 (neutral_get_n_species nd - 1))) with true; [reflexivity|]. symmetry. apply existsb_exists. exists 1%nat.
  split; [apply in_seq; lia|]. eapply all_stored; [exact H3|lia].
Qed.
End density.

(** ** Boozer coordinates and perturbations *)
Section perturbed.
Variable inpoly : R -> R -> bool.
Variable evalpsi : R -> R -> R -> R -> Z * (nat -> R).
Variable evalrho : R -> Z * (nat -> R).
Variable axis : R -> Z * (nat -> R).
Variables thspl nuspl : R -> R -> bool * (nat -> R).
Variables psimin psimax : R.
Variable evalBdB : R -> R -> R -> R -> Z * (nat -> R).
Notation boozer_eval := (boozer_eval inpoly evalpsi evalrho axis thspl nuspl psimin psimax).
Notation mhd_eval := (mhd_eval inpoly evalpsi evalrho axis thspl nuspl psimin psimax).
Notation psi_f := (MhdProofs.psi_f evalpsi).
Notation rho_f := (MhdProofs.rho_f evalrho).
Notation theta_f := (MhdProofs.theta_f evalpsi thspl).
Notation zeta_f := (MhdProofs.zeta_f evalpsi thspl nuspl).
Notation covered := (MhdProofs.covered inpoly evalpsi evalrho axis thspl nuspl psimin psimax).
Notation smooth := (MhdProofs.smooth evalpsi evalrho thspl nuspl).
Notation near_covered := (MhdProofs.near_covered inpoly evalpsi evalrho axis thspl nuspl psimin psimax).
Notation ptz_f := (MhdProofs.ptz_f inpoly evalpsi evalrho axis thspl nuspl psimin psimax).
Notation out_f := (MhdProofs.out_f inpoly evalpsi evalrho axis thspl nuspl psimin psimax).
Notation stat_covered := (MhdProofs.stat_covered inpoly evalpsi evalrho axis thspl nuspl psimin psimax).
Context (r phi z t : nat -> R) (order : list nat) (n : nat) (s s' : store) (junk jrho out0 : nat -> R).
Hypothesis P : Permutation order (seq 0 n).

Theorem query_boozer : for_all_points order (point_boozer r phi z (boozer_eval junk) evalrho) s = Some s' ->
  kept n (fun k => exists e ins p, boozer_eval junk (r k) (phi k) (z k) = Some (e, ins, p) /\ (e <> 0%Z \/ ins = false)) s s' /\
  forall k r0 z0, (k < n)%nat -> near_covered r0 z0 (r k) (phi k) (z k) -> smooth r0 z0 (r k) (phi k) (z k) -> snd (evalpsi (r k) (phi k) (z k) 0) 2%nat = 0 ->
    s' "psi" k = psi_f (r k) (phi k) (z k) /\ s' "theta" k = theta_f r0 z0 (r k) (phi k) (z k) /\ (exists m, s' "zeta" k = zeta_f r0 z0 (r k) (phi k) (z k) + 2 * PI * IZR m) /\
    s' "rho" k = rho_f (psi_f (r k) (phi k) (z k)) /\
    diff3 (ptz_f junk 0) (r k) (phi k) (z k) (s' "dpsidr" k) (s' "dpsidphi" k) (s' "dpsidz" k) /\
    diff3 (ptz_f junk 4) (r k) (phi k) (z k) (s' "dthetadr" k) (s' "dthetadphi" k) (s' "dthetadz" k) /\
    (s' "zeta" k <> 0 -> diff3 (ptz_f junk 8) (r k) (phi k) (z k) (s' "dzetadr" k) (s' "dzetadphi" k) (s' "dzetadz" k)).
Proof.
  intros E. split.
  - apply (kept_of _ _ _ _ _ _ P E). intros k (e & ins & p & X & [N|N]); unfold point_boozer; rewrite X; [now rewrite nz|]. subst ins. cbn [negb]. now destruct (negb (e =? 0)%Z).
  - intros k r0 z0 K NC SM AX. assert (C : covered r0 z0 (r k) (phi k) (z k)) by exact (near4_here _ _ _ _ _ NC).
    destruct (boozer_covered inpoly evalpsi evalrho axis thspl nuspl psimin psimax junk r0 z0 _ _ _ C) as (p & X & P0 & P4 & P8 & _).
    destruct (boozer_ranges inpoly evalpsi evalrho axis thspl nuspl psimin psimax junk r0 z0 _ _ _ C) as (_ & m & ZE).
    pose proof (boozer_gradients inpoly evalpsi evalrho axis thspl nuspl psimin psimax junk r0 z0 _ _ _ NC SM AX) as G.
    assert (PT : forall i, ptz_f junk i (r k) (phi k) (z k) = p i) by (intros i; unfold MhdProofs.ptz_f; rewrite X; reflexivity).
    cbv zeta beta in G. rewrite !PT in G. rewrite PT in ZE.
    destruct C as (_ & _ & RH & _). destruct (evalrho (psi_f (r k) (phi k) (z k))) as [e x] eqn:RE. cbn [fst] in RH. subst e.
    assert (L : exists l, point_boozer r phi z (boozer_eval junk) evalrho k = Some l /\ l = [("psi", p 0%nat); ("theta", p 4%nat); ("zeta", p 8%nat);
     ("dpsidr", p 1%nat); ("dpsidphi", p 2%nat); ("dpsidz", p 3%nat); ("dthetadr", p 5%nat); ("dthetadphi", p 6%nat); ("dthetadz", p 7%nat);
     ("dzetadr", p 9%nat); ("dzetadphi", p 10%nat); ("dzetadz", p 11%nat); ("rho", x 0%nat)]).
    { eexists. split; [|reflexivity]. unfold point_boozer. rewrite X. cbn [Z.eqb negb]. rewrite P0, RE. reflexivity. }
    destruct L as (l & L & El). pose proof (inside_points order n _ s s' P E k l K L) as I. rewrite El in I. clear El L. rewrite !I. cbn [after fold_left fst snd String.eqb Ascii.eqb Bool.eqb].
    destruct G as (G1 & G2 & G3). repeat split; try assumption.
    + exists m. exact ZE.
    + unfold MhdProofs.rho_f. rewrite RE. reflexivity.
Qed.

Theorem query_mhd ds inc : for_all_points order (point_mhd r phi z t (mhd_eval junk jrho out0 (MStat ds)) inc) s = Some s' ->
  forall k r0 z0, (k < n)%nat -> let ms := chosen inc 0 ds in
  near4 (r k) (phi k) (z k) (t k) (stat_covered r0 z0 ms) -> smooth r0 z0 (r k) (phi k) (z k) -> r k <> 0 -> snd (evalpsi (r k) (phi k) (z k) 0) 2%nat = 0 ->
  let rho := rho_f (psi_f (r k) (phi k) (z k)) in
  (forall d, In d ms -> Dx (fun x => snd (malpha d x) 0%nat) rho (snd (malpha d rho) 1%nat) /\ Dx (fun x => snd (mphi d x) 0%nat) rho (snd (mphi d rho) 1%nat)) ->
  let wave_at d a := wave d a (zeta_f r0 z0 (r k) (phi k) (z k)) (theta_f r0 z0 (r k) (phi k) (z k)) (t k) in
  let o := fun i => out_f stat_mode junk jrho ds inc i in
  s' "alpha" k = sumL (fun d => wave_at d (snd (malpha d rho) 0%nat)) ms /\ s' "Phi" k = sumL (fun d => wave_at d (snd (mphi d rho) 0%nat)) ms /\
  s' "alpha" k = o 0%nat (r k) (phi k) (z k) (t k) /\ s' "Phi" k = o 5%nat (r k) (phi k) (z k) (t k) /\
  diff4 (o 0%nat) (r k) (phi k) (z k) (t k) (s' "dadr" k) (r k * s' "dadphi" k) (s' "dadz" k) (s' "dadt" k) /\
  diff4 (o 5%nat) (r k) (phi k) (z k) (t k) (s' "dPhidr" k) (r k * s' "dPhidphi" k) (s' "dPhidz" k) (s' "dPhidt" k).
Proof.
  intros E k r0 z0 K ms NC SM R0 AX rho D. pose proof (stat_gradients inpoly evalpsi evalrho axis thspl nuspl psimin psimax junk jrho ds inc r0 z0 _ _ _ _ NC SM R0 AX D) as (GA & GP).
  destruct (mhd_waves inpoly evalpsi evalrho axis thspl nuspl psimin psimax junk jrho ds inc r0 z0 _ _ _ _ (near4_here _ _ _ _ _ NC)) as (m & EM & W1 & W2).
  assert (OM : forall i, out_f stat_mode junk jrho ds inc i (r k) (phi k) (z k) (t k) = m i) by (intros i; unfold MhdProofs.out_f; rewrite EM; reflexivity).
  cbv zeta beta in GA, GP. rewrite !OM in GA, GP.
  assert (L : exists l, point_mhd r phi z t (mhd_eval junk jrho out0 (MStat ds)) inc k = Some l /\ l = [("alpha", m 0%nat); ("dadr", m 2%nat); ("dadphi", m 3%nat); ("dadz", m 4%nat); ("dadt", m 1%nat);
     ("Phi", m 5%nat); ("dPhidr", m 7%nat); ("dPhidphi", m 8%nat); ("dPhidz", m 9%nat); ("dPhidt", m 6%nat)]).
  { eexists. split; [|reflexivity]. unfold point_mhd, MhdModel.mhd_eval, mhd_stat_eval. rewrite EM. reflexivity. }
  destruct L as (l & L & El). pose proof (inside_points order n _ s s' P E k l K L) as I. rewrite El in I. clear El L. cbv zeta. rewrite !I, !OM. cbn [after fold_left fst snd String.eqb Ascii.eqb Bool.eqb].
  repeat split; try assumption; reflexivity.
Qed.
(** finding: the arrays for the toroidal derivative hold the component of the gradient *)
Theorem query_mhd_toroidal ds inc : for_all_points order (point_mhd r phi z t (mhd_eval junk jrho out0 (MStat ds)) inc) s = Some s' ->
  forall k r0 z0 d, (k < n)%nat -> let ms := chosen inc 0 ds in
  near4 (r k) (phi k) (z k) (t k) (stat_covered r0 z0 ms) -> smooth r0 z0 (r k) (phi k) (z k) -> r k <> 0 -> snd (evalpsi (r k) (phi k) (z k) 0) 2%nat = 0 ->
  let rho := rho_f (psi_f (r k) (phi k) (z k)) in
  (forall d, In d ms -> Dx (fun x => snd (malpha d x) 0%nat) rho (snd (malpha d rho) 1%nat) /\ Dx (fun x => snd (mphi d x) 0%nat) rho (snd (mphi d rho) 1%nat)) ->
  Dx (fun x => out_f stat_mode junk jrho ds inc 0%nat (r k) x (z k) (t k)) (phi k) d -> s' "dadphi" k = d / r k.
Proof.
  intros E k r0 z0 d K ms NC SM R0 AX rho D DD. destruct (query_mhd ds inc E k r0 z0 K NC SM R0 AX D) as (_ & _ & _ & _ & G & _).
  assert (X := G (fun _ => r k) (fun x => x) (fun _ => z k) (fun _ => t k) (phi k) 0 1 0 0 eq_refl eq_refl eq_refl eq_refl (d_const _ _) (d_id _) (d_const _ _) (d_const _ _)). cbn beta in X.
  assert (U : d = r k * s' "dadphi" k). { rewrite (d_uniq _ _ _ _ DD X). ring. } rewrite U. field. exact R0.
Qed.

Theorem query_perturbation ds inc : for_all_points order (point_pert r phi z t (mhd_perturbations inpoly evalpsi evalrho axis thspl nuspl psimin psimax evalBdB junk jrho out0 (MStat ds)) inc) s = Some s' ->
  forall k r0 z0 F b, (k < n)%nat -> let ms := chosen inc 0 ds in
  near4 (r k) (phi k) (z k) (t k) (stat_covered r0 z0 ms) -> smooth r0 z0 (r k) (phi k) (z k) -> 0 < r k -> snd (evalpsi (r k) (phi k) (z k) 0) 2%nat = 0 ->
  let rho := rho_f (psi_f (r k) (phi k) (z k)) in
  (forall d, In d ms -> Dx (fun x => snd (malpha d x) 0%nat) rho (snd (malpha d rho) 1%nat) /\ Dx (fun x => snd (mphi d x) 0%nat) rho (snd (mphi d rho) 1%nat)) ->
  evalBdB (r k) (phi k) (z k) (t k) = (0%Z, b) -> field_at F b (r k) (phi k) (z k) (t k) -> (forall i, (i < 3)%nat -> Dx (fun x => F i (r k) (phi k) (z k) x) (t k) 0) ->
  let al := out_f stat_mode junk jrho ds inc 0%nat in let ph := out_f stat_mode junk jrho ds inc 5%nat in
  curl_at (fun i r f z => al r f z (t k) * F i r f z (t k)) (r k) (phi k) (z k) (V (s' "mhd_br" k) (s' "mhd_bphi" k) (s' "mhd_bz" k)) /\ s' "mhd_phi" k = ph (r k) (phi k) (z k) (t k) /\
  exists pr pf pz a0 a1 a2,
    Dx (fun x => ph x (phi k) (z k) (t k)) (r k) pr /\ Dx (fun x => ph (r k) x (z k) (t k)) (phi k) pf /\ Dx (fun x => ph (r k) (phi k) x (t k)) (z k) pz /\
    Dx (fun x => al (r k) (phi k) (z k) x * F 0%nat (r k) (phi k) (z k) x) (t k) a0 /\ Dx (fun x => al (r k) (phi k) (z k) x * F 1%nat (r k) (phi k) (z k) x) (t k) a1 /\
    Dx (fun x => al (r k) (phi k) (z k) x * F 2%nat (r k) (phi k) (z k) x) (t k) a2 /\
    s' "mhd_er" k = - pr - a0 /\ s' "mhd_ephi" k = - (pf / r k) - a1 /\ s' "mhd_ez" k = - pz - a2.
Proof.
  intros E k r0 z0 F b K ms NC SM R0 AX rho D EB FA FT.
  destruct (perturbations_end_to_end inpoly evalpsi evalrho axis thspl nuspl psimin psimax evalBdB junk jrho out0 ds inc r0 z0 _ _ _ _ true F b NC SM R0 AX D EB FA FT)
    as (p & c & pr & pf & pz & a0 & a1 & a2 & X & CU & D1 & D2 & D3 & D4 & D5 & D6 & Q0 & Q1 & Q2 & Q3 & Q4 & Q5 & Q6).
  assert (L : exists l, point_pert r phi z t (mhd_perturbations inpoly evalpsi evalrho axis thspl nuspl psimin psimax evalBdB junk jrho out0 (MStat ds)) inc k = Some l /\
    l = [("mhd_br", p 0%nat); ("mhd_bphi", p 1%nat); ("mhd_bz", p 2%nat); ("mhd_er", p 3%nat); ("mhd_ephi", p 4%nat); ("mhd_ez", p 5%nat); ("mhd_phi", p 6%nat)]).
  { eexists. split; [|reflexivity]. unfold point_pert. rewrite X. reflexivity. }
  destruct L as (l & L & El). pose proof (inside_points order n _ s s' P E k l K L) as I. rewrite El in I. clear El L. cbv zeta. rewrite !I. cbn [after fold_left fst snd String.eqb Ascii.eqb Bool.eqb].
  split; [|split; [exact Q6|exists pr, pf, pz, a0, a1, a2; repeat split; assumption]].
  replace (V (p 0%nat) (p 1%nat) (p 2%nat)) with c; [exact CU|]. rewrite Q0, Q1, Q2. destruct c. cbn. f_equal; ring.
Qed.
End perturbed.

(** ** Species from the file *)
Definition plasma_file_kind (path : string) (rd : reader) (sh : shape) (tab : list (string * want)) : Prop :=
  (path, rd, sh, tab) = ("/plasma/plasma_1D_XXXXXXXXXX/", rplasma_1D, s_P1, t_P1) \/ (path, rd, sh, tab) = ("/plasma/plasma_1Dt_XXXXXXXXXX/", rplasma_1Dt, s_Pt, t_Pt) \/
  (path, rd, sh, tab) = ("/plasma/plasma_1DS_XXXXXXXXXX/", rplasma_1DS, s_PS, t_PS).
Lemma kind_facts path rd sh tab : plasma_file_kind path rd sh tab -> In (path, rd, sh, tab) inputs /\ (forall x, In x s_ions -> In x sh) /\
  find tab "nion" = Some (WI "nion") /\ find tab "anum" = Some (WI "anum") /\ find tab "znum" = Some (WI "znum") /\ find tab "mass" = Some (WMass "mass") /\ find tab "charge" = Some (WCharge "charge").
Proof.
  intros [H|[H|H]]; injection H as -> -> -> ->; (split; [unfold inputs; HuseProofs.pick|]); (split; [intros x X; apply in_or_app; left; exact X|]); repeat split; reflexivity.
Qed.
Lemma nth_error_nth_map {A B} (f : A -> B) l i d : (i < List.length l)%nat -> nth_error (map f l) i = Some (f (nth i l d)).
Proof. intros L. rewrite nth_error_map. rewrite (nth_error_nth' l d L). reflexivity. Qed.
Lemma entries1 c ds : entries c (Prod 1 [ds]) = intd c ds.
Proof. unfold entries, prodZ, intd. cbn [map fold_right]. lia. Qed.
Theorem species_file path rd sh tab f qid c s : plasma_file_kind path rd sh tab -> complete f path qid c sh ->
  exists res, read_input rd f qid s = Ok res /\ let sp := plasma_species res in
  sp_n sp = (intd c "nion" + 1)%Z /\ species_row sp 0 = Some (9.1094e-31, - (1.602176565e-19), 0%Z, 0%Z) /\
  (forall i, (Z.of_nat i < intd c "nion")%Z ->
     species_row sp (S i) = Some (1.660538921e-27 * nth i (cr c "mass") 0, IZR (nth i (ci c "charge") 0%Z) * 1.602176565e-19, nth i (ci c "anum") 0%Z, nth i (ci c "znum") 0%Z)) /\
  (forall i, (intd c "nion" < Z.of_nat i)%Z -> (0 < i)%nat -> species_row sp i = None).
Proof.
  intros KD C. destruct (kind_facts _ _ _ _ KD) as (IN & SH & F1 & F2 & F3 & F4 & F5).
  destruct (input_delivered path rd sh tab f qid c s IN C) as (res & RD & D). exists res. split; [exact RD|]. cbv zeta.
  pose proof (get_z c tab res _ _ D F1) as N. apply (deliv c tab res _ _ D) in F2, F3, F4, F5. cbn [holds] in F2, F3, F4, F5.
  assert (LA : Z.of_nat (List.length (ci c "anum")) = intd c "nion") by (destruct (C "anum" true (Prod 1 ["nion"]) ltac:(apply SH; HuseProofs.pick)) as (d & _ & _ & _ & L); rewrite L; apply entries1).
  assert (LZ : Z.of_nat (List.length (ci c "znum")) = intd c "nion") by (destruct (C "znum" true (Prod 1 ["nion"]) ltac:(apply SH; HuseProofs.pick)) as (d & _ & _ & _ & L); rewrite L; apply entries1).
  assert (LC : Z.of_nat (List.length (ci c "charge")) = intd c "nion") by (destruct (C "charge" true (Prod 1 ["nion"]) ltac:(apply SH; HuseProofs.pick)) as (d & _ & _ & _ & L); rewrite L; apply entries1).
  assert (LM : Z.of_nat (List.length (cr c "mass")) = intd c "nion") by (destruct (C "mass" false (Prod 1 ["nion"]) ltac:(apply SH; HuseProofs.pick)) as (d & _ & _ & L); rewrite L; apply entries1).
  unfold plasma_species. rewrite N. split; [reflexivity|]. split; [reflexivity|].
  assert (X1 : firstn (Z.to_nat (intd c "nion" + 1)) (snd (get res "mass")) = snd (get res "mass")) by (apply firstn_all2; rewrite F4; cbn [List.length]; rewrite map_length; lia).
  assert (X2 : firstn (Z.to_nat (intd c "nion" + 1)) (snd (get res "charge")) = snd (get res "charge")) by (apply firstn_all2; rewrite F5; cbn [List.length]; rewrite map_length; lia).
  assert (X3 : firstn (Z.to_nat (intd c "nion")) (fst (get res "anum")) = fst (get res "anum")) by (apply firstn_all2; rewrite F2; lia).
  assert (X4 : firstn (Z.to_nat (intd c "nion")) (fst (get res "znum")) = fst (get res "znum")) by (apply firstn_all2; rewrite F3; lia).
  rewrite X1, X2, X3, X4, F2, F3, F4, F5. unfold species_row. cbn [sp_n sp_anum sp_znum sp_mass sp_charge]. split.
  - intros i I. cbn [Nat.eqb]. replace (Z.of_nat (S i) <? intd c "nion" + 1)%Z with true by (symmetry; apply Z.ltb_lt; lia). cbn [nth_error]. replace (S i - 1)%nat with i by lia.
    rewrite (nth_error_nth_map _ (cr c "mass") i 0) by lia. rewrite (nth_error_nth_map _ (ci c "charge") i 0%Z) by lia. rewrite (nth_error_nth' (ci c "anum") 0%Z) by lia. rewrite (nth_error_nth' (ci c "znum") 0%Z) by lia. reflexivity.
  - intros i I I0. destruct (Nat.eqb_spec i 0) as [->|_]; [lia|]. replace (Z.of_nat i <? intd c "nion" + 1)%Z with false by (symmetry; apply Z.ltb_ge; lia). reflexivity.
Qed.

(** ** Modes from the file *)
Lemma all_some_map {A B} (f : A -> option B) g : forall l, (forall x, In x l -> f x = Some (g x)) -> all_some (map f l) = Some (map g l).
Proof. induction l as [|x l IH]; intros H; [reflexivity|]. cbn [map all_some]. rewrite (H x (or_introl eq_refl)), IH; [reflexivity|]. intros y Y. apply H. right. exact Y. Qed.
(** an eigenfunction: known exactly in the range, where it is the natural spline through the row and returned with its derivative *)
Definition eigenfunction (n : nat) (mn mx : R) (row : nat -> R) (e : seig) : Prop :=
  exists F F1 F2, spline_interpolant n NATURALBC mn mx row F F1 F2 /\ forall x,
  (mn <= x <= mx -> fst (e x) = false /\ snd (e x) 0%nat = F x /\ snd (e x) 1%nat = F1 x) /\ (~ mn <= x <= mx -> fst (e x) = true).
Lemma eig_spec junk row n mn mx s : (2 <= n)%nat -> mn < mx -> interp1Dcomp_setup junk row n NATURALBC mn mx = Val s -> eigenfunction n mn mx row (eig s).
Proof.
  intros N M H. destruct (interp1Dcomp_is_spline junk row n NATURALBC mn mx s ltac:(left; auto) M H) as (F & F1 & F2 & S & I & O). exists F, F1, F2. split; [exact S|].
  intros x. unfold eig. split; intros X.
  - destruct (I x ltac:(auto)) as [_ E]. rewrite E. cbn. auto.
  - destruct (O x eq_refl X) as [_ E]. rewrite E. reflexivity.
Qed.
Theorem modes_file f qid c s junk : complete f "/mhd/MHD_STAT_XXXXXXXXXX/" qid c s_M1 -> (2 <= intd c "nrho")%Z -> reald c "rhomin" < reald c "rhomax" ->
  exists res ds, read_input rmhd_stat f qid s = Ok res /\ stat_modes junk res = Some ds /\ Z.of_nat (List.length ds) = intd c "nmode" /\
  (forall i, (Z.of_nat i < intd c "nmode")%Z -> mode_row ds i = Some (nth i (ci c "nmodes") 0%Z, nth i (ci c "mmodes") 0%Z, nth i (cr c "amplitude") 0, nth i (cr c "omega") 0, nth i (cr c "phase") 0) /\
     exists d, nth_error ds i = Some d /\
     eigenfunction (Z.to_nat (intd c "nrho")) (reald c "rhomin") (reald c "rhomax") (fun j => nth (i * Z.to_nat (intd c "nrho") + j) (cr c "alpha") 0) (malpha d) /\
     eigenfunction (Z.to_nat (intd c "nrho")) (reald c "rhomin") (reald c "rhomax") (fun j => nth (i * Z.to_nat (intd c "nrho") + j) (cr c "phi") 0) (mphi d)) /\
  (forall i, (intd c "nmode" <= Z.of_nat i)%Z -> mode_row ds i = None).
Proof.
  intros C N M. destruct (input_delivered "/mhd/MHD_STAT_XXXXXXXXXX/" rmhd_stat s_M1 t_M1 f qid c s ltac:(unfold inputs; HuseProofs.pick) C) as (fr & RD & D). exists fr.
  assert (LN : Z.of_nat (List.length (ci c "nmodes")) = intd c "nmode") by (destruct (C "nmodes" true (Prod 1 ["nmode"]) ltac:(HuseProofs.pick)) as (d & _ & _ & _ & L); rewrite L; apply entries1).
  assert (G1 : fst (get fr "moden") = ci c "nmodes") by exact (deliv c t_M1 fr "moden" _ D eq_refl). assert (G2 : fst (get fr "modem") = ci c "mmodes") by exact (deliv c t_M1 fr "modem" _ D eq_refl).
  set (sp := fun p i => interp1Dcomp_setup junk (fun j => tabN fr p (i * pn fr "nrho" + j)) (pn fr "nrho") NATURALBC (px fr "rhomin") (px fr "rhomax")).
  assert (NR : pn fr "nrho" = Z.to_nat (intd c "nrho")) by (unfold pn; fz; reflexivity).
  assert (MN : px fr "rhomin" = reald c "rhomin") by (fx; si; reflexivity). assert (MX : px fr "rhomax" = reald c "rhomax") by (fx; si; reflexivity).
  assert (SP : forall p i, exists v, sp p i = Val v) by (intros p i; apply interp1Dcomp_setup_ok; left; split; [reflexivity|lia]).
  set (dum := I1 (mk_axis 2 NATURALBC 0 1) (Arr 0 (fun _ => 0))). set (vv := fun p i => match sp p i with Val v => v | _ => dum end).
  assert (VV : forall p i, sp p i = Val (vv p i)) by (intros p i; unfold vv; destruct (SP p i) as [v ->]; reflexivity).
  set (md := fun i => Mode (nth i (fst (get fr "moden")) 0%Z) (nth i (fst (get fr "modem")) 0%Z) (tabN fr "amplitude_nm" i) (tabN fr "omega_nm" i) (tabN fr "phase_nm" i) (eig (vv "alpha" i)) (eig (vv "phi" i))).
  assert (PN : pn fr "nmode" = Z.to_nat (intd c "nmode")) by (unfold pn; fz; reflexivity).
  exists (map md (seq 0 (pn fr "nmode"))). split; [exact RD|]. split.
  { unfold stat_modes. apply all_some_map. intros i _. unfold stat_mode_of. cbv zeta. fold (sp "alpha" i) (sp "phi" i). rewrite !VV. reflexivity. }
  split; [rewrite map_length, seq_length, PN; lia|].
  assert (NE : forall i, (Z.of_nat i < intd c "nmode")%Z -> nth_error (map md (seq 0 (pn fr "nmode"))) i = Some (md i)).
  { intros i I. rewrite (nth_error_nth_map md (seq 0 (pn fr "nmode")) i 0%nat) by (rewrite seq_length; lia). rewrite seq_nth by lia. reflexivity. }
  split.
  - intros i I. unfold mode_row. rewrite (NE i I). split.
    + unfold md. cbn [mn mm mamp momega mphase]. rewrite G1, G2. repeat ft. si. reflexivity.
    + exists (md i). split; [reflexivity|]. unfold md. cbn [malpha mphi].
      assert (Q : forall p ds, find t_M1 p = Some (WR ds U1) -> eigenfunction (Z.to_nat (intd c "nrho")) (reald c "rhomin") (reald c "rhomax") (fun j => nth (i * Z.to_nat (intd c "nrho") + j) (cr c ds) 0) (eig (vv p i))).
      { intros p ds FD. pose proof (VV p i) as S. unfold sp in S. rewrite NR, MN, MX in S. apply eig_spec in S; [|lia|exact M]. destruct S as (F & F1 & F2 & (S1 & S2) & S'). exists F, F1, F2. split; [|exact S'].
        split; [|exact S2]. intros k K. rewrite (S1 k K). rewrite (get_tab c t_M1 fr p ds U1 _ D FD). cbn [inSI]. ring. }
      split; apply Q; reflexivity.
  - intros i I. unfold mode_row. replace (nth_error (map md (seq 0 (pn fr "nmode"))) i) with (@None (mode seig)); [reflexivity|]. symmetry. apply nth_error_None. rewrite map_length, seq_length. lia.
Qed.

(** ** Potentials from the file *)
Lemma chosen_all {E} : forall (ds : list (mode E)) i, chosen (-1) i ds = ds.
Proof. induction ds as [|d ds IH]; intros i; [reflexivity|]. cbn [chosen]. cbn [Z.eqb Pos.eqb orb]. now rewrite IH. Qed.
Lemma sumL_ext_in {A} (f g : A -> R) l : (forall x, In x l -> f x = g x) -> sumL f l = sumL g l.
Proof. induction l as [|x l IH]; intros H; [reflexivity|]. unfold sumL in *. cbn [fold_right]. rewrite (H x (or_introl eq_refl)), IH; [reflexivity|]. intros y Y. apply H. right. exact Y. Qed.
Lemma sumL_nth {A} (f : A -> R) : forall (l : list A) (g : nat -> R) k, (forall i x, nth_error l i = Some x -> f x = g (k + i)%nat) -> sumL f l = sumL g (seq k (List.length l)).
Proof.
  induction l as [|x l IH]; intros g k H; [reflexivity|]. unfold sumL in *. cbn [fold_right List.length seq]. rewrite (H 0%nat x eq_refl), Nat.add_0_r. f_equal. apply IH. intros i y Y. rewrite (H (S i) y Y). f_equal. lia.
Qed.
Lemma all_funs {T} (Q : nat -> T -> Prop) (d : T) n : (forall i, (i < n)%nat -> exists x, Q i x) -> exists F, forall i, (i < n)%nat -> Q i (F i).
Proof.
  induction n as [|n IH]; intros H; [exists (fun _ => d); intros i I; lia|]. destruct IH as [F HF]; [intros i I; apply H; lia|]. destruct (H n ltac:(lia)) as [x X].
  exists (fun i => if Nat.eqb i n then x else F i). intros i I. destruct (Nat.eqb_spec i n) as [->|NE]; [exact X|apply HF; lia].
Qed.
Section potentials.
Variable inpoly : R -> R -> bool.
Variable evalpsi : R -> R -> R -> R -> Z * (nat -> R).
Variable evalrho : R -> Z * (nat -> R).
Variable axis : R -> Z * (nat -> R).
Variables thspl nuspl : R -> R -> bool * (nat -> R).
Variables psimin psimax : R.
Theorem potentials_file f qid c s junk : complete f "/mhd/MHD_STAT_XXXXXXXXXX/" qid c s_M1 -> (2 <= intd c "nrho")%Z -> reald c "rhomin" < reald c "rhomax" ->
  exists res ds Fa Fp, read_input rmhd_stat f qid s = Ok res /\ stat_modes junk res = Some ds /\
  (forall i, (i < Z.to_nat (intd c "nmode"))%nat ->
     (exists F1 F2, spline_interpolant (Z.to_nat (intd c "nrho")) NATURALBC (reald c "rhomin") (reald c "rhomax") (fun j => nth (i * Z.to_nat (intd c "nrho") + j) (cr c "alpha") 0) (Fa i) F1 F2) /\
     (exists F1 F2, spline_interpolant (Z.to_nat (intd c "nrho")) NATURALBC (reald c "rhomin") (reald c "rhomax") (fun j => nth (i * Z.to_nat (intd c "nrho") + j) (cr c "phi") 0) (Fp i) F1 F2)) /\
  forall r phi z t order n st st' jnk jrho out0, Permutation order (seq 0 n) ->
    for_all_points order (point_mhd r phi z t (MhdModel.mhd_eval inpoly evalpsi evalrho axis thspl nuspl psimin psimax jnk jrho out0 (MStat ds)) (-1)) st = Some st' ->
    forall k r0 z0, (k < n)%nat -> MhdProofs.covered inpoly evalpsi evalrho axis thspl nuspl psimin psimax r0 z0 (r k) (phi k) (z k) ->
    let rho := MhdProofs.rho_f evalrho (MhdProofs.psi_f evalpsi (r k) (phi k) (z k)) in
    let theta := MhdProofs.theta_f evalpsi thspl r0 z0 (r k) (phi k) (z k) in let zeta := MhdProofs.zeta_f evalpsi thspl nuspl r0 z0 (r k) (phi k) (z k) in
    reald c "rhomin" <= rho <= reald c "rhomax" ->
    let wv i := nth i (cr c "amplitude") 0 * cos (IZR (nth i (ci c "nmodes") 0%Z) * zeta - IZR (nth i (ci c "mmodes") 0%Z) * theta - nth i (cr c "omega") 0 * t k + nth i (cr c "phase") 0) in
    st' "alpha" k = sumL (fun i => Fa i rho * wv i) (seq 0 (Z.to_nat (intd c "nmode"))) /\ st' "Phi" k = sumL (fun i => Fp i rho * wv i) (seq 0 (Z.to_nat (intd c "nmode"))).
Proof.
  intros C N M. destruct (modes_file f qid c s junk C N M) as (fr & ds & RD & SM & LE & MI & _). exists fr, ds.
  assert (EX : forall i, (i < Z.to_nat (intd c "nmode"))%nat -> exists FF : (R -> R) * (R -> R),
    (exists F1 F2, spline_interpolant (Z.to_nat (intd c "nrho")) NATURALBC (reald c "rhomin") (reald c "rhomax") (fun j => nth (i * Z.to_nat (intd c "nrho") + j) (cr c "alpha") 0) (fst FF) F1 F2) /\
    (exists F1 F2, spline_interpolant (Z.to_nat (intd c "nrho")) NATURALBC (reald c "rhomin") (reald c "rhomax") (fun j => nth (i * Z.to_nat (intd c "nrho") + j) (cr c "phi") 0) (snd FF) F1 F2) /\
    forall d, nth_error ds i = Some d -> forall x, reald c "rhomin" <= x <= reald c "rhomax" -> fst (malpha d x) = false /\ fst (mphi d x) = false /\ snd (malpha d x) 0%nat = fst FF x /\ snd (mphi d x) 0%nat = snd FF x).
  { intros i I. destruct (MI i ltac:(lia)) as (_ & d & ND & (Fa & F1 & F2 & S1 & V1) & (Fp & G1 & G2 & S2 & V2)). exists (Fa, Fp). cbn [fst snd]. split; [eauto|]. split; [eauto|].
    intros d' ND'. rewrite ND in ND'. injection ND' as <-. intros x X. destruct (V1 x) as [A _]. destruct (V2 x) as [B _]. destruct (A X) as (A1 & A2 & _). destruct (B X) as (B1 & B2 & _). auto. }
  destruct (all_funs _ ((fun _ => 0), (fun _ => 0)) _ EX) as [FF HF]. exists (fun i => fst (FF i)), (fun i => snd (FF i)). split; [exact RD|]. split; [exact SM|]. split.
  { intros i I. destruct (HF i I) as (A & B & _). auto. }
  intros r phi z t order n st st' jnk jrho out0 P E k r0 z0 K CV rho theta zeta RG wv.
  assert (LN : List.length ds = Z.to_nat (intd c "nmode")) by lia.
  assert (AT : forall i d, nth_error ds i = Some d -> (i < Z.to_nat (intd c "nmode"))%nat) by (intros i d ND; rewrite <- LN; apply nth_error_Some; congruence).
  assert (SC : MhdProofs.stat_covered inpoly evalpsi evalrho axis thspl nuspl psimin psimax r0 z0 (chosen (-1) 0 ds) (r k) (phi k) (z k) (t k)).
  { rewrite chosen_all. split; [exact CV|]. intros d ID. apply In_nth_error in ID as [i ND]. destruct (HF i (AT i d ND)) as (_ & _ & V). destruct (V d ND rho RG) as (A & B & _). auto. }
  destruct (mhd_waves inpoly evalpsi evalrho axis thspl nuspl psimin psimax jnk jrho ds (-1) r0 z0 _ _ _ _ SC) as (m & EM & W1 & W2). rewrite chosen_all in W1, W2.
  assert (L : exists l, point_mhd r phi z t (MhdModel.mhd_eval inpoly evalpsi evalrho axis thspl nuspl psimin psimax jnk jrho out0 (MStat ds)) (-1) k = Some l /\ l = [("alpha", m 0%nat); ("dadr", m 2%nat); ("dadphi", m 3%nat); ("dadz", m 4%nat); ("dadt", m 1%nat);
     ("Phi", m 5%nat); ("dPhidr", m 7%nat); ("dPhidphi", m 8%nat); ("dPhidz", m 9%nat); ("dPhidt", m 6%nat)]).
  { eexists. split; [|reflexivity]. unfold point_mhd, MhdModel.mhd_eval, mhd_stat_eval. rewrite EM. reflexivity. }
  destruct L as (l & L & El). pose proof (inside_points order n _ st st' P E k l K L) as I. rewrite El in I. clear El L. rewrite !I. cbn [after fold_left fst snd String.eqb Ascii.eqb Bool.eqb].
  rewrite W1, W2. rewrite <- LN.
  assert (MD : forall i d, nth_error ds i = Some d -> mamp d * cos (IZR (mn d) * zeta - IZR (mm d) * theta - momega d * t k + mphase d) = wv i).
  { intros i d ND. destruct (MI i ltac:(pose proof (AT i d ND); lia)) as (RW & _). unfold mode_row in RW. rewrite ND in RW. injection RW as -> -> -> -> ->. reflexivity. }
  split; apply (sumL_nth _ ds _ 0); intros i d ND; cbn [Nat.add]; rewrite <- (MD i d ND); unfold wave; fold theta zeta rho.
  - assert (V1 : snd (malpha d rho) 0%nat = fst (FF i) rho) by (destruct (HF i (AT i d ND)) as (_ & _ & V); apply (V d ND rho RG)). unfold seig in *. rewrite V1. ring.
  - assert (V1 : snd (mphi d rho) 0%nat = snd (FF i) rho) by (destruct (HF i (AT i d ND)) as (_ & _ & V); apply (V d ND rho RG)). unfold seig in *. rewrite V1. ring.
Qed.
End potentials.
