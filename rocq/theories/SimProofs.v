(** Proofs about the time-step bookkeeping. *)
From Coq Require Import Reals ZArith List Bool Lra Lia Psatz.
From Verif Require Import SimModel.
Import ListNotations.
Local Open Scope R_scope.

Lemma rlt_spec : forall x y, reflect (x < y) (rlt x y).
Proof. intros. unfold rlt. destruct (Rlt_dec x y); constructor; auto. Qed.

Section sim.
Context {X : Type}.
Notation marker := (marker X).
(** physics modules leave the bookkeeping fields and stopped markers alone *)
Definition quiet (f : physics X) : Prop := forall p h, let q := fst (f p h) in
  k_time q = k_time p /\ k_mileage q = k_mileage p /\ k_id q = k_id p /\ (k_run p = false -> q = p).
Definition quiet_pass (w : pass X) : Prop := quiet (w_orb w) /\ quiet (w_col w) /\ quiet (w_rf w).

Definition stage (on : bool) (f : marker -> marker * R) (p : marker) (hn : R) : marker * R * R :=
  if on then let '(p, ho) := f p in let '(p, hn) := check p ho hn in (p, ho, hn) else (p, 1, hn).
Lemma stage_spec : forall on f p hn p' ho hn', stage on f p hn = (p', ho, hn') ->
  (forall q, let r := fst (f q) in k_time r = k_time q /\ k_mileage r = k_mileage q /\ k_id r = k_id q /\ (k_run q = false -> r = q)) ->
  k_time p' = k_time p /\ k_mileage p' = k_mileage p /\ k_id p' = k_id p /\ (k_run p = false -> p' = p /\ hn' = hn) /\
  (hn' = hn \/ (hn' = ho /\ ho < 0 /\ on = true /\ ho = snd (f p) /\ k_run p = true)) /\ (k_run p' = true -> hn' = hn /\ 0 <= ho) /\ (on = false -> p' = p /\ ho = 1 /\ hn' = hn) /\
  (on = true -> ho = snd (f p)) /\ (k_run p' = true -> p' = if on then fst (f p) else p).
Proof.
  intros on f p hn p' ho hn' H Q. unfold stage in H. destruct on.
  - specialize (Q p). destruct (f p) as [p1 ho1]. cbn [fst] in Q. cbv zeta in Q. destruct Q as (Q1 & Q2 & Q3 & Q4).
    unfold check in H. destruct (k_run p1) eqn:R1; cbn [andb] in H.
    + assert (RP : k_run p = true). { destruct (k_run p) eqn:RP; auto. rewrite (Q4 eq_refl) in R1. congruence. }
      destruct (rlt_spec ho1 0) as [L|L]; injection H as <- <- <-; cbn [stop k_time k_mileage k_id k_run snd].
      * repeat (split; [assumption|]). split; [congruence|]. split; [right; auto|]. split; [discriminate|]. split; [discriminate|]. split; [auto|discriminate].
      * repeat (split; [assumption|]). split; [congruence|]. split; [left; auto|]. split; [intros _; split; [auto|lra]|]. split; [discriminate|auto].
    + injection H as <- <- <-. repeat (split; [assumption|]). split; [auto|]. split; [left; auto|]. split; [congruence|]. split; [discriminate|]. split; [auto|congruence].
  - injection H as <- <- <-. repeat (split; [reflexivity|]). split; [auto|]. split; [left; auto|]. split; [intros _; split; [auto|lra]|]. split; [auto|]. split; [discriminate|auto].
Qed.
Definition signed (rev : bool) (r : marker * R) : marker * R := let '(p, ho) := r in (p, if rev then - ho else ho).
Lemma gca_stages : forall o w p0 hin, (o_rev o = false \/ o_orb o = true) -> gca_pass o w p0 hin =
  let '(p1, hout_orb, hn1) := stage (o_orb o) (fun p => signed (o_rev o) (w_orb w p (dir (o_rev o) * hin))) p0 1 in
  let '(p2, hout_col, hn2) := stage (o_col o) (fun p => w_col w p hin) p1 hn1 in
  let '(p3, hout_rf, hn3) := stage (o_icrh o) (fun p => w_rf w p hin) p2 hn2 in
  if ((0 <? k_id p3)%Z && (k_err p3 =? 0)%Z)%bool then
    let hn4 := if rlt 0 hn3 then
                 let dphi := Rabs (k_phi p0 - k_phi p3) / o_dphi o in
                 let drho := Rabs (k_rho p0 - k_rho p3) / o_drho o in
                 if rlt 1 dphi && rlt drho dphi then - hin / dphi else if rlt 1 drho && rlt dphi drho then - hin / drho else hn3
               else hn3 in
    let p4 := if rlt hn4 0 then p0 else p3 in
    if k_run p4 then
      if rlt hn4 0 then (add_cpu p4 (w_cpu w), - hn4, Rejected)
      else
        let dm := hin * w_acc w in
        let hn5 := smaller (smaller (smaller hn4 hout_orb) hout_col) hout_rf in
        let hn6 := if Req_EM_T hn5 1 then hin else hn5 in
        (add_cpu (advance p4 (dir (o_rev o) * hin * w_acc w) dm) (w_cpu w), hn6, Accepted dm)
    else (p4, hin, Nothing)
  else (p3, hin, Nothing).
Proof.
  intros o w p0 hin H. unfold gca_pass, stage, signed.
  assert (D1 : (if o_rev o then - hin else hin) = dir (o_rev o) * hin) by (destruct (o_rev o); cbn; ring).
  assert (D2 : (if o_rev o then - (dir (o_rev o) * hin) else dir (o_rev o) * hin) = hin) by (destruct (o_rev o); cbn; ring).
  destruct (o_orb o).
  - rewrite D1, D2. destruct (w_orb w p0 _) as [p ho]. destruct (check p _ 1) as [p' hn]. reflexivity.
  - destruct H as [H|H]; [|discriminate]. rewrite H. reflexivity.
Qed.
(** what the enabled modules propose in a pass that is not rejected *)
Definition after_orb (o : options) (w : pass X) (p : marker) (h : R) : marker := if o_orb o then fst (w_orb w p (dir (o_rev o) * h)) else p.
Definition after_col (o : options) (w : pass X) (p : marker) (h : R) : marker := if o_col o then fst (w_col w (after_orb o w p h) h) else after_orb o w p h.
Definition proposals (o : options) (w : pass X) (p : marker) (h : R) : list R :=
  (if o_orb o then [dir (o_rev o) * snd (w_orb w p (dir (o_rev o) * h))] else []) ++
  (if o_col o then [snd (w_col w (after_orb o w p h) h)] else []) ++
  (if o_icrh o then [snd (w_rf w (after_col o w p h) h)] else []).
(** a module that rejects a step of length h proposes a shorter one *)
Definition shrinks (rev : bool) (f : physics X) : Prop := forall p h, 0 < h -> dir rev * snd (f p (dir rev * h)) < 0 -> - (dir rev * snd (f p (dir rev * h))) < h.
Definition shrinking (o : options) (w : pass X) : Prop := (o_orb o = true -> shrinks (o_rev o) (w_orb w)) /\ (o_col o = true -> shrinks false (w_col w)) /\ (o_icrh o = true -> shrinks false (w_rf w)).
Lemma signed_snd : forall rev r, snd (signed rev r) = dir rev * snd r.
Proof. intros rev [p ho]. cbn. destruct rev; cbn; ring. Qed.
Lemma signed_fst : forall rev r, fst (signed rev r) = fst r.
Proof. intros rev [p ho]. reflexivity. Qed.
Lemma smaller_spec : forall a b, smaller a b <= a /\ smaller a b <= b /\ (smaller a b = a \/ smaller a b = b).
Proof. intros a b. unfold smaller. destruct (rlt_spec b a); lra. Qed.

Definition limits (o : options) (p0 p : marker) : R * R := (Rabs (k_phi p0 - k_phi p) / o_dphi o, Rabs (k_rho p0 - k_rho p) / o_drho o).
Lemma gca_spec : forall o w p hin, quiet_pass w -> (o_rev o = false \/ o_orb o = true) -> 0 < hin -> 0 < o_dphi o -> 0 < o_drho o ->
  let '(q, h', e) := gca_pass o w p hin in
  match e with
  | Accepted d => d = hin * w_acc w /\ k_time q = k_time p + dir (o_rev o) * d /\ k_mileage q = k_mileage p + d /\ k_run p = true /\ k_run q = true /\ k_err q = 0%Z /\ 0 <= h' /\
      (h' = hin \/ (h' < 1 /\ In h' (proposals o w p hin))) /\ (h' = hin \/ forall ho, In ho (proposals o w p hin) -> h' <= ho) /\ (forall ho, In ho (proposals o w p hin) -> 0 <= ho) /\
      (let '(dphi, drho) := limits o p q in (dphi <= 1 /\ drho <= 1) \/ dphi = drho)
  | Rejected => q = add_cpu p (w_cpu w) /\ 0 < h' /\ k_run p = true /\ (shrinking o w -> h' < hin)
  | Nothing => k_time q = k_time p /\ k_mileage q = k_mileage p /\ (k_run q = false \/ k_err q <> 0%Z \/ (k_id q <= 0)%Z) /\ h' = hin
  end /\ (k_run p = false -> q = p /\ e = Nothing) /\ k_id q = k_id p.
Proof.
  intros o w p hin (QO & QC & QR) RV HP HD HR. rewrite gca_stages by auto.
  destruct (stage (o_orb o) _ p 1) as [[p1 h1] n1] eqn:S1. destruct (stage (o_col o) _ p1 n1) as [[p2 h2] n2] eqn:S2. destruct (stage (o_icrh o) _ p2 n2) as [[p3 h3] n3] eqn:S3.
  apply stage_spec in S1; [|intros q; cbv zeta; unfold signed; specialize (QO q (dir (o_rev o) * hin)); destruct (w_orb w q _); exact QO].
  apply stage_spec in S2; [|intros q; exact (QC q hin)]. apply stage_spec in S3; [|intros q; exact (QR q hin)].
  destruct S1 as (A1 & A2 & A3 & A4 & A5 & A6 & A7 & A8 & A9). destruct S2 as (B1 & B2 & B3 & B4 & B5 & B6 & B7 & B8 & B9). destruct S3 as (C1 & C2 & C3 & C4 & C5 & C6 & C7 & C8 & C9).
  assert (SH : shrinking o w -> n3 < 0 -> - n3 < hin).
  { intros (SO & SC & SR) L. destruct C5 as [->|(-> & L3 & ON & -> & _)].
    - destruct B5 as [->|(-> & L2 & ON & -> & _)].
      + destruct A5 as [->|(-> & L1 & ON & -> & _)]; [lra|]. rewrite signed_snd in *. apply SO; auto.
      + specialize (SC ON p1 hin HP). cbn [dir] in SC. rewrite !Rmult_1_l in SC. auto.
    - specialize (SR ON p2 hin HP). cbn [dir] in SR. rewrite !Rmult_1_l in SR. auto. }
  assert (PROP : k_run p3 = true -> forall ho, In ho (proposals o w p hin) <-> (o_orb o = true /\ ho = h1) \/ (o_col o = true /\ ho = h2) \/ (o_icrh o = true /\ ho = h3)).
  { intros Z. assert (Z2 : k_run p2 = true). { destruct (k_run p2) eqn:E; auto. destruct (C4 eq_refl) as [-> _]. congruence. }
    assert (Z1 : k_run p1 = true). { destruct (k_run p1) eqn:E; auto. destruct (B4 eq_refl) as [-> _]. congruence. }
    assert (P1 : p1 = after_orb o w p hin). { rewrite (A9 Z1). unfold after_orb. destruct (o_orb o); auto. apply signed_fst. }
    assert (P2 : p2 = after_col o w p hin). { rewrite (B9 Z2). unfold after_col. rewrite <- P1. now destruct (o_col o). }
    intros ho. unfold proposals. rewrite <- P1, <- P2, !in_app_iff.
    assert (F1 : In ho (if o_orb o then [dir (o_rev o) * snd (w_orb w p (dir (o_rev o) * hin))] else []) <-> o_orb o = true /\ ho = h1).
    { destruct (o_orb o); cbn [In]; [|intuition discriminate]. rewrite (A8 eq_refl), signed_snd. intuition. }
    assert (F2 : In ho (if o_col o then [snd (w_col w p1 hin)] else []) <-> o_col o = true /\ ho = h2).
    { destruct (o_col o); cbn [In]; [|intuition discriminate]. rewrite (B8 eq_refl). intuition. }
    assert (F3 : In ho (if o_icrh o then [snd (w_rf w p2 hin)] else []) <-> o_icrh o = true /\ ho = h3).
    { destruct (o_icrh o); cbn [In]; [|intuition discriminate]. rewrite (C8 eq_refl). intuition. }
    rewrite F1, F2, F3. tauto. }
  assert (OFF : (o_orb o = true \/ h1 = 1) /\ (o_col o = true \/ h2 = 1) /\ (o_icrh o = true \/ h3 = 1)).
  { split; [|split]; [destruct (o_orb o); auto; right; apply A7|destruct (o_col o); auto; right; apply B7|destruct (o_icrh o); auto; right; apply C7]; auto. }
  assert (NN : n3 = 1 \/ (n3 < 0 /\ k_run p = true)).
  { assert (RR : (k_run p = false -> k_run p1 = false) /\ (k_run p1 = false -> k_run p2 = false)).
    { split; intros Z; [destruct (A4 Z) as [-> _]|destruct (B4 Z) as [-> _]]; exact Z. }
    destruct (k_run p) eqn:RP.
    - destruct C5 as [->|(-> & L & _)]; [|right; split; auto]. destruct B5 as [->|(-> & L & _)]; [|right; split; auto].
      destruct A5 as [->|(-> & L & _)]; [left; auto|right; split; auto].
    - destruct (A4 eq_refl) as [-> ->]. rewrite RP in *. destruct (B4 eq_refl) as [-> ->]. destruct (C4 RP) as [-> ->]. now left. }
  assert (IDLE : k_run p = false -> p3 = p /\ n3 = 1).
  { intros Z. destruct (A4 Z) as [-> ->]. destruct (B4 Z) as [-> ->]. destruct (C4 Z) as [-> ->]. auto. }
  assert (PR : k_run p3 = true -> 0 <= h1 /\ 0 <= h2 /\ 0 <= h3 /\ n3 = 1 /\ k_run p = true).
  { intros Z. destruct (C6 Z) as [NC PC]. assert (Z2 : k_run p2 = true). { destruct (k_run p2) eqn:E; auto. destruct (C4 eq_refl) as [-> _]. congruence. }
    destruct (B6 Z2) as [NB PB]. assert (Z1 : k_run p1 = true). { destruct (k_run p1) eqn:E; auto. destruct (B4 eq_refl) as [-> _]. congruence. }
    destruct (A6 Z1) as [NA PA]. assert (Z0 : k_run p = true). { destruct (k_run p) eqn:E; auto. destruct (A4 eq_refl) as [-> _]. congruence. }
    repeat split; auto. congruence. }
  assert (T3 : k_time p3 = k_time p /\ k_mileage p3 = k_mileage p /\ k_id p3 = k_id p) by (repeat split; congruence).
  destruct T3 as (T1 & T2 & T3).
  clear A1 A2 A3 A4 A5 A6 A7 A8 A9 B1 B2 B3 B4 B5 B6 B7 B8 B9 C1 C2 C3 C4 C5 C6 C7 C8 C9.
  destruct (Z.ltb_spec 0 (k_id p3)) as [ID|ID]; cbn [andb].
  2:{ split; [|split; [|exact T3]]. { repeat split; auto. } intros Z. destruct (IDLE Z). auto. }
  destruct (Z.eqb_spec (k_err p3) 0) as [ER|ER].
  2:{ split; [|split; [|exact T3]]. { repeat split; auto. } intros Z. destruct (IDLE Z). auto. }
  set (dphi := Rabs _ / _). set (drho := Rabs (k_rho p - _) / _). set (n4 := if rlt 0 n3 then _ else n3).
  assert (N4 : (n4 < 0 /\ (k_run p = true \/ (1 < dphi \/ 1 < drho)) /\ (shrinking o w -> - n4 < hin)) \/ (n4 = 1 /\ n3 = 1 /\ ((dphi <= 1 /\ drho <= 1) \/ dphi = drho))).
  { assert (LIM : forall d (P : Prop), 1 < d -> P -> - hin / d < 0 /\ P /\ (shrinking o w -> - (- hin / d) < hin)).
    { intros d P D HPp. assert (I : 0 < / d) by (apply Rinv_0_lt_compat; lra). assert (I1 : / d < 1) by (rewrite <- Rinv_1; apply Rinv_lt_contravar; lra).
      unfold Rdiv. split; [nra|]. split; [exact HPp|intros _; nra]. }
    unfold n4. destruct (rlt_spec 0 n3) as [L|L].
    - destruct NN as [->|[N RP]]; [|lra].
      destruct (rlt_spec 1 dphi) as [L1|L1]; cbn [andb].
      + destruct (rlt_spec drho dphi) as [L2|L2].
        * left. apply LIM; auto.
        * destruct (rlt_spec 1 drho) as [L3|L3]; cbn [andb]; [|right; repeat split; auto; right; lra].
          destruct (rlt_spec dphi drho) as [L4|L4]; [|right; repeat split; auto; right; lra].
          left. apply LIM; auto.
      + destruct (rlt_spec 1 drho) as [L3|L3]; cbn [andb]; [|right; repeat split; auto; left; lra].
        destruct (rlt_spec dphi drho) as [L4|L4]; [|right; repeat split; auto; right; lra].
        left. apply LIM; auto.
    - destruct NN as [->|[N RP]]; [lra|]. left. auto. }
  clearbody n4.
  assert (RPI : k_run p = false -> dphi = 0 /\ drho = 0).
  { intros Z. destruct (IDLE Z) as [-> _]. unfold dphi, drho. rewrite !Rminus_eq_0, Rabs_R0. split; unfold Rdiv; ring. }
  destruct (rlt_spec n4 0) as [L|L].
  - destruct N4 as [(_ & W & SH4)|[-> _]]; [|lra].
    assert (RP : k_run p = true). { destruct (k_run p) eqn:E; auto. destruct (RPI eq_refl). destruct W as [W|[W|W]]; [discriminate|lra|lra]. }
    rewrite RP. split; [split; [reflexivity|split; [lra|split; [reflexivity|exact SH4]]]|]. split; [discriminate|reflexivity].
  - destruct N4 as [[N _]|(-> & -> & LM)]; [lra|].
    destruct (k_run p3) eqn:RUN.
    + destruct (PR eq_refl) as (P1 & P2 & P3 & _ & RP). cbn [add_cpu advance k_time k_mileage k_run k_err k_id].
      split; [|split; [congruence|exact T3]]. split; [reflexivity|]. split; [rewrite T1; ring|]. split; [rewrite T2; ring|]. repeat (split; [assumption|]).
      specialize (PROP eq_refl). destruct OFF as (O1 & O2 & O3).
      destruct (smaller_spec 1 h1) as (S1 & S2 & S3). set (a := smaller 1 h1) in *. destruct (smaller_spec a h2) as (S4 & S5 & S6). set (b := smaller a h2) in *.
      destruct (smaller_spec b h3) as (S7 & S8 & S9). set (c := smaller b h3) in *. clearbody a b c.
      split; [destruct (Req_EM_T c 1); lra|]. split; [|split; [|split]].
      * destruct (Req_EM_T c 1) as [E|E]; [now left|]. right. split; [lra|]. apply PROP.
        assert (V : c = 1 \/ c = h1 \/ c = h2 \/ c = h3) by lra. destruct V as [V|[V|[V|V]]]; [lra| | |].
        -- left. destruct O1 as [O1|O1]; [auto|lra].
        -- right; left. destruct O2 as [O2|O2]; [auto|lra].
        -- right; right. destruct O3 as [O3|O3]; [auto|lra].
      * destruct (Req_EM_T c 1) as [E|E]; [now left|]. right. intros ho Hh. apply PROP in Hh. destruct Hh as [[_ ->]|[[_ ->]|[_ ->]]]; lra.
      * intros ho Hh. apply PROP in Hh. destruct Hh as [[_ ->]|[[_ ->]|[_ ->]]]; lra.
      * unfold limits, add_cpu, advance. cbn [k_phi k_rho]. exact LM.
    + split; [repeat split; auto|]. split; [|exact T3]. intros Z. destruct (IDLE Z). auto.
Qed.

(** ** Histories *)
Definition amount (e : event) : R := match e with Accepted d => d | _ => 0 end.
(** a pass, then end conditions and diagnostics, which may stop the marker *)
Definition keeps (f : marker -> marker) : Prop := forall p, k_time (f p) = k_time p /\ k_mileage (f p) = k_mileage p /\ k_id (f p) = k_id p /\ (k_run p = false -> k_run (f p) = false).
Fixpoint gca_run (o : options) (ws : list (pass X * (marker -> marker))) (p : marker) (h : R) : marker * R * list event :=
  match ws with
  | [] => (p, h, [])
  | (w, f) :: ws' => let '(q, h', e) := gca_pass o w p h in let '(r, h'', es) := gca_run o ws' (f q) h' in (r, h'', e :: es)
  end.
Fixpoint total (es : list event) : R := match es with [] => 0 | e :: es' => amount e + total es' end.
(** no module ever proposes a step of length exactly zero *)
Definition no_zero (w : pass X) : Prop := forall p h, snd (w_orb w p h) <> 0 /\ snd (w_col w p h) <> 0 /\ snd (w_rf w p h) <> 0.
Lemma gca_history : forall o, (o_rev o = false \/ o_orb o = true) -> 0 < o_dphi o -> 0 < o_drho o -> forall ws p h, 0 < h ->
  Forall (fun wf => quiet_pass (fst wf) /\ keeps (snd wf) /\ no_zero (fst wf)) ws ->
  let '(q, h', es) := gca_run o ws p h in
  k_mileage q = k_mileage p + total es /\ k_time q = k_time p + dir (o_rev o) * total es /\ 0 < h'.
Proof.
  intros o RV HD HR ws. induction ws as [|[w f] ws IH]; intros p h HP F; cbn [gca_run].
  - cbn. split; [ring|]. split; [ring|auto].
  - inversion F as [|? ? (Q & K & Z) F']; subst. cbn [fst snd] in *.
    pose proof (gca_spec o w p h Q RV HP HD HR) as S. destruct (gca_pass o w p h) as [[q h'] e]. destruct S as (S & _ & _).
    assert (HP' : 0 < h').
    { destruct e; [|destruct S as (_ & S & _); exact S|destruct S as (_ & _ & _ & S); lra].
      destruct S as (_ & _ & _ & _ & _ & _ & S0 & S1 & _). destruct S1 as [->|[_ I]]; [exact HP|].
      assert (h' <> 0); [|lra]. intros E. rewrite E in I. unfold proposals in I. rewrite !in_app_iff in I.
      destruct (Z p (dir (o_rev o) * h)) as (Z1 & _). destruct (Z (after_orb o w p h) h) as (_ & Z2 & _). destruct (Z (after_col o w p h) h) as (_ & _ & Z3).
      destruct I as [I|[I|I]]; [destruct (o_orb o)|destruct (o_col o)|destruct (o_icrh o)]; cbn [In] in I; try tauto; destruct I as [I|I]; try tauto.
      apply Rmult_integral in I. destruct I as [I|I]; [destruct (o_rev o); cbn in I; lra|tauto]. }
    specialize (IH (f q) h' HP' F'). destruct (gca_run o ws (f q) h') as [[r h''] es]. destruct IH as (I1 & I2 & I3).
    destruct (K q) as (K1 & K2 & _). split; [|split; [|exact I3]]; cbn [total].
    + rewrite I1, K2. destruct e; cbn [amount]; [destruct S as (_ & _ & -> & _)|destruct S as (-> & _); cbn [add_cpu k_mileage]|destruct S as (_ & -> & _)]; ring.
    + rewrite I2, K1. destruct e; cbn [amount]; [destruct S as (_ & -> & _)|destruct S as (-> & _); cbn [add_cpu k_time]|destruct S as (-> & _)]; ring.
Qed.
(** backwards without orbit following the step keeps its flipped sign: two passes undo each other *)
Lemma gca_reverse_idle : forall o (w : pass X) p h, o_rev o = true -> o_orb o = false -> o_col o = false -> o_icrh o = false -> k_run p = true -> k_err p = 0%Z -> (0 < k_id p)%Z ->
  let '(q, h', e) := gca_pass o w p h in
  k_time q = k_time p + h * w_acc w /\ k_mileage q = k_mileage p - h * w_acc w /\ h' = - h /\
  let '(q2, h2, _) := gca_pass o w q h' in k_time q2 = k_time p /\ k_mileage q2 = k_mileage p /\ h2 = h.
Proof.
  intros o w p h RV O1 O2 O3 RUN ERR ID.
  assert (ONE : forall p h, k_run p = true -> k_err p = 0%Z -> (0 < k_id p)%Z ->
    gca_pass o w p h = (add_cpu (advance p (h * w_acc w) (- h * w_acc w)) (w_cpu w), - h, Accepted (- h * w_acc w))).
  { clear - RV O1 O2 O3. intros p h RUN ERR ID. unfold gca_pass. rewrite RV, O1, O2, O3. apply Z.ltb_lt in ID. rewrite ID, ERR. cbn [andb Z.eqb].
    destruct (rlt_spec 0 1) as [_|N]; [|lra]. rewrite !Rminus_eq_0, Rabs_R0. unfold Rdiv. rewrite !Rmult_0_l.
    destruct (rlt_spec 1 0) as [N|_]; [lra|]. cbn [andb]. destruct (rlt_spec 1 0) as [N|_]; [lra|]. rewrite RUN.
    assert (SM : smaller 1 1 = 1) by (unfold smaller; now destruct (rlt 1 1)). rewrite !SM. destruct (Req_EM_T 1 1); [|congruence]. cbn [dir].
    f_equal. f_equal. f_equal. f_equal. ring. }
  rewrite ONE by auto. cbn [add_cpu advance k_time k_mileage]. split; [ring|]. split; [ring|]. split; [reflexivity|].
  rewrite ONE by auto. cbn [add_cpu advance k_time k_mileage]. repeat split; ring.
Qed.

(** ** Field lines *)
Lemma mla_spec : forall c o (w : pass X) p hin, quiet (w_orb w) -> 0 < hin -> 0 < o_dphi o -> 0 < o_drho o ->
  let '(q, h', e) := mla_pass c o w p hin in
  match e with
  | Accepted d => d = hin / c /\ k_time q = k_time p /\ k_mileage q = k_mileage p + d /\ k_run p = true /\ k_run q = true /\ k_err q = 0%Z /\ 0 <= h' /\ (h' = hin \/ h' < 100) /\
      (let '(dphi, drho) := limits o p q in (dphi <= 1 /\ drho <= 1) \/ dphi = drho)
  | Rejected => q = add_cpu p (w_cpu w) /\ 0 < h' /\ k_run p = true /\ ((o_orb o = true -> shrinks (o_rev o) (w_orb w)) -> h' < hin)
  | Nothing => k_time q = k_time p /\ k_mileage q = k_mileage p /\ (k_run q = false \/ k_err q <> 0%Z) /\ h' = hin
  end /\ (k_run p = false -> q = p /\ e = Nothing).
Proof.
  intros c o w p hin QO HP HD HR. unfold mla_pass.
  assert (D1 : (if o_rev o then - hin else hin) = dir (o_rev o) * hin) by (destruct (o_rev o); cbn; ring). rewrite D1. clear D1.
  set (st := if o_orb o then _ else _).
  assert (S : st = stage (o_orb o) (fun p => signed (o_rev o) (w_orb w p (dir (o_rev o) * hin))) p 100 \/ (o_orb o = false /\ st = (p, 100, 100))).
  { unfold st, stage, signed. destruct (o_orb o); [left|right; auto]. destruct (w_orb w p _) as [p' ho]. reflexivity. }
  destruct st as [[p1 h1] n1].
  assert (F : k_time p1 = k_time p /\ k_mileage p1 = k_mileage p /\ (k_run p = false -> p1 = p /\ n1 = 100) /\ (n1 = 100 \/ n1 < 0 /\ k_run p = true) /\
              (k_run p1 = true -> n1 = 100 /\ 0 <= h1) /\ ((o_orb o = true -> shrinks (o_rev o) (w_orb w)) -> n1 < 0 -> - n1 < hin)).
  { destruct S as [S|[_ S]].
    - symmetry in S. apply stage_spec in S; [|intros q; cbv zeta; unfold signed; specialize (QO q (dir (o_rev o) * hin)); destruct (w_orb w q _); exact QO].
      destruct S as (A1 & A2 & A3 & A4 & A5 & A6 & A7 & A8 & A9). repeat (split; [assumption|]). split; [|split; [exact A6|]].
      + destruct A5 as [->|(-> & L & _ & _ & R)]; [now left|right; auto].
      + intros SO L. destruct A5 as [->|(-> & _ & ON & -> & _)]; [lra|]. rewrite signed_snd in *. apply SO; auto.
    - injection S as -> -> ->. repeat (split; [reflexivity|]). split; [auto|]. split; [auto|]. split; [intros _; split; [auto|lra]|lra]. }
  clear S. destruct F as (T1 & T2 & IDLE & NN & PR & SH).
  destruct (Z.eqb_spec (k_err p1) 0) as [ER|ER].
  2:{ split; [|intros Z; destruct (IDLE Z); auto]. repeat split; auto. }
  set (dphi := Rabs _ / _). set (drho := Rabs (k_rho p - _) / _). set (n4 := if rlt 0 n1 then _ else n1).
  assert (N4 : (n4 < 0 /\ (k_run p = true \/ (1 < dphi \/ 1 < drho)) /\ ((o_orb o = true -> shrinks (o_rev o) (w_orb w)) -> - n4 < hin)) \/ (n4 = 100 /\ n1 = 100 /\ ((dphi <= 1 /\ drho <= 1) \/ dphi = drho))).
  { assert (LIM : forall d (P : Prop), 1 < d -> P -> - hin / d < 0 /\ P /\ ((o_orb o = true -> shrinks (o_rev o) (w_orb w)) -> - (- hin / d) < hin)).
    { intros d P D HPp. assert (I : 0 < / d) by (apply Rinv_0_lt_compat; lra). assert (I1 : / d < 1) by (rewrite <- Rinv_1; apply Rinv_lt_contravar; lra).
      unfold Rdiv. split; [nra|]. split; [exact HPp|intros _; nra]. }
    unfold n4. destruct (rlt_spec 0 n1) as [L|L].
    - destruct NN as [->|[N RP]]; [|lra].
      destruct (rlt_spec 1 dphi) as [L1|L1]; cbn [andb].
      + destruct (rlt_spec drho dphi) as [L2|L2]; [left; apply LIM; auto|].
        destruct (rlt_spec 1 drho) as [L3|L3]; cbn [andb]; [|right; repeat split; auto; right; lra].
        destruct (rlt_spec dphi drho) as [L4|L4]; [|right; repeat split; auto; right; lra]. left; apply LIM; auto.
      + destruct (rlt_spec 1 drho) as [L3|L3]; cbn [andb]; [|right; repeat split; auto; left; lra].
        destruct (rlt_spec dphi drho) as [L4|L4]; [|right; repeat split; auto; right; lra]. left; apply LIM; auto.
    - destruct NN as [->|[N RP]]; [lra|]. left. auto. }
  clearbody n4.
  assert (RPI : k_run p = false -> dphi = 0 /\ drho = 0).
  { intros Z. destruct (IDLE Z) as [-> _]. unfold dphi, drho. rewrite !Rminus_eq_0, Rabs_R0. split; unfold Rdiv; ring. }
  destruct (rlt_spec n4 0) as [L|L].
  - destruct N4 as [(_ & W & SH4)|[-> _]]; [|lra].
    assert (RP : k_run p = true). { destruct (k_run p) eqn:E; auto. destruct (RPI eq_refl). destruct W as [W|[W|W]]; [discriminate|lra|lra]. }
    rewrite RP. split; [split; [reflexivity|split; [lra|split; [reflexivity|exact SH4]]]|]. discriminate.
  - destruct N4 as [[N _]|(-> & -> & LM)]; [lra|].
    destruct (k_run p1) eqn:RUN.
    + destruct (PR eq_refl) as (_ & P1). assert (RP : k_run p = true). { destruct (k_run p) eqn:E; auto. destruct (IDLE eq_refl) as [-> _]. congruence. }
      cbn [add_cpu advance k_time k_mileage k_run k_err k_id]. split; [|congruence]. split; [reflexivity|]. split; [rewrite T1; ring|]. split; [rewrite T2; ring|].
      repeat (split; [assumption|]). destruct (Req_EM_T 100 100); [|congruence]. split; [destruct (rlt_spec h1 100); lra|]. split; [destruct (rlt_spec h1 100); [right; lra|now left]|].
      unfold limits, add_cpu, advance. cbn [k_phi k_rho]. exact LM.
    + split; [repeat split; auto|]. intros Z. destruct (IDLE Z). auto.
Qed.

(** ** Fixed steps *)
Lemma fof_spec : forall o (w : pass X) p hin, quiet_pass w -> let '(q, e) := fof_pass o w p hin in
  k_time q = k_time p + dir (o_rev o) * amount e /\ k_mileage q = k_mileage p + amount e /\ (e = Accepted hin \/ e = Nothing) /\ (e = Accepted hin <-> k_run q = true) /\ (k_run p = false -> q = p).
Proof.
  intros o w p hin (QO & QC & QR). unfold fof_pass.
  assert (D2 : (if o_rev o then - (if o_rev o then - hin else hin) else if o_rev o then - hin else hin) = hin) by (destruct (o_rev o); ring). rewrite D2. clear D2.
  set (p1 := if o_orb o then _ else p). set (p2 := if o_col o then _ else p1). set (p3 := if o_icrh o then _ else p2).
  assert (F : k_time p3 = k_time p /\ k_mileage p3 = k_mileage p /\ (k_run p = false -> p3 = p)).
  { assert (F1 : k_time p1 = k_time p /\ k_mileage p1 = k_mileage p /\ (k_run p = false -> p1 = p)).
    { unfold p1. destruct (o_orb o); [|auto]. destruct (QO p (if o_rev o then - hin else hin)) as (A & B & _ & C). auto. }
    assert (F2 : k_time p2 = k_time p1 /\ k_mileage p2 = k_mileage p1 /\ (k_run p1 = false -> p2 = p1)).
    { unfold p2. destruct (o_col o); [|auto]. destruct (QC p1 hin) as (A & B & _ & C). auto. }
    assert (F3 : k_time p3 = k_time p2 /\ k_mileage p3 = k_mileage p2 /\ (k_run p2 = false -> p3 = p2)).
    { unfold p3. destruct (o_icrh o); [|auto]. destruct (QR p2 hin) as (A & B & _ & C). auto. }
    destruct F1 as (A1 & A2 & A3), F2 as (B1 & B2 & B3), F3 as (C1 & C2 & C3). split; [congruence|]. split; [congruence|].
    intros Z. assert (E1 := A3 Z). assert (Z1 : k_run p1 = false) by congruence. assert (E2 := B3 Z1). assert (Z2 : k_run p2 = false) by congruence. rewrite (C3 Z2). congruence. }
  clearbody p3. destruct F as (T1 & T2 & T3). destruct (k_run p3) eqn:RUN; cbn [amount add_cpu advance k_time k_mileage k_run].
  - rewrite T1, T2. split; [ring|]. split; [ring|]. split; [auto|]. split; [tauto|]. intros Z. rewrite (T3 Z) in RUN. congruence.
  - rewrite T1, T2. split; [ring|]. split; [ring|]. split; [auto|]. split; [|auto]. split; congruence.
Qed.
Fixpoint fof_run (o : options) (ws : list (pass X * (marker -> marker))) (p : marker) (h : R) : marker * nat :=
  match ws with
  | [] => (p, 0%nat)
  | (w, f) :: ws' => let '(q, e) := fof_pass o w p h in let '(r, n) := fof_run o ws' (f q) h in (r, match e with Accepted _ => S n | _ => n end)
  end.
Lemma fof_history : forall o h ws p, Forall (fun wf => quiet_pass (fst wf) /\ keeps (snd wf)) ws ->
  let '(q, n) := fof_run o ws p h in k_mileage q = k_mileage p + INR n * h /\ k_time q = k_time p + dir (o_rev o) * (INR n * h) /\ (n <= length ws)%nat.
Proof.
  intros o h ws. induction ws as [|[w f] ws IH]; intros p F; cbn [fof_run].
  - cbn. split; [ring|]. split; [ring|lia].
  - inversion F as [|? ? (Q & K) F']; subst. cbn [fst snd] in *.
    pose proof (fof_spec o w p h Q) as S. destruct (fof_pass o w p h) as [q e]. destruct S as (S1 & S2 & S3 & _).
    specialize (IH (f q) F'). destruct (fof_run o ws (f q) h) as [r n]. destruct IH as (I1 & I2 & I3). destruct (K q) as (K1 & K2 & _).
    rewrite I1, I2, K1, K2, S1, S2. destruct S3 as [->| ->]; cbn [amount length]; rewrite ?S_INR; (split; [ring|split; [ring|lia]]).
Qed.
(** guiding centres with fixed step: the mileage advances by the step that was taken, unless RF heating is on *)
Lemma gcf_spec : forall o (w : pass X) p hin hdef, quiet_pass w -> 0 < hin -> let '(q, (h', hdef', recom'), e) := gcf_pass o w p (hin, hdef, 1) in
  hdef' = hdef /\ (k_run q = true -> recom' = 1) /\
  match e with
  | Accepted d => d = (if o_icrh o then hdef else hin) /\ h' = d /\ k_time q = k_time p + dir (o_rev o) * d /\ k_mileage q = k_mileage p + d
  | Rejected => q = p /\ o_icrh o = true /\ 0 < h'
  | Nothing => k_time q = k_time p /\ k_mileage q = k_mileage p /\ k_run q = false
  end.
Proof.
  intros o w p hin hdef (QO & QC & QR) HP. unfold gcf_pass.
  assert (D2 : (if o_rev o then - (if o_rev o then - hin else hin) else if o_rev o then - hin else hin) = hin) by (destruct (o_rev o); ring). rewrite D2. clear D2.
  set (p1 := if o_orb o then _ else p). set (p2 := if o_col o then _ else p1).
  assert (F : k_time p2 = k_time p /\ k_mileage p2 = k_mileage p).
  { assert (F1 : k_time p1 = k_time p /\ k_mileage p1 = k_mileage p).
    { unfold p1. destruct (o_orb o); [|auto]. destruct (QO p (if o_rev o then - hin else hin)) as (A & B & _ & C). auto. }
    assert (F2 : k_time p2 = k_time p1 /\ k_mileage p2 = k_mileage p1).
    { unfold p2. destruct (o_col o); [|auto]. destruct (QC p1 hin) as (A & B & _ & C). auto. }
    destruct F1, F2. split; congruence. }
  clearbody p2. destruct F as (T1 & T2). destruct (o_icrh o) eqn:IC.
  - destruct (QR p2 hin) as (A & B & _ & C). destruct (w_rf w p2 hin) as [p3 ho]. cbn [fst] in *.
    destruct (k_run p3) eqn:R3; cbn [andb].
    + destruct (rlt_spec ho 0) as [L|L].
      * destruct (rlt_spec ho 0); [|lra]. destruct (k_run p) eqn:RP; cbn; [split; [auto|]; split; [auto|]; repeat split; auto; lra|split; [auto|]; split; [congruence|auto]].
      * destruct (rlt_spec 1 0); [lra|]. rewrite R3. cbn [add_cpu advance k_time k_mileage]. split; [auto|]; split; [auto|]. repeat split; rewrite ?A, ?B, ?T1, ?T2; ring.
    + destruct (rlt_spec 1 0); [lra|]. rewrite R3. split; [auto|]; split; [auto|]. repeat split; congruence.
  - destruct (rlt_spec 1 0); [lra|]. destruct (k_run p2) eqn:R2; cbn [add_cpu advance k_time k_mileage]; (split; [auto|]; split; [auto|]; repeat split; rewrite ?T1, ?T2; auto; ring).
Qed.
End sim.

(** ** Acceleration *)
Inductive action := Cross (safety nu ppar : R) | Step (h : R).
Definition act (x : action) (a : accel) : accel := match x with Cross s nu ppar => recalc s nu true ppar a | Step h => orbit_add h a end.
Definition sound (x : action) : Prop := match x with Cross s nu _ => 0 <= s /\ 0 < nu | Step _ => True end.
Lemma act_ge1 : forall x a, 1 <= a_acc a -> 1 <= a_acc (act x a).
Proof.
  intros [s nu pp|h] a A; cbn [act]; [|exact A]. unfold recalc, new_acc. destruct (true && a_twice a).
  - cbn. destruct (same_dir a pp); [apply Rmax_l|lra].
  - destruct (true && a_once a); [|exact A]. destruct (same_dir a pp); [apply Rmax_l|exact A].
Qed.
Lemma acts_ge1 : forall xs a, 1 <= a_acc a -> 1 <= a_acc (fold_left (fun a x => act x a) xs a).
Proof. induction xs as [|x xs IH]; intros a A; cbn; auto. apply IH. now apply act_ge1. Qed.
Definition fresh (a : accel) : Prop := a_acc a = 1 /\ a_orbit a = -1 /\ a_once a = false.
Lemma act_fresh : forall x a b, sound x -> fresh a -> fresh b -> act x a = act x b \/ (fresh (act x a) /\ fresh (act x b)).
Proof.
  intros [s nu pp|h] a b SX (A1 & A2 & A3) (B1 & B2 & B3); cbn [act].
  - left. assert (FF : forall a, a_acc a = 1 -> a_orbit a = -1 -> a_once a = false -> recalc s nu true pp a = Acc 1 0 true false (rlt 0 pp)).
    { clear - SX. intros a A1 A2 A3. destruct SX as [S0 N0]. unfold recalc. rewrite A3. cbn [andb]. destruct (a_twice a) eqn:TW.
      - f_equal. destruct (same_dir a pp); auto. unfold new_acc. rewrite A2. apply Rmax_left.
        assert (0 < / nu) by now apply Rinv_0_lt_compat. replace (s / (-1 * nu)) with (- (s * / nu)) by (field; lra). nra.
      - now rewrite A1. }
    rewrite (FF a A1 A2 A3), (FF b B1 B2 B3). reflexivity.
  - right. unfold orbit_add, fresh. rewrite A1, A2, A3, B1, B2, B3. cbn. destruct (Rle_dec 0 (-1)); [lra|]. repeat split; auto.
Qed.
Lemma acts_fresh : forall xs a b, Forall sound xs -> (a = b \/ (fresh a /\ fresh b)) ->
  a_acc (fold_left (fun a x => act x a) xs a) = a_acc (fold_left (fun a x => act x a) xs b).
Proof.
  induction xs as [|x xs IH]; intros a b F E; cbn.
  - destruct E as [->|[(A & _) (B & _)]]; congruence.
  - inversion F; subst. apply IH; auto. destruct E as [->|[A B]]; [now left|]. now apply act_fresh.
Qed.
Lemma steps_orbit : forall hs a, 0 <= a_orbit a -> 0 <= a_acc a -> Forall (fun h => 0 <= h) hs ->
  fold_left (fun a x => act x a) (map Step hs) a = Acc (a_acc a) (a_orbit a + fold_right Rplus 0 hs * a_acc a) (a_once a) (a_twice a) (a_first a).
Proof.
  induction hs as [|h hs IH]; intros a A B F; cbn [map fold_left fold_right].
  - destruct a; cbn. f_equal. ring.
  - inversion F; subst. assert (E : act (Step h) a = Acc (a_acc a) (a_orbit a + h * a_acc a) (a_once a) (a_twice a) (a_first a)).
    { cbn [act]. unfold orbit_add. destruct (Rle_dec 0 (a_orbit a)); [reflexivity|lra]. }
    rewrite E, IH; cbn [a_orbit a_acc a_once a_twice a_first]; auto; [f_equal; ring|nra].
Qed.
(** one orbit of real duration T, crossing in the same direction as before *)
Lemma orbit_acc : forall s nu pp hs A (f : bool), let T := fold_right Rplus 0 hs in 0 < nu -> 0 < T -> 1 <= A -> Forall (fun h => 0 <= h) hs -> (if f then 0 < pp else pp < 0) ->
  fold_left (fun a x => act x a) (map Step hs ++ [Cross s nu pp]) (Acc A 0 true false f) = Acc (Rmax 1 (s / (T * nu) / A)) 0 true false f.
Proof.
  intros s nu pp hs A f T N HT HA F D. rewrite fold_left_app, steps_orbit by (cbn; auto; lra). cbn [a_acc a_orbit a_once a_twice a_first fold_left act]. fold T.
  unfold recalc, same_dir, new_acc. cbn [a_twice a_once a_first a_orbit andb].
  assert (E : rlt 0 (((if f then 1 else 0) - 0.5) * pp) = true). { destruct (rlt_spec 0 (((if f then 1 else 0) - 0.5) * pp)) as [L|L]; auto. exfalso. apply L. destruct f; nra. }
  rewrite E. f_equal; [|].
  - f_equal. field. lra.
  - destruct (rlt_spec 0 pp), f; auto; lra.
Qed.
(** repeating the same orbit the factor alternates between 1 and the intended value *)
Definition orbits (s nu pp : R) (hs : list R) (n : nat) (a : accel) : accel :=
  Nat.iter n (fold_left (fun a x => act x a) (map Step hs ++ [Cross s nu pp])) a.
Lemma orbits_alternate : forall s nu pp hs, let T := fold_right Rplus 0 hs in let K := s / (T * nu) in
  0 < nu -> 0 < T -> 1 <= K -> Forall (fun h => 0 <= h) hs -> pp <> 0 -> forall n,
  a_acc (orbits s nu pp hs (2 * n) (Acc 1 0 true false (rlt 0 pp))) = 1 /\
  a_acc (orbits s nu pp hs (2 * n + 1) (Acc 1 0 true false (rlt 0 pp))) = K.
Proof.
  intros s nu pp hs T K N HT HK F HP n. set (a0 := Acc 1 0 true false (rlt 0 pp)). set (f := fold_left (fun a x => act x a) (map Step hs ++ [Cross s nu pp])).
  assert (DIR : if rlt 0 pp then 0 < pp else pp < 0) by (destruct (rlt_spec 0 pp); lra).
  assert (E1 : f a0 = Acc K 0 true false (rlt 0 pp)).
  { unfold f, a0. rewrite (orbit_acc s nu pp hs 1 (rlt 0 pp) N HT (Rle_refl 1) F DIR). fold T. f_equal. rewrite Rmax_right; fold K; unfold Rdiv; rewrite Rinv_1, Rmult_1_r; auto. }
  assert (E2 : f (Acc K 0 true false (rlt 0 pp)) = a0).
  { unfold f, a0. rewrite (orbit_acc s nu pp hs K (rlt 0 pp) N HT HK F DIR). fold T. fold K. f_equal. replace (K / K) with 1 by (field; lra). apply Rmax_left; lra. }
  assert (I : forall n, orbits s nu pp hs (2 * n) a0 = a0).
  { intros k; induction k as [|m IH]; [reflexivity|]. replace (2 * S m)%nat with (S (S (2 * m))) by lia. change (orbits s nu pp hs (S (S (2 * m))) a0) with (f (f (orbits s nu pp hs (2 * m) a0))). rewrite IH, E1, E2. reflexivity. }
  split; [rewrite I; reflexivity|]. replace (2 * n + 1)%nat with (S (2 * n)) by lia. change (orbits s nu pp hs (S (2 * n)) a0) with (f (orbits s nu pp hs (2 * n) a0)). rewrite I, E1. reflexivity.
Qed.
(** a bouncing marker crosses in the opposite direction once per orbit *)
Lemma bounce_acc : forall s nu s' nu' pp pp' hs hs' A (f : bool), let T := fold_right Rplus 0 hs + fold_right Rplus 0 hs' in 0 < nu -> 0 < T -> 1 <= A ->
  Forall (fun h => 0 <= h) hs -> Forall (fun h => 0 <= h) hs' -> (if f then pp' < 0 < pp else pp < 0 < pp') ->
  fold_left (fun a x => act x a) (map Step hs ++ [Cross s' nu' pp'] ++ map Step hs' ++ [Cross s nu pp]) (Acc A 0 true false f) = Acc (Rmax 1 (s / (T * nu) / A)) 0 true false f.
Proof.
  intros s nu s' nu' pp pp' hs hs' A f T N HT HA F F' D. rewrite fold_left_app, steps_orbit by (cbn; auto; lra). cbn [a_acc a_orbit a_once a_twice a_first].
  assert (P : forall l, Forall (fun h => 0 <= h) l -> 0 <= fold_right Rplus 0 l). { induction 1; cbn; lra. }
  rewrite fold_left_app. cbn [fold_left act]. unfold recalc at 1. cbn [a_twice a_once andb].
  assert (E1 : same_dir (Acc A (0 + fold_right Rplus 0 hs * A) true false f) pp' = false).
  { unfold same_dir. cbn [a_first]. match goal with |- rlt ?x ?y = _ => destruct (rlt_spec x y) as [L|L]; auto end. exfalso. destruct f; nra. }
  rewrite E1. cbn [a_acc a_orbit a_once a_twice a_first].
  rewrite fold_left_app, steps_orbit by (cbn; auto; try lra; specialize (P hs F); nra). cbn [a_acc a_orbit a_once a_twice a_first fold_left act].
  unfold recalc, new_acc. cbn [a_twice a_once a_first a_orbit andb].
  assert (E : same_dir (Acc A (0 + fold_right Rplus 0 hs * A + fold_right Rplus 0 hs' * A) true true f) pp = true).
  { unfold same_dir. cbn [a_first]. match goal with |- rlt ?x ?y = _ => destruct (rlt_spec x y) as [L|L]; auto end. exfalso. apply L. destruct f; nra. }
  rewrite E. f_equal; [|destruct (rlt_spec 0 pp), f; auto; lra]. f_equal.
  replace (0 + fold_right Rplus 0 hs * A + fold_right Rplus 0 hs' * A) with (T * A) by (unfold T; ring). field. repeat split; lra.
Qed.
