(** Specifications and proofs for the atomic reactions. *)
From Coq Require Import Reals List ZArith Bool Lra Lia Permutation.
From Verif Require Import Deriv Vec ErrorModel ErrorProofs AxisModel AxisProofs SplineModel SplineProofs SplineProps Spl2Model Spl3Model PhysModel AtomModel.
Import ListNotations.
Local Open Scope R_scope.

Ltac ifs := repeat match goal with |- context [if Rlt_dec ?a ?b then _ else _] => destruct (Rlt_dec a b) | |- context [if Req_EM_T ?a ?b then _ else _] => destruct (Req_EM_T a b) | |- context [if Rle_dec ?a ?b then _ else _] => destruct (Rle_dec a b) end.

(** ** reaction sampling *)
Lemma react_range : forall q dt ri rr z rnd, (0 <= q <= z)%Z ->
  (0 <= atomic_react q dt ri rr z rnd <= z /\ -1 <= atomic_react q dt ri rr z rnd - q <= 1)%Z.
Proof.
  intros. unfold atomic_react. destruct (Z.ltb_spec q z), (Z.ltb_spec 0 q); ifs; cbn [andb]; lia.
Qed.
Lemma exp_le1 : forall x, x <= 0 -> exp x <= 1.
Proof. intros x H. rewrite <- exp_0. destruct H; [left; now apply exp_increasing | subst; right; auto]. Qed.
Lemma ratio01 : forall a b, 0 <= a -> 0 <= b -> 0 < a + b -> 0 <= a / (a + b) <= 1.
Proof. intros. split; apply Rmult_le_reg_r with (a + b); auto; unfold Rdiv; rewrite Rmult_assoc, Rinv_l by lra; lra. Qed.
Lemma prob_sum : forall ri rr dt, 0 <= ri -> 0 <= rr -> prob ri ri rr dt + prob rr ri rr dt = 1 - exp (- (ri + rr) * dt).
Proof.
  intros. unfold prob. ifs; subst.
  - replace (- (0 + 0) * dt) with 0 by ring. rewrite exp_0. ring.
  - rewrite Rplus_0_l. replace (0 + rr) with rr by ring. field. lra.
  - replace (ri + 0) with ri by ring. field. lra.
  - field. lra.
Qed.
Lemma prob_01 : forall r ri rr dt, 0 <= ri -> 0 <= rr -> 0 <= dt -> r = ri \/ r = rr -> 0 <= prob r ri rr dt <= 1.
Proof.
  intros r ri rr dt H H0 H1 D. unfold prob. ifs; [lra|].
  assert (P : 0 < ri + rr) by (destruct D; subst; lra).
  assert (0 <= r / (ri + rr) <= 1) by (destruct D; subst; [apply ratio01 | rewrite Rplus_comm; apply ratio01]; lra).
  assert (0 < exp (- (ri + rr) * dt) <= 1) by (split; [apply exp_pos | apply exp_le1; nra]). nra.
Qed.
(** a decision that depends on one uniform number: [P] holds exactly on the interval *)
Definition exactly_on (P : R -> Prop) (lo hi : R) : Prop := forall rnd, 0 <= rnd < 1 -> (P rnd <-> lo <= rnd < hi).
Lemma react_partial_charge : forall q z dt ri rr, (0 < q < z)%Z -> 0 <= ri -> 0 <= rr -> 0 <= dt ->
  let pi := prob ri ri rr dt in let pr := prob rr ri rr dt in
  exactly_on (fun rnd => atomic_react q dt ri rr z rnd = q + 1)%Z 0 pi /\
  exactly_on (fun rnd => atomic_react q dt ri rr z rnd = q - 1)%Z pi (pi + pr) /\
  exactly_on (fun rnd => atomic_react q dt ri rr z rnd = q)%Z (pi + pr) 1.
Proof.
  intros q z dt ri rr Q A B C pi pr. pose proof (prob_01 ri ri rr dt A B C (or_introl eq_refl)).
  pose proof (prob_01 rr ri rr dt A B C (or_intror eq_refl)). fold pi in H. fold pr in H0. unfold exactly_on, atomic_react. fold pi pr.
  (split; [|split]); intros rnd; destruct (Z.ltb_spec q z), (Z.ltb_spec 0 q); ifs; cbn [andb]; try lia; split; intros; try lra; try lia.
Qed.
Lemma react_neutral : forall z dt ri rr, (0 < z)%Z -> 0 <= ri -> 0 <= rr -> 0 <= dt ->
  exactly_on (fun rnd => atomic_react 0 dt ri rr z rnd = 1)%Z 0 (prob ri ri rr dt) /\
  exactly_on (fun rnd => atomic_react 0 dt ri rr z rnd = 0)%Z (prob ri ri rr dt) 1.
Proof.
  intros z dt ri rr Q A B C. pose proof (prob_01 ri ri rr dt A B C (or_introl eq_refl)). unfold exactly_on, atomic_react.
  split; intros rnd; destruct (Z.ltb_spec 0 z); ifs; cbn [andb Z.ltb Z.compare]; try lia; split; intros; try lra; try lia.
Qed.
Lemma react_stripped : forall z dt ri rr, (0 < z)%Z -> 0 <= ri -> 0 <= rr -> 0 <= dt ->
  exactly_on (fun rnd => atomic_react z dt ri rr z rnd = z - 1)%Z 0 (1 - exp (- (ri + rr) * dt)) /\
  exactly_on (fun rnd => atomic_react z dt ri rr z rnd = z)%Z (1 - exp (- (ri + rr) * dt)) 1.
Proof.
  intros z dt ri rr Q A B C. rewrite <- prob_sum by auto. pose proof (prob_01 ri ri rr dt A B C (or_introl eq_refl)).
  pose proof (prob_01 rr ri rr dt A B C (or_intror eq_refl)). unfold exactly_on, atomic_react.
  split; intros rnd; rewrite Z.ltb_irrefl; destruct (Z.ltb_spec 0 z); ifs; cbn [andb]; try lia; split; intros; try lra; try lia.
Qed.
(** the finding: without any recombination rate a stripped marker loses charge *)
Lemma react_stripped_ionises_down : forall z dt ri rnd, (0 < z)%Z -> 0 <= ri -> rnd < 1 - exp (- ri * dt) ->
  atomic_react z dt ri 0 z rnd = (z - 1)%Z.
Proof.
  intros z dt ri rnd Q A H. unfold atomic_react. rewrite Z.ltb_irrefl. rewrite prob_sum by lra.
  replace (- (ri + 0)) with (- ri) by ring. destruct (Z.ltb_spec 0 z); [|lia]. ifs; cbn [andb]; auto; lra.
Qed.
(** survival is multiplicative, the branching follows the rates, and the probability grows
    from zero at the given rate *)
Definition survive (ri rr dt : R) : R := 1 - (prob ri ri rr dt + prob rr ri rr dt).
Lemma survive_mult : forall ri rr a b, 0 <= ri -> 0 <= rr -> survive ri rr (a + b) = survive ri rr a * survive ri rr b.
Proof. intros. unfold survive. rewrite !prob_sum by auto. rewrite Rmult_plus_distr_l, exp_plus. ring. Qed.
Lemma branching : forall ri rr dt, 0 <= ri -> 0 <= rr -> prob ri ri rr dt * rr = prob rr ri rr dt * ri.
Proof. intros. unfold prob. ifs; subst; try ring. field. lra. Qed.
Lemma prob_rate : forall ri rr, 0 <= ri -> 0 <= rr -> Dx (prob ri ri rr) 0 ri /\ Dx (prob rr ri rr) 0 rr.
Proof.
  assert (K : forall r s, s <> 0 -> Dx (fun dt => r / s * (1 - exp (- s * dt))) 0 r).
  { intros r s N. assert (C : forall k, Dx (fun dt => k * (1 - exp (- s * dt))) 0 (k * s)).
    { intros k. der. rewrite Rmult_0_r, exp_0. ring. }
    eapply d_eq; [apply C|]. field. auto. }
  intros ri rr A B. unfold prob. split; ifs; subst; try apply d_const; apply K; lra.
Qed.

(** ** rates and lanes *)
Lemma clean_sound : forall a e v, clean a = Some (e, v) -> 0 <= v /\ (e <> 0%Z -> v = 0).
Proof.
  intros [[e0 v0]|] e v H; cbn in H; [|discriminate].
  destruct (Z.eqb_spec e0 0); cbn in H; [destruct (Rlt_dec v0 0)|]; injection H as <- <-; split; try lra; intros; try lia; auto.
Qed.
Lemma rates_sound : forall u z a m d x q E b e ri rr, 0 <= n_e b -> atomic_rates u z a m d x q E b = Some (e, ri, rr) ->
  0 <= ri /\ 0 <= rr /\ (e = 0%Z -> (q = 0 \/ q = 1)%Z) /\ (q <> 0%Z -> ri = 0) /\ (q <> 1%Z -> rr = 0).
Proof.
  intros u z a m d x q E b e ri rr N H. unfold atomic_rates in H. destruct (Z.eqb_spec q 1).
  - destruct (asigma_eval_cx _ _ _ _ _ _ _ _) as [[ee c]|] eqn:Q; [|discriminate]. apply clean_sound in Q. injection H as <- <- <-. repeat split; intros; auto; try lra; lia.
  - destruct (Z.eqb_spec q 0).
    + destruct (asigma_eval_bms _ _ _ _ _ _ _ _ _) as [[ee c]|] eqn:Q; [|discriminate]. apply clean_sound in Q. injection H as <- <- <-. repeat split; intros; auto; try lra; try lia. nra.
    + injection H as <- <- <-. repeat split; intros; auto; try lra; try (discriminate).
Qed.
Lemma rates_unsupported : forall u z a m d x q E b, q <> 0%Z -> q <> 1%Z -> exists e, e <> 0%Z /\ atomic_rates u z a m d x q E b = Some (e, 0, 0).
Proof.
  intros. unfold atomic_rates. apply Z.eqb_neq in H, H0. rewrite H, H0. eexists. split; [|reflexivity]. discriminate.
Qed.
Lemma up_half : forall n, up (IZR n + / 2) = (n + 1)%Z.
Proof. intros. symmetry. apply tech_up; rewrite plus_IZR; lra. Qed.
Lemma round_int : forall n, roundR (IZR n) = n.
Proof.
  intros. unfold roundR. ifs; [rewrite up_half; lia|]. rewrite <- opp_IZR, up_half. lia.
Qed.
Lemma round_near : forall x n, Rabs (x - IZR n) < / 2 -> roundR x = n.
Proof.
  intros x n H. apply Rabs_def2 in H. unfold roundR. ifs.
  - rewrite <- (tech_up (x + / 2) (n + 1)); [lia | |]; rewrite plus_IZR; lra.
  - rewrite <- (tech_up (- x + / 2) (- n + 1)); [lia | |]; rewrite plus_IZR, opp_IZR; lra.
Qed.
Definition same_marker (p p' : lane) : Prop :=
  mass p' = mass p /\ lznum p' = lznum p /\ lanum p' = lanum p /\ pr p' = pr p /\ pphi p' = pphi p /\ pz p' = pz p.
(** the marker carries [q] elementary charges *)
Definition carries (p : lane) (q : Z) : Prop := charge p = IZR q * CONST_E /\ (0 <= q <= lznum p)%Z.
Lemma E_pos : 0 < CONST_E. Proof. unfold CONST_E. lra. Qed.
Lemma carries_round : forall p q, carries p q -> roundR (charge p / CONST_E) = q.
Proof. intros p q [H _]. rewrite H. replace (IZR q * CONST_E / CONST_E) with (IZR q) by (field; pose proof E_pos; lra). apply round_int. Qed.
Lemma lane_step : forall u d x bg h rnd p p' q, carries p q -> atomic_fo_lane u d x bg h rnd p = Some p' ->
  exists q', carries p' q' /\ (-1 <= q' - q <= 1)%Z /\ same_marker p p' /\
    (running p' = false -> charge p' = charge p) /\ (running p = false -> p' = p) /\ (running p' = true -> running p = true /\ lerr p' = lerr p /\ (q = 0 \/ q = 1)%Z).
Proof.
  intros u d x bg h rnd p p' q C H. unfold atomic_fo_lane in H. rewrite (carries_round _ _ C) in H.
  destruct (running p) eqn:Rn.
  2:{ injection H as <-. exists q. unfold same_marker. repeat split; try apply C; auto; try lia; congruence. }
  destruct bg as [e|b].
  { injection H as <-. exists q. unfold same_marker, carries; cbn. repeat split; try apply C; auto; try lia; discriminate. }
  destruct (atomic_rates _ _ _ _ _ _ _ _ _) as [[[e ri] rr]|] eqn:Q; [|discriminate].
  assert (K : e = 0%Z -> (q = 0 \/ q = 1)%Z).
  { intros ->. destruct (Z.eq_dec q 0), (Z.eq_dec q 1); auto. exfalso.
    destruct (rates_unsupported u (lznum p) (lanum p) (mass p) d x q (Ekin_pnorm (mass p) (norm (V (pr p) (pphi p) (pz p)))) b) as (e' & A & B); auto.
    rewrite B in Q. congruence. }
  destruct (Z.eqb_spec e 0).
  - pose proof (react_range q h ri rr (lznum p) rnd (proj2 C)) as A. set (q' := atomic_react q h ri rr (lznum p) rnd) in *.
    destruct (Z.eqb_spec q' q); injection H as <-.
    + exists q. unfold same_marker, carries. repeat split; try apply C; auto; try lia; try congruence.
    + exists q'. unfold same_marker, carries; cbn. repeat split; auto; try lia; try discriminate; try congruence.
  - injection H as <-. exists q. unfold same_marker, carries; cbn. repeat split; try apply C; auto; try lia; discriminate.
Qed.
(** any number of steps, with whatever background, step and random number each time *)
Fixpoint steps (u : R) (d : asigma) (x : bool) (l : list ((Z + bulk) * R * R)) (p : lane) : option lane :=
  match l with [] => Some p | (bg, h, rnd) :: l => match atomic_fo_lane u d x bg h rnd p with Some p' => steps u d x l p' | None => None end end.
Lemma steps_charge : forall u d x l p p' q, carries p q -> steps u d x l p = Some p' ->
  exists q', carries p' q' /\ same_marker p p' /\ (Z.abs (q' - q) <= Z.of_nat (length l))%Z.
Proof.
  induction l as [|[[bg h] rnd] l IH]; intros p p' q C H; cbn [steps] in H.
  - injection H as <-. exists q. unfold same_marker. split; [auto|split]; [repeat split|cbn; lia].
  - destruct (atomic_fo_lane u d x bg h rnd p) as [p1|] eqn:Q; [|discriminate].
    destruct (lane_step _ _ _ _ _ _ _ _ _ C Q) as (q1 & C1 & D1 & S1 & _).
    destruct (IH _ _ _ C1 H) as (q2 & C2 & S2 & D2). exists q2. split; [auto|split].
    + unfold same_marker in *. intuition congruence.
    + cbn [length]. lia.
Qed.
(** the law of one step seen from outside: a singly charged marker of a species of any
    nuclear charge neutralises with the charge-exchange rate, a neutral one ionises with the
    beam-stopping rate *)
Lemma lane_cx : forall u d x b h p c, running p = true -> carries p 1 -> 0 <= h -> 0 <= c ->
  asigma_eval_cx u (lznum p) (lanum p) (Ekin_pnorm (mass p) (norm (V (pr p) (pphi p) (pz p)))) (T_0 b) (species (ions b) (n_0 b)) x d = Some (0%Z, c) ->
  exactly_on (fun rnd => exists p', atomic_fo_lane u d x (inr b) h rnd p = Some p' /\ carries p' 0 /\ running p' = true) 0 (1 - exp (- c * h)) /\
  exactly_on (fun rnd => atomic_fo_lane u d x (inr b) h rnd p = Some p) (1 - exp (- c * h)) 1.
Proof.
  intros u d x b h p c Rn C Hh Hc Q.
  assert (Z1 : (1 <= lznum p)%Z) by apply C.
  assert (L : forall rnd, atomic_fo_lane u d x (inr b) h rnd p =
     Some (if Rlt_dec rnd (1 - exp (- c * h)) then if Rlt_dec rnd 0 then (if (1 <? lznum p)%Z then LANE true (lerr p) (IZR 2 * CONST_E) (mass p) (lznum p) (lanum p) (pr p) (pphi p) (pz p) else LANE true (lerr p) (IZR 0 * CONST_E) (mass p) (lznum p) (lanum p) (pr p) (pphi p) (pz p)) else LANE true (lerr p) (IZR 0 * CONST_E) (mass p) (lznum p) (lanum p) (pr p) (pphi p) (pz p) else if Rlt_dec rnd 0 then (if (1 <? lznum p)%Z then LANE true (lerr p) (IZR 2 * CONST_E) (mass p) (lznum p) (lanum p) (pr p) (pphi p) (pz p) else p) else p)).
  { intros. unfold atomic_fo_lane. rewrite Rn, (carries_round _ _ C). unfold atomic_rates. cbn [Z.eqb Pos.eqb]. rewrite Q. cbn [Z.eqb].
    unfold atomic_react. rewrite prob_sum by lra. replace (- (0 + (0 + c))) with (- c) by ring.
    assert (P0 : prob 0 0 (0 + c) h = 0) by (unfold prob; destruct (Req_EM_T 0 0); [auto|lra]). rewrite P0.
    destruct (Z.ltb_spec 1 (lznum p)); ifs; cbn; auto. }
  split; intros rnd I; rewrite L; (assert (0 < exp (- c * h) <= 1) by (split; [apply exp_pos | apply exp_le1; nra])); ifs; try lra.
  - split; [intros; lra|]. intros _. eexists. split; [reflexivity|]. unfold carries; cbn. repeat split; try lia.
  - split; [|lra]. intros (p' & E & [C0 _] & _). injection E as <-. destruct C as [C1 _]. rewrite C1 in C0. pose proof E_pos. lra.
  - split; [|lra]. intros E. injection E as E. apply (f_equal charge) in E. cbn in E. destruct C as [C1 _]. rewrite C1 in E. pose proof E_pos. lra.
  - split; [lra | auto].
Qed.
Lemma lane_bms : forall u d x b h p c, running p = true -> carries p 0 -> (0 < lznum p)%Z -> 0 <= h -> 0 <= c -> 0 <= n_e b ->
  asigma_eval_bms u (lznum p) (lanum p) (Ekin_pnorm (mass p) (norm (V (pr p) (pphi p) (pz p)))) (mass p) (T_e b) (species (ions b) (n_i b)) x d = Some (0%Z, c) ->
  exactly_on (fun rnd => exists p', atomic_fo_lane u d x (inr b) h rnd p = Some p' /\ carries p' 1 /\ running p' = true) 0 (1 - exp (- (c * n_e b) * h)) /\
  exactly_on (fun rnd => atomic_fo_lane u d x (inr b) h rnd p = Some p) (1 - exp (- (c * n_e b) * h)) 1.
Proof.
  intros u d x b h p c Rn C Z1 Hh Hc Hn Q.
  assert (L : forall rnd, atomic_fo_lane u d x (inr b) h rnd p =
     Some (if Rlt_dec rnd (1 - exp (- (c * n_e b) * h)) then LANE true (lerr p) (IZR 1 * CONST_E) (mass p) (lznum p) (lanum p) (pr p) (pphi p) (pz p) else p)).
  { intros. unfold atomic_fo_lane. rewrite Rn, (carries_round _ _ C). unfold atomic_rates. cbn [Z.eqb Pos.eqb]. rewrite Q. cbn [Z.eqb].
    assert (P : prob (0 + c * n_e b) (0 + c * n_e b) 0 h = 1 - exp (- (c * n_e b) * h)).
    { assert (0 <= c * n_e b) by nra. pose proof (prob_sum (0 + c * n_e b) 0 h ltac:(lra) ltac:(lra)) as S. unfold prob at 2 in S. destruct (Req_EM_T 0 0); [|lra].
      rewrite <- (Rplus_0_r (prob _ _ _ _)), S. do 2 f_equal. ring. }
    unfold atomic_react. rewrite P. destruct (Z.ltb_spec 0 (lznum p)); [|lia]. ifs; cbn; auto. }
  assert (0 <= c * n_e b) by nra.
  split; intros rnd I; rewrite L; (assert (0 < exp (- (c * n_e b) * h) <= 1) by (split; [apply exp_pos | apply exp_le1; nra])); ifs; try lra.
  - split; [intros; lra|]. intros _. eexists. split; [reflexivity|]. unfold carries; cbn. repeat split; try lia.
  - split; [|lra]. intros (p' & E & [C0 _] & _). injection E as <-. destruct C as [C1 _]. rewrite C1 in C0. pose proof E_pos. lra.
  - split; [|lra]. intros E. injection E as E. apply (f_equal charge) in E. cbn in E. destruct C as [C1 _]. rewrite C1 in E. pose proof E_pos. lra.
  - split; [lra | auto].
Qed.

(** ** cross-section data *)
(** [r] is the last reaction in the list that satisfies [p] *)
Definition last_match (p : reac -> bool) (rs : list reac) (r : reac) : Prop :=
  exists a b, rs = a ++ r :: b /\ p r = true /\ forallb (fun x => negb (p x)) b = true.
Lemma find_acc : forall (p : reac -> bool) rs a, fold_left (fun (ac : option reac) r => if p r then Some r else ac) rs a = match find_reac p rs with Some r => Some r | None => a end.
Proof.
  unfold find_reac. intros p rs. induction rs as [|r rs IH]; intros a; cbn [fold_left]; auto.
  destruct (p r); [|apply IH]. rewrite (IH (Some r)). now destruct (fold_left _ rs None).
Qed.
Lemma find_none : forall p rs, find_reac p rs = None <-> forallb (fun x => negb (p x)) rs = true.
Proof.
  intros p rs. unfold find_reac. induction rs as [|r rs IH]; cbn [fold_left forallb]; [tauto|].
  rewrite find_acc. destruct (p r); cbn [negb andb]; [|rewrite <- IH; fold (find_reac p rs); unfold find_reac; destruct (fold_left _ rs None); split; auto].
  unfold find_reac. destruct (fold_left _ rs None); split; discriminate.
Qed.
Lemma find_some : forall p rs r, find_reac p rs = Some r <-> last_match p rs r.
Proof.
  intros p rs r. split.
  - induction rs as [|x rs IH]; intros H; [discriminate|]. unfold find_reac in H. cbn [fold_left] in H. rewrite find_acc in H.
    destruct (find_reac p rs) as [r'|] eqn:Q.
    + injection H as ->. destruct (IH eq_refl) as (a & b & -> & A & B). exists (x :: a), b. auto.
    + destruct (p x) eqn:P; [|discriminate]. injection H as <-. exists [], rs. split; [auto|split; auto]. now apply find_none.
  - intros (a & b & -> & A & B). unfold find_reac. rewrite fold_left_app. cbn [fold_left]. rewrite A, find_acc.
    apply find_none in B. now rewrite B.
Qed.
(** charge exchange: the sum over the neutral species of table value times density *)
Definition cx_value (rs : list reac) (z a : Z) (E T : R) (extrapolate : bool) (sp : ion) (v : R) : Prop :=
  exists r, last_match (matches z a (znum sp) (anum sp) sigmav_CX) rs r /\
    (ev2 (t2 r) (E / CONST_E) (T / CONST_E) = Val v \/ extrapolate = true /\ ev2 (t2 r) (E / CONST_E) (T / CONST_E) = Err /\ v = 0).
Definition cx_fails (rs : list reac) (z a : Z) (E T : R) (extrapolate : bool) (sp : ion) : Prop :=
  (forall r, ~ last_match (matches z a (znum sp) (anum sp) sigmav_CX) rs r) \/
  extrapolate = false /\ exists r, last_match (matches z a (znum sp) (anum sp) sigmav_CX) rs r /\ ev2 (t2 r) (E / CONST_E) (T / CONST_E) = Err.
Definition weighted (vs : list R) (l : list ion) : R := sumR (map (fun '(v, sp) => v * dens sp) (combine vs l)).
Lemma cx_step_value : forall u rs z a E T x e s sp v, cx_value rs z a E T x sp v ->
  cx_step u z a (E / CONST_E) (T / CONST_E) x rs (Some (e, s)) sp = Some (e, s + v * dens sp).
Proof.
  intros u rs z a E T x e s sp v (r & L & V). unfold cx_step. apply find_some in L. rewrite L.
  destruct V as [-> | (-> & -> & ->)]; reflexivity.
Qed.
Lemma cx_step_fails : forall u rs z a E T x e s sp, cx_fails rs z a E T x sp ->
  exists e' s', e' <> 0%Z /\ cx_step u z a (E / CONST_E) (T / CONST_E) x rs (Some (e, s)) sp = Some (e', s').
Proof.
  intros u rs z a E T x e s sp [N | (-> & r & L & V)]; unfold cx_step.
  - destruct (find_reac _ rs) as [r|] eqn:Q; [apply find_some in Q; now apply N in Q|]. do 2 eexists. split; [|reflexivity]. discriminate.
  - apply find_some in L. rewrite L, V. do 2 eexists. split; [|reflexivity]. discriminate.
Qed.
Lemma cx_loop : forall u rs z a E T x l vs e s, Forall2 (cx_value rs z a E T x) l vs ->
  fold_left (cx_step u z a (E / CONST_E) (T / CONST_E) x rs) l (Some (e, s)) = Some (e, s + weighted vs l).
Proof.
  intros u rs z a E T x l vs e s H. revert s. induction H as [|sp v l vs V _ IH]; intros s; cbn [fold_left].
  - unfold weighted; cbn. now rewrite Rplus_0_r.
  - rewrite (cx_step_value _ _ _ _ _ _ _ _ _ _ _ V), IH. unfold weighted, sumR; cbn. do 2 f_equal. ring.
Qed.
Lemma cx_sum : forall u rs z a E T x l vs, Forall2 (cx_value rs z a E T x) l vs ->
  asigma_eval_cx u z a E T l x (Some rs) = Some (0%Z, Rmax 0 (weighted vs l)).
Proof.
  intros. unfold asigma_eval_cx, asigma_loc_eval_cx. rewrite (cx_loop _ _ _ _ _ _ _ _ vs) by auto. cbn [clean Z.eqb negb].
  rewrite Rplus_0_l. unfold Rmax. ifs; auto; f_equal; f_equal; lra.
Qed.
Lemma cx_loop_err : forall u rs z a E T x l e s, e <> 0%Z -> (forall sp, In sp l -> (exists v, cx_value rs z a E T x sp v) \/ cx_fails rs z a E T x sp) ->
  exists e' s', e' <> 0%Z /\ fold_left (cx_step u z a (E / CONST_E) (T / CONST_E) x rs) l (Some (e, s)) = Some (e', s').
Proof.
  intros u rs z a E T x l. induction l as [|sp l IH]; intros e s N H; cbn [fold_left]; [eauto|].
  destruct (H sp (or_introl eq_refl)) as [[v V]|F].
  - rewrite (cx_step_value _ _ _ _ _ _ _ _ _ _ _ V). apply IH; auto. intros; apply H; now right.
  - destruct (cx_step_fails u rs z a E T x e s sp F) as (e' & s' & N' & ->). apply IH; auto. intros; apply H; now right.
Qed.
Lemma cx_error : forall u rs z a E T x l, (forall sp, In sp l -> (exists v, cx_value rs z a E T x sp v) \/ cx_fails rs z a E T x sp) ->
  (exists sp, In sp l /\ cx_fails rs z a E T x sp) -> exists e, e <> 0%Z /\ asigma_eval_cx u z a E T l x (Some rs) = Some (e, 0).
Proof.
  intros u rs z a E T x l H (sp & I & F). unfold asigma_eval_cx, asigma_loc_eval_cx.
  assert (K : forall e s, exists e' s', e' <> 0%Z /\ fold_left (cx_step u z a (E / CONST_E) (T / CONST_E) x rs) l (Some (e, s)) = Some (e', s')).
  { revert H I. induction l as [|y l IH]; intros H I e s; [destruct I|]. cbn [fold_left]. destruct I as [->|I].
    - destruct (cx_step_fails u rs z a E T x e s sp F) as (e' & s' & N' & ->). apply cx_loop_err; auto. intros; apply H; now right.
    - destruct (H y (or_introl eq_refl)) as [[v V]|F'].
      + rewrite (cx_step_value _ _ _ _ _ _ _ _ _ _ _ V). apply IH; auto. intros; apply H; now right.
      + destruct (cx_step_fails u rs z a E T x e s y F') as (e' & s' & N' & ->). apply IH; auto. intros; apply H; now right. }
  destruct (K 0%Z 0) as (e' & s' & N & ->). exists e'. split; auto. cbn [clean]. apply Z.eqb_neq in N. rewrite N. reflexivity.
Qed.
(** beam stopping: every ion species is looked up in every table for its charge number *)
Definition bms_tables (z zi : Z) (rs : list reac) : list reac := filter (fun r => (z1 r =? z) && (z2 r =? zi) && (rtype r =? sigmav_BMS))%Z rs.
(** the numbers [vs], one list per species, are what the tables return *)
Definition bms_values (rs : list reac) (z a : Z) (E Te : R) (extrapolate : bool) (sp : ion) (vs : list R) : Prop :=
  Forall2 (fun r v => ev3 (t3 r) (E / CONST_E / IZR a) (IZR (znum sp) * dens sp) (Te / CONST_E) = Val v \/
     extrapolate = true /\ ev3 (t3 r) (E / CONST_E / IZR a) (IZR (znum sp) * dens sp) (Te / CONST_E) = Err /\ v = 0) (bms_tables z (znum sp) rs) vs.
Definition ne_of (l : list ion) : R := sumR (map (fun sp => IZR (znum sp) * dens sp) l).
Lemma bms_inner : forall u rs z a E Te x sp vs s f, bms_values rs z a E Te x sp vs ->
  fold_left (fun '((ac, found) : acc * bool) (r : reac) =>
       if ((z1 r =? z) && (z2 r =? znum sp) && (rtype r =? sigmav_BMS))%Z
       then (add_term u (lookup x (error_raise ERR_INPUT_EVALUATION 437 EF_ASIGMA_LOC) (ev3 (t3 r) (E / CONST_E / IZR a) (IZR (znum sp) * dens sp) (Te / CONST_E))) (IZR (znum sp) * dens sp) ac, true)
       else (ac, found)) rs (Some (0%Z, s), f) = (Some (0%Z, s + sumR vs * (IZR (znum sp) * dens sp)), f || match vs with [] => false | _ => true end).
Proof.
  intros u rs z a E Te x sp. unfold bms_values, bms_tables. induction rs as [|r rs IH]; intros vs s f H; cbn [fold_left filter] in *.
  - inversion H; subst. cbn. rewrite orb_false_r. do 3 f_equal. ring.
  - destruct ((z1 r =? z) && (z2 r =? znum sp) && (rtype r =? sigmav_BMS))%Z eqn:M.
    + inversion H as [|? v ? vs' V F]; subst. assert (K : add_term u (lookup x (error_raise ERR_INPUT_EVALUATION 437 EF_ASIGMA_LOC) (ev3 (t3 r) (E / CONST_E / IZR a) (IZR (znum sp) * dens sp) (Te / CONST_E))) (IZR (znum sp) * dens sp) (Some (0%Z, s)) = Some (0%Z, s + v * (IZR (znum sp) * dens sp))).
      { destruct V as [-> | (-> & -> & ->)]; reflexivity. }
      rewrite K. rewrite (IH _ _ _ F). cbn [sumR fold_right]. rewrite orb_true_r. cbn [orb]. do 3 f_equal. unfold sumR. ring.
    + apply IH; auto.
Qed.
Lemma bms_loop : forall u rs z a E Te x l vss s n f, Forall2 (bms_values rs z a E Te x) l vss ->
  fold_left (bms_step u z a (E / CONST_E) (Te / CONST_E) x rs) l (Some (0%Z, s), n, f) =
  (Some (0%Z, s + sumR (map (fun '(vs, sp) => sumR vs * (IZR (znum sp) * dens sp)) (combine vss l))), n + ne_of l, f || existsb (fun vs => match vs with [] => false | _ => true end) vss).
Proof.
  intros u rs z a E Te x l vss s n f H. revert s n f. induction H as [|sp vs l vss V _ IH]; intros s n f; cbn [fold_left].
  - unfold ne_of; cbn. rewrite !Rplus_0_r, orb_false_r. auto.
  - unfold bms_step at 2. rewrite (bms_inner _ _ _ _ _ _ _ _ vs) by auto. rewrite IH. unfold ne_of; cbn.
    rewrite orb_assoc. unfold sumR. f_equal. f_equal; [apply (f_equal Some), f_equal|]; ring.
Qed.
Lemma bms_sum : forall u rs z a E m Te x l vss, Forall2 (bms_values rs z a E Te x) l vss -> (exists vs, In vs vss /\ vs <> []) -> ne_of l <> 0 ->
  asigma_eval_bms u z a E m Te l x (Some rs) =
    Some (0%Z, Rmax 0 (sumR (map (fun '(vs, sp) => sumR vs * (IZR (znum sp) * dens sp)) (combine vss l)) / ne_of l)).
Proof.
  intros u rs z a E m Te x l vss H (vs & I & N) D. unfold asigma_eval_bms, asigma_loc_eval_bms. rewrite (bms_loop _ _ _ _ _ _ _ _ vss) by auto.
  replace (existsb _ vss) with true. 2:{ symmetry. apply existsb_exists. exists vs. split; auto. destruct vs; congruence. }
  cbn [orb]. rewrite !Rplus_0_l. destruct (Req_EM_T (ne_of l) 0); [contradiction|]. cbn [clean Z.eqb negb]. unfold Rmax. ifs; auto; f_equal; f_equal; lra.
Qed.
(** every table counts: doubling the list of reactions doubles the coefficient *)
Lemma bms_values_app : forall rs z a E Te x sp vs, bms_values rs z a E Te x sp vs -> bms_values (rs ++ rs) z a E Te x sp (vs ++ vs).
Proof. intros. unfold bms_values, bms_tables in *. rewrite filter_app. apply Forall2_app; auto. Qed.
Lemma sumR_app : forall a b, sumR (a ++ b) = sumR a + sumR b.
Proof. unfold sumR. induction a; intros; cbn [app fold_right]; [ring|]. rewrite IHa. ring. Qed.
Lemma bms_double : forall u rs z a E m Te x l vss v, Forall2 (bms_values rs z a E Te x) l vss -> (exists vs, In vs vss /\ vs <> []) -> ne_of l <> 0 ->
  asigma_eval_bms u z a E m Te l x (Some rs) = Some (0%Z, v) -> asigma_eval_bms u z a E m Te l x (Some (rs ++ rs)) = Some (0%Z, 2 * v).
Proof.
  intros u rs z a E m Te x l vss v H (vs & I & N) D Q. rewrite (bms_sum _ _ _ _ _ _ _ _ _ vss) in Q by eauto. injection Q as <-.
  rewrite (bms_sum u (rs ++ rs) z a E m Te x l (map (fun vs => vs ++ vs) vss)); auto.
  - do 2 f_equal. set (A := sumR _). set (B := sumR _). assert (K : A = 2 * B).
    { unfold A, B. clear. revert l. induction vss as [|vs vss IH]; intros [|sp l]; cbn; try ring. unfold sumR in *. rewrite IH. pose proof (sumR_app vs vs) as S. unfold sumR in S. rewrite S. ring. }
    rewrite K. unfold Rdiv. rewrite Rmult_assoc. unfold Rmax. ifs; lra.
  - clear - H. induction H; cbn [map]; constructor; auto. now apply bms_values_app.
  - exists (vs ++ vs). split; [apply in_map_iff; eauto | destruct vs; [congruence|discriminate]].
Qed.
(** with exactly one table per species the result is the charge-weighted mean *)
Lemma bms_mean : forall u rs z a E m Te x l vs lo hi, Forall2 (fun sp v => bms_values rs z a E Te x sp [v] /\ lo <= v <= hi) l vs -> l <> [] ->
  Forall (fun sp => 0 <= IZR (znum sp) * dens sp) l -> 0 < ne_of l -> 0 <= lo ->
  exists v, asigma_eval_bms u z a E m Te l x (Some rs) = Some (0%Z, v) /\ lo <= v <= hi.
Proof.
  intros u rs z a E m Te x l vs lo hi H Nl P D Lo.
  assert (F : Forall2 (bms_values rs z a E Te x) l (map (fun v => [v]) vs)) by (clear - H; induction H; cbn [map]; constructor; tauto).
  assert (B : lo * ne_of l <= sumR (map (fun '(vs, sp) => sumR vs * (IZR (znum sp) * dens sp)) (combine (map (fun v => [v]) vs) l)) <= hi * ne_of l).
  { clear - H P. unfold ne_of. induction H as [|sp v l vs [_ V] _ IH]; cbn; [lra|]. inversion P; subst. specialize (IH H2). unfold sumR in *. nra. }
  rewrite (bms_sum _ _ _ _ _ _ _ _ _ _ F); [|destruct H; [congruence|exists [y]; cbn; split; [auto|discriminate]]|lra].
  eexists. split; [reflexivity|]. set (S := sumR _) in *.
  assert (lo <= S / ne_of l <= hi) by (split; apply Rmult_le_reg_r with (ne_of l); auto; unfold Rdiv; rewrite Rmult_assoc, Rinv_l by lra; lra).
  rewrite Rmax_right; lra.
Qed.
(** ** initialisation of the tables *)
Lemma init_nodes : forall junk sigma ds i d, nth_error ds i = Some d -> (1 < dne d)%nat -> (dnn d <= 1)%nat -> (dnT d <= 1)%nat -> demin d < demax d ->
  exists r, nth_error (fst (asigma_loc_init junk sigma ds)) i = Some r /\ rtype r = dtype d /\
    forall j, (j < dne d)%nat -> ev1 (t1 r) (demin d + INR j * ((demax d - demin d) / INR (dne d - 1))) = Val (sigma j).
Proof.
  intros junk sigma ds i d I A B C M. unfold asigma_loc_init. cbn [fst]. rewrite map_map.
  rewrite (map_nth_error _ _ _ I). eexists. split; [reflexivity|].
  unfold init_reaction. destruct (Nat.ltb_spec 1 (dne d)); [|lia]. destruct (Nat.ltb_spec 1 (dnn d)); [lia|]. destruct (Nat.ltb_spec 1 (dnT d)); [lia|].
  cbn [Nat.add fst rtype t1]. split; auto. intros j J.
  assert (En : enough (dne d) NATURALBC) by (left; split; auto; lia).
  destruct (interp1Dcomp_setup_ok junk sigma _ _ (demin d) (demax d) En) as [s Hs]. rewrite Hs. cbn [ev1].
  destruct (interp1Dcomp_is_spline _ _ _ _ _ _ _ En M Hs) as (F & F1 & F2 & S & Ev & _).
  destruct S as (S & _). unfold cells in S. cbn [Z.eqb NATURALBC] in S. rewrite <- (S j J).
  destruct (Ev (demin d + INR j * ((demax d - demin d) / INR (dne d - 1)))) as [E _]; auto.
  intros _. assert (0 <= INR j / INR (dne d - 1) <= 1).
  { assert (0 < INR (dne d - 1)) by (apply lt_0_INR; lia). split; apply Rmult_le_reg_r with (INR (dne d - 1)); auto; unfold Rdiv; rewrite Rmult_assoc, Rinv_l by lra;
      [pose proof (pos_INR j); lra | rewrite Rmult_1_r, Rmult_1_l; apply le_INR; lia]. }
  replace (INR j * ((demax d - demin d) / INR (dne d - 1))) with (INR j / INR (dne d - 1) * (demax d - demin d)).
  - nra.
  - field. assert (0 < INR (dne d - 1)) by (apply lt_0_INR; lia). lra.
Qed.
(** where the data of reaction [i] start in the array *)
Definition offset (ds : list rdef) (i : nat) : nat := fold_right Nat.add 0%nat (map table_size (firstn i ds)).
Definition reads_own_data (junk sigma : nat -> R) (ds : list rdef) : Prop :=
  forall i d, nth_error ds i = Some d -> (1 < dne d)%nat -> (dnn d <= 1)%nat -> (dnT d <= 1)%nat -> demin d < demax d ->
  exists r, nth_error (fst (asigma_loc_init junk sigma ds)) i = Some r /\
    forall j, (j < dne d)%nat -> ev1 (t1 r) (demin d + INR j * ((demax d - demin d) / INR (dne d - 1))) = Val (sigma (offset ds i + j)%nat).
Lemma init_single : forall junk sigma d, reads_own_data junk sigma [d].
Proof.
  intros junk sigma d [|i] d' I A B C M; [|destruct i; discriminate].
  destruct (init_nodes junk sigma [d] 0 d' I A B C M) as (r & R1 & _ & R2). exists r. split; auto.
Qed.
Definition two_tables : list rdef :=
  [RD 1 2 1 2 sigma_CX 2 0 1 1 0 0 1 0 0; RD 1 2 6 12 sigma_CX 2 0 1 1 0 0 1 0 0].
Lemma init_offset_refuted : forall junk sigma, sigma 0%nat <> sigma 2%nat -> ~ reads_own_data junk sigma two_tables.
Proof.
  intros junk sigma N H.
  assert (A : (1 < 2)%nat) by lia. assert (B : (1 <= 1)%nat) by lia. assert (C : 0 < 1) by lra.
  destruct (H 1%nat _ eq_refl A B B C) as (r & R1 & R2).
  destruct (init_nodes junk sigma two_tables 1 _ eq_refl A B B C) as (r' & R1' & _ & R2').
  rewrite R1 in R1'. injection R1' as <-. specialize (R2 0%nat ltac:(cbn; lia)). specialize (R2' 0%nat ltac:(cbn; lia)).
  rewrite R2 in R2'. injection R2' as E. apply N. symmetry. exact E.
Qed.
(** only the last reaction can be reported as broken *)
Lemma init_error : forall junk sigma ds d, snd (asigma_loc_init junk sigma (ds ++ [d])) = snd (asigma_loc_init junk sigma [d]).
Proof. intros. unfold asigma_loc_init. cbn [snd]. rewrite !map_app. cbn [map]. now rewrite last_last. Qed.
Lemma init_error_refuted : forall junk sigma d0 d, (dne d0 <= 1)%nat -> (dnn d0 <= 1)%nat -> (dnT d0 <= 1)%nat -> (1 < dne d)%nat -> (dnn d <= 1)%nat -> (dnT d <= 1)%nat ->
  snd (asigma_loc_init junk sigma [d0]) = true /\ snd (asigma_loc_init junk sigma [d0; d]) = false.
Proof.
  intros junk sigma d0 d A B C D F G. split.
  - unfold asigma_loc_init, init_reaction. cbn [snd map last]. destruct (Nat.ltb_spec 1 (dne d0)); [lia|]. destruct (Nat.ltb_spec 1 (dnn d0)); [lia|]. destruct (Nat.ltb_spec 1 (dnT d0)); [lia|]. reflexivity.
  - change [d0; d] with ([d0] ++ [d]). rewrite init_error. unfold asigma_loc_init, init_reaction. cbn [snd map last].
    destruct (Nat.ltb_spec 1 (dne d)); [|lia]. destruct (Nat.ltb_spec 1 (dnn d)); [lia|]. destruct (Nat.ltb_spec 1 (dnT d)); [lia|]. cbn [Nat.add snd].
    destruct (interp1Dcomp_setup_ok junk sigma (dne d) NATURALBC (demin d) (demax d)) as [s ->]; [left; split; auto; lia|]. reflexivity.
Qed.
(** single reactions *)
Lemma sigma_value : forall u z a zz aa E t x rs r v, last_match (matches z a zz aa t) rs r -> (t = sigma_ioniz \/ t = sigma_recomb \/ t = sigma_CX) ->
  ev1 (t1 r) E = Val v -> asigma_eval_sigma u z a zz aa E t x (Some rs) = Some (0%Z, Rmax 0 v).
Proof.
  intros u z a zz aa E t x rs r v L T V. unfold asigma_eval_sigma, asigma_loc_eval_sigma. pose proof L as (_ & _ & _ & M & _). apply find_some in L. rewrite L.
  assert (rtype r = t) as -> by (unfold matches in M; rewrite !andb_true_iff, !Z.eqb_eq in M; intuition).
  replace ((t =? sigma_ioniz) || (t =? sigma_recomb) || (t =? sigma_CX))%Z with true by (destruct T as [-> | [-> | ->]]; reflexivity).
  rewrite V. cbn [lookup of_look clean Z.eqb negb]. unfold Rmax. ifs; auto; f_equal; f_equal; lra.
Qed.
Lemma sigmav_value : forall u z a zz aa E Te T0 ni t x rs r v, last_match (matches z a zz aa t) rs r -> (t = sigmav_ioniz \/ t = sigmav_recomb \/ t = sigmav_CX) ->
  ev2 (t2 r) (E / CONST_E) (T0 / CONST_E) = Val v -> asigma_eval_sigmav u z a zz aa E Te T0 ni t x (Some rs) = Some (0%Z, Rmax 0 v).
Proof.
  intros u z a zz aa E Te T0 ni t x rs r v L T V. unfold asigma_eval_sigmav, asigma_loc_eval_sigmav.
  assert (Q : find_reac (fun r0 => matches_bms z zz t r0 || matches z a zz aa t r0) rs = Some r).
  { apply find_some. assert (K : forall r0, matches_bms z zz t r0 = false) by (intros; unfold matches_bms; destruct T as [-> | [-> | ->]]; reflexivity).
    destruct L as (p & q & A & B & C). exists p, q. rewrite K. split; auto. split; auto. rewrite <- C. clear - K. induction q; cbn [forallb]; auto. now rewrite K, IHq. }
  rewrite Q. replace ((t =? sigmav_ioniz) || (t =? sigmav_recomb) || (t =? sigmav_CX))%Z with true by (destruct T as [-> | [-> | ->]]; reflexivity).
  rewrite V. cbn [lookup of_look clean Z.eqb negb]. unfold Rmax. ifs; auto; f_equal; f_equal; lra.
Qed.
(** the two ways to read a beam-stopping table disagree about the energy per nucleon *)
Lemma bms_energies : forall u z a zz aa E m Te T0 n x r v v', z1 r = z -> z2 r = zz -> rtype r = sigmav_BMS -> IZR zz * n <> 0 ->
  ev3 (t3 r) (E / CONST_E / IZR a) (IZR zz * n) (Te / CONST_E) = Val v -> ev3 (t3 r) (E / CONST_E / IZR aa) (IZR zz * n) (Te / CONST_E) = Val v' ->
  asigma_eval_bms u z a E m Te [((aa, zz), n)] x (Some [r]) = Some (0%Z, Rmax 0 v) /\
  asigma_eval_sigmav u z a zz aa E Te T0 n sigmav_BMS x (Some [r]) = Some (0%Z, Rmax 0 v').
Proof.
  intros u z a zz aa E m Te T0 n x r v v' A B C N V V'. split.
  - rewrite (bms_sum u [r] z a E m Te x _ [[v]]).
    + do 2 f_equal. unfold ne_of, sumR. cbn [map combine fold_right]. unfold znum, dens. cbn [fst snd]. f_equal. field. split; intros K; apply N; rewrite K; ring.
    + constructor; [|constructor]. unfold bms_values, bms_tables. cbn [filter znum fst snd]. unfold znum, dens; cbn [fst snd]. rewrite A, B, C, !Z.eqb_refl. cbn [andb]. constructor; [|constructor]. now left.
    + exists [v]. split; [now left | discriminate].
    + unfold ne_of, sumR, znum, dens. cbn [map fold_right fst snd]. lra.
  - unfold asigma_eval_sigmav, asigma_loc_eval_sigmav, find_reac. cbn [fold_left]. unfold matches_bms. rewrite A, B, C, !Z.eqb_refl. cbn [andb orb sigmav_BMS sigmav_ioniz sigmav_recomb sigmav_CX Z.eqb Pos.eqb].
    rewrite V'. cbn [lookup of_look clean Z.eqb negb]. unfold Rmax. ifs; auto; f_equal; f_equal; lra.
Qed.

(** ** the Suzuki fit *)
Lemma sum_opt_some : forall X (f : X -> option R) (g : X -> R) l, (forall i, In i l -> f i = Some (g i)) -> sum_opt f l = Some (sumR (map g l)).
Proof. intros X f g l H. unfold sum_opt, sumR. induction l as [|i l IH]; cbn; auto. rewrite (H i (or_introl eq_refl)), IH; auto. intros; apply H; now right. Qed.
Lemma sum_opt_none : forall X (f : X -> option R) l, sum_opt f l = None <-> exists i, In i l /\ f i = None.
Proof.
  intros X f l. unfold sum_opt. induction l as [|i l IH]; cbn.
  - split; [discriminate | intros (? & [] & _)].
  - destruct (f i) eqn:Q.
    + split; intros H.
      * assert (K : fold_right (fun (i : X) (acc : option R) => match f i, acc with Some x, Some y => Some (x + y) | _, _ => None end) (Some 0) l = None) by (destruct (fold_right _ _ l); [discriminate|auto]).
        apply IH in K. destruct K as (j & J & N). eauto.
      * destruct H as (j & [->|J] & N); [congruence|]. rewrite (proj2 IH) by eauto. auto.
    + split; auto. intros _. exists i. auto.
Qed.
Definition tabulated (z : Z) (Zeff : R) : Prop := exists zi lo hi, In (zi, lo, hi) impurities /\ zi = z /\ lo < Zeff < hi.
Lemma find_imp_none : forall z Zeff B, length B = length impurities -> (find_imp z Zeff B = None <-> ~ tabulated z Zeff).
Proof.
  intros z Zeff B. unfold find_imp, tabulated. generalize impurities as I. intros I L.
  assert (K : forall a, fold_left (fun (acc : option (list R)) '((zi, lo, hi), b) =>
      if (zi =? z)%Z then (if Rlt_dec lo Zeff then if Rlt_dec Zeff hi then Some b else acc else acc) else acc) (combine I B) a = None <->
      a = None /\ ~ (exists zi lo hi, In (zi, lo, hi) I /\ zi = z /\ lo < Zeff < hi)).
  { revert B L. induction I as [|[[zi lo] hi] I IH]; intros [|b B] L a; try discriminate; cbn [combine fold_left].
    - split; [intros ->; split; auto; intros (? & ? & ? & [] & _) | tauto].
    - rewrite (IH B) by (cbn in L; lia). destruct (Z.eqb_spec zi z); [destruct (Rlt_dec lo Zeff); [destruct (Rlt_dec Zeff hi)|]|].
      + split; [intros [? _]; discriminate | intros [_ N]; exfalso; apply N; exists zi, lo, hi; cbn; auto].
      + split; intros [A N]; split; auto; intros (z' & l & h & J & E); apply N; exists z', l, h; cbn; [|tauto]. destruct J as [J|J]; auto. injection J as -> -> ->. lra.
      + split; intros [A N]; split; auto; intros (z' & l & h & J & E); apply N; exists z', l, h; cbn; [|tauto]. destruct J as [J|J]; auto. injection J as -> -> ->. lra.
      + split; intros [A N]; split; auto; intros (z' & l & h & J & E); apply N; exists z', l, h; cbn; [|tauto]. destruct J as [J|J]; auto. injection J as -> -> ->. tauto. }
  rewrite K. tauto.
Qed.
Lemma classic_tab : forall z Zeff, tabulated z Zeff \/ ~ tabulated z Zeff.
Proof.
  intros. unfold tabulated. induction impurities as [|[[zi lo] hi] I IH].
  - right. intros (? & ? & ? & [] & _).
  - destruct IH as [(z' & l & h & A & B)|N]; [left; exists z', l, h; cbn; auto|].
    destruct (Z.eq_dec zi z); [destruct (Rlt_dec lo Zeff); [destruct (Rlt_dec Zeff hi)|]|]; [left; exists zi, lo, hi; cbn; auto| | |];
      right; intros (z' & l & h & [A|A] & B); try (injection A as -> -> ->; tauto); apply N; exists z', l, h; auto.
Qed.
Definition isH (i : ion) : bool := (znum i =? 1)%Z.
Definition hydrogens (l : list ion) := filter isH l.
Definition others (l : list ion) := filter (fun i => negb (isH i)) l.
(** within the arrays and tables *)
Definition suzuki_safe (l : list ion) : Prop :=
  (length (hydrogens l) <= 3)%nat /\ (forall i, In i l -> znum i = 1%Z -> (1 <= anum i <= 3)%Z) /\ (forall i, In i l -> znum i <> 1%Z -> tabulated (znum i) (zeff l)).
Lemma row_none : forall A a, length A = 3%nat -> (row A a = None <-> ~ (1 <= a <= 3)%Z).
Proof.
  intros A a L. unfold row. destruct (Z.leb_spec 1 a); [rewrite nth_error_None, L; lia | split; auto; intros; lia].
Qed.
(** which pair of tables a beam energy in keV per nucleon selects *)
Definition table_A (E : R) := if Rle_dec 9 E then if Rlt_dec E 100 then A_lowE else if Rlt_dec E 10000 then A_highE else A_lowE else if Rlt_dec E 10000 then A_highE else A_lowE.
Definition table_B (E : R) := if Rle_dec 9 E then if Rlt_dec E 100 then B_lowE else if Rlt_dec E 10000 then B_highE else B_lowE else if Rlt_dec E 10000 then B_highE else B_lowE.
Definition keV (E : R) := E / (1e3 * CONST_E).
(** the fit, formula (28) of the paper, for a table pair *)
Definition fit_H (A : list (list R)) (E ne te : R) (l : list ion) : R :=
  sumR (map (fun i => dens i * term_H (nth (Z.to_nat (anum i - 1)) A []) E (ln E) (ne * 1e-19) (ln (te * 1e-3))) (hydrogens l)) / sumR (map dens (hydrogens l)).
Definition fit_Z (B : list (list R)) (E ne te : R) (l : list ion) : R :=
  sumR (map (fun i => dens i / ne * IZR (znum i) * term_Z (match find_imp (znum i) (zeff l) B with Some b => b | None => [] end) (ln E) (ln (ne * 1e-19)) (ln (te * 1e-3))) (others l)).
Lemma suzuki_eq : forall E v ne te l, suzuki_safe l ->
  let Ek := keV E in
  suzuki_sigmav E v ne te l =
    if (match hydrogens l with [] => false | _ => true end) && (if Rlt_dec Ek 10000 then true else false)
    then SzOk (fit_H (table_A Ek) Ek ne (te / CONST_E) l * (1 + (zeff l - 1) * fit_Z (table_B Ek) Ek ne (te / CONST_E) l) * 1e-4 * v)
    else SzErr (if Rlt_dec Ek 10000 then error_raise ERR_INPUT_EVALUATION 173 EF_SUZUKI else error_raise ERR_INPUT_EVALUATION 189 EF_SUZUKI).
Proof.
  intros E v ne te l (S1 & S2 & S3) Ek. unfold suzuki_sigmav. fold (keV E). fold Ek. fold isH. fold (hydrogens l).
  change (filter (fun i => negb (znum i =? 1)%Z) l) with (others l). change (filter (fun i => (znum i =? 1)%Z) l) with (hydrogens l).
  replace (if (if Rle_dec 9 Ek then if Rlt_dec Ek 100 then true else false else false) then A_lowE else if (if Rlt_dec Ek 10000 then true else false) then A_highE else A_lowE) with (table_A Ek) by (unfold table_A; ifs; auto).
  replace (if (if Rle_dec 9 Ek then if Rlt_dec Ek 100 then true else false else false) then B_lowE else if (if Rlt_dec Ek 10000 then true else false) then B_highE else B_lowE) with (table_B Ek) by (unfold table_B; ifs; auto).
  apply Nat.leb_le in S1. rewrite S1.
  assert (LA : length (table_A Ek) = 3%nat) by (unfold table_A; ifs; reflexivity).
  assert (LB : length (table_B Ek) = length impurities) by (unfold table_B; ifs; reflexivity).
  rewrite (sum_opt_some _ _ (fun i => dens i * term_H (nth (Z.to_nat (anum i - 1)) (table_A Ek) []) Ek (ln Ek) (ne * 1e-19) (ln (te / CONST_E * 1e-3)))).
  2:{ intros i I. apply filter_In in I. destruct I as [I J]. apply Z.eqb_eq in J. specialize (S2 i I J). unfold row.
      destruct (Z.leb_spec 1 (anum i)); [|lia]. destruct (nth_error (table_A Ek) _) as [r|] eqn:Q; [|apply nth_error_None in Q; lia].
      now rewrite (nth_error_nth _ _ _ Q). }
  rewrite (sum_opt_some _ _ (fun i => dens i / ne * IZR (znum i) * term_Z (match find_imp (znum i) (zeff l) (table_B Ek) with Some b => b | None => [] end) (ln Ek) (ln (ne * 1e-19)) (ln (te / CONST_E * 1e-3)))).
  2:{ intros i I. apply filter_In in I. destruct I as [I J]. apply negb_true_iff, Z.eqb_neq in J. specialize (S3 i I J).
      destruct (find_imp _ _ _) eqn:Q; auto. apply find_imp_none in Q; auto. contradiction. }
  unfold fit_H, fit_Z. set (X := sumR _). set (Y := sumR _). set (W := sumR _).
  assert (N1 : forall t, (error_raise ERR_INPUT_EVALUATION t EF_SUZUKI =? 0)%Z = (error_raise ERR_INPUT_EVALUATION t EF_SUZUKI =? 0)%Z) by auto.
  destruct (hydrogens l); ifs; cbn [andb]; try reflexivity; lra.
Qed.
Lemma suzuki_oob : forall E v ne te l, suzuki_sigmav E v ne te l = SzOob <-> ~ suzuki_safe l.
Proof.
  intros E v ne te l. split.
  - intros H S. rewrite suzuki_eq in H by auto. destruct (_ && _); discriminate.
  - intros N. unfold suzuki_sigmav. change (filter (fun i => negb (znum i =? 1)%Z) l) with (others l). change (filter (fun i => (znum i =? 1)%Z) l) with (hydrogens l).
    set (A := if (if Rle_dec 9 _ then _ else false) then A_lowE else _). set (B := if (if Rle_dec 9 _ then _ else false) then B_lowE else _).
    assert (LA : length A = 3%nat) by (unfold A; ifs; reflexivity). assert (LB : length B = length impurities) by (unfold B; ifs; reflexivity). clearbody A B.
    destruct (Nat.leb_spec (length (hydrogens l)) 3) as [L|]; [|auto].
    match goal with |- match ?x with _ => _ end = _ => destruct x eqn:Q1 end; [|auto].
    match goal with |- match ?x with _ => _ end = _ => destruct x eqn:Q2 end; [|auto]. exfalso. apply N. split; [auto|split].
    + intros i I J. destruct (row A (anum i)) eqn:Rw; [destruct (Z_le_dec 1 (anum i)); [destruct (Z_le_dec (anum i) 3); [auto|]|]; exfalso; apply (proj2 (row_none A (anum i) LA)) in Rw || idtac|].
      all: try (enough (K : row A (anum i) = None) by congruence; apply row_none; auto; lia).
      exfalso. enough (K : sum_opt (fun i => match row A (anum i) with Some a => Some (dens i * term_H a (E / (1e3 * CONST_E)) (ln (E / (1e3 * CONST_E))) (ne * 1e-19) (ln (te / CONST_E * 1e-3))) | None => None end) (hydrogens l) = None) by congruence.
      apply sum_opt_none. exists i. rewrite Rw. split; auto. apply filter_In. split; auto. now apply Z.eqb_eq.
    + intros i I J. destruct (find_imp (znum i) (zeff l) B) eqn:F.
      * enough (K : ~ ~ tabulated (znum i) (zeff l)).
        { unfold tabulated in *. destruct (find_imp (znum i) (zeff l) B) eqn:F'; [|discriminate].
          (* decide by the finite table *)
          destruct (classic_tab (znum i) (zeff l)); auto. contradiction. }
        intros K. apply (find_imp_none _ _ B) in K; auto. congruence.
      * exfalso. enough (K : sum_opt (fun i => match find_imp (znum i) (zeff l) B with Some b => Some (dens i / ne * IZR (znum i) * term_Z b (ln (E / (1e3 * CONST_E))) (ln (ne * 1e-19)) (ln (te / CONST_E * 1e-3))) | None => None end) (others l) = None) by congruence.
        apply sum_opt_none. exists i. rewrite F. split; auto. apply filter_In. split; auto. apply negb_true_iff. now apply Z.eqb_neq.
Qed.
Lemma sumR_perm : forall a b, Permutation a b -> sumR a = sumR b.
Proof. unfold sumR. induction 1; cbn; lra. Qed.
Lemma zeff_perm : forall l l', Permutation l l' -> zeff l = zeff l'.
Proof. intros. unfold zeff. f_equal; apply sumR_perm, Permutation_map; auto. Qed.
Lemma perm_filter : forall X (f : X -> bool) l l', Permutation l l' -> Permutation (filter f l) (filter f l').
Proof.
  induction 1; cbn; [auto|destruct (f x); auto| |eapply Permutation_trans; eauto].
  destruct (f x), (f y); auto. apply perm_swap.
Qed.
Lemma safe_perm : forall l l', Permutation l l' -> suzuki_safe l -> suzuki_safe l'.
Proof.
  intros l l' P (A & B & C). split; [|split].
  - unfold hydrogens in *. now rewrite <- (Permutation_length (perm_filter _ isH _ _ P)).
  - intros i I. apply B. eapply Permutation_in; [|exact I]. now apply Permutation_sym.
  - intros i I N. rewrite <- (zeff_perm _ _ P). apply C; auto. eapply Permutation_in; [|exact I]. now apply Permutation_sym.
Qed.
Lemma safe_dec : forall l, suzuki_safe l \/ ~ suzuki_safe l.
Proof.
  intros l. destruct (suzuki_sigmav 0 0 0 0 l) eqn:Q; [left|left|right].
  3: now apply suzuki_oob in Q.
  all: unfold suzuki_safe; destruct (le_dec (length (hydrogens l)) 3) as [L|L].
  all: try (exfalso; assert (K : suzuki_sigmav 0 0 0 0 l = SzOob) by (apply suzuki_oob; intros (S & _); contradiction); congruence).
  all: split; [auto|split]; intros i I J.
  all: try (destruct (classic_tab (znum i) (zeff l)); auto).
  all: try (destruct (Z_le_dec 1 (anum i)), (Z_le_dec (anum i) 3); try lia).
  all: exfalso; assert (K : suzuki_sigmav 0 0 0 0 l = SzOob) by (apply suzuki_oob; intros (_ & S1 & S2); (try (specialize (S1 i I J); lia)); now apply S2 in J); congruence.
Qed.
Lemma suzuki_perm : forall E v ne te l l', Permutation l l' -> suzuki_sigmav E v ne te l = suzuki_sigmav E v ne te l'.
Proof.
  intros E v ne te l l' P. destruct (safe_dec l) as [S|S].
  - rewrite !suzuki_eq; auto; [|eapply safe_perm; eauto].
    assert (PH : Permutation (hydrogens l) (hydrogens l')) by now apply perm_filter.
    assert (PO : Permutation (others l) (others l')) by now apply perm_filter.
    replace (match hydrogens l' with [] => false | _ => true end) with (match hydrogens l with [] => false | _ => true end).
    2:{ destruct (hydrogens l), (hydrogens l'); auto; [apply Permutation_nil in PH; discriminate | apply Permutation_sym, Permutation_nil in PH; discriminate]. }
    unfold fit_H, fit_Z. rewrite (zeff_perm _ _ P).
    set (fH := fun i => dens i * term_H _ _ _ _ _). set (fZ := fun i => dens i / ne * _ * _).
    rewrite (sumR_perm _ _ (Permutation_map fH PH)), (sumR_perm _ _ (Permutation_map dens PH)), (sumR_perm _ _ (Permutation_map fZ PO)). reflexivity.
  - rewrite (proj2 (suzuki_oob _ _ _ _ l) S). symmetry. apply suzuki_oob. intros S'. apply S. eapply safe_perm; [|eauto]. now apply Permutation_sym.
Qed.
(** the effective charge lies between the least and the greatest charge number *)
Lemma zeff_bounds : forall l lo hi, 0 <= lo -> (forall i, In i l -> 0 <= dens i /\ lo <= IZR (znum i) <= hi) -> 0 < ne_of l -> lo <= zeff l <= hi.
Proof.
  intros l lo hi Lo H N. assert (ne_of l = sumR (map (fun i => dens i * IZR (znum i)) l)) as E by (unfold ne_of; f_equal; apply map_ext; intros; ring).
  assert (B : lo * ne_of l <= sumR (map (fun i => dens i * IZR (znum i) * IZR (znum i)) l) <= hi * ne_of l).
  { clear N. rewrite E. unfold sumR. clear E. induction l as [|i l IH]; cbn; [lra|]. destruct (H i (or_introl eq_refl)) as [D Z]. assert (IH' := IH (fun j J => H j (or_intror J))).
    assert (0 <= dens i * IZR (znum i)) by nra. nra. }
  unfold zeff. rewrite <- E. split; apply Rmult_le_reg_r with (ne_of l); auto; unfold Rdiv; rewrite Rmult_assoc, Rinv_l by lra; lra.
Qed.
(** finding: an impurity in the species list that is absent at the point *)
Lemma suzuki_absent_impurity : forall E v ne te l i, In i l -> znum i <> 1%Z -> (forall j, In j l -> znum j <> 1%Z -> dens j = 0) ->
  0 < sumR (map dens (hydrogens l)) -> suzuki_sigmav E v ne te l = SzOob.
Proof.
  intros E v ne te l i I N D P. apply suzuki_oob. intros (_ & _ & T).
  assert (Z1 : zeff l = 1).
  { unfold zeff. assert (A : sumR (map (fun i => dens i * IZR (znum i)) l) = sumR (map dens (hydrogens l)) /\ sumR (map (fun i => dens i * IZR (znum i) * IZR (znum i)) l) = sumR (map dens (hydrogens l))).
    { clear - D. unfold sumR, hydrogens, isH. induction l as [|j l IH]; cbn; [auto|]. destruct IH as [A B]; [intros; apply D; auto; now right|].
      destruct (Z.eqb_spec (znum j) 1) as [Q|Q]; cbn [map fold_right]; [rewrite Q, A, B; split; ring|]. rewrite (D j (or_introl eq_refl) Q), A, B. split; ring. }
    destruct A as [-> ->]. field. lra. }
  destruct (T i I N) as (z & lo & hi & J & _ & B). rewrite Z1 in B. cbn in J.
  repeat (destruct J as [J|J]; [injection J as <- <- <-; lra|]). destruct J.
Qed.
(** below the range of validity the fit is used without complaint *)
Lemma suzuki_low : forall E v ne te l, suzuki_safe l -> hydrogens l <> [] -> keV E < 9 ->
  suzuki_sigmav E v ne te l = SzOk (fit_H A_highE (keV E) ne (te / CONST_E) l * (1 + (zeff l - 1) * fit_Z B_highE (keV E) ne (te / CONST_E) l) * 1e-4 * v).
Proof.
  intros E v ne te l S H L. rewrite suzuki_eq by auto. destruct (hydrogens l) eqn:Q; [contradiction|]. unfold table_A, table_B. ifs; try lra. reflexivity.
Qed.
Lemma suzuki_error : forall E v ne te l, suzuki_safe l -> ((exists e, e <> 0%Z /\ suzuki_sigmav E v ne te l = SzErr e) <-> (hydrogens l = [] \/ 10000 <= keV E)).
Proof.
  intros E v ne te l S. rewrite suzuki_eq by auto. destruct (hydrogens l) eqn:Q; ifs; cbn [andb].
  - split; auto. intros _. eexists. split; [|reflexivity]. discriminate.
  - split; auto. intros _. eexists. split; [|reflexivity]. discriminate.
  - split; [intros (e & _ & H); discriminate | intros [H|H]; [discriminate|lra]].
  - split; [intros; right; lra|]. intros _. eexists. split; [|reflexivity]. discriminate.
Qed.
(** one isotope given as two species is the same plasma *)
Lemma suzuki_merge : forall E v ne te a n1 n2 l, suzuki_safe ((a, 1%Z, n1) :: (a, 1%Z, n2) :: l) ->
  suzuki_sigmav E v ne te ((a, 1%Z, n1) :: (a, 1%Z, n2) :: l) = suzuki_sigmav E v ne te ((a, 1%Z, n1 + n2) :: l).
Proof.
  intros E v ne te a n1 n2 l S.
  assert (ZE : zeff ((a, 1%Z, n1) :: (a, 1%Z, n2) :: l) = zeff ((a, 1%Z, n1 + n2) :: l)).
  { unfold zeff, sumR. cbn [map fold_right]. unfold dens, znum. cbn [fst snd]. f_equal; ring. }
  assert (S' : suzuki_safe ((a, 1%Z, n1 + n2) :: l)).
  { destruct S as (A & B & C). split; [|split].
    - unfold hydrogens, isH, znum in *. cbn [filter fst snd Z.eqb Pos.eqb length] in *. lia.
    - intros i [<-|I] J; [apply (B (a, 1%Z, n1)); cbn; auto | apply B; auto; now do 2 right].
    - intros i [<-|I] J; [cbn in J; congruence|]. rewrite <- ZE. apply C; auto. now do 2 right. }
  assert (HH : forall n, hydrogens ((a, 1%Z, n) :: l) = (a, 1%Z, n) :: hydrogens l) by reflexivity.
  assert (HO : forall n, others ((a, 1%Z, n) :: l) = others l) by reflexivity.
  assert (HH2 : hydrogens ((a, 1%Z, n1) :: (a, 1%Z, n2) :: l) = (a, 1%Z, n1) :: (a, 1%Z, n2) :: hydrogens l) by reflexivity.
  assert (HO2 : others ((a, 1%Z, n1) :: (a, 1%Z, n2) :: l) = others l) by reflexivity.
  rewrite !suzuki_eq by auto. unfold fit_H, fit_Z. rewrite <- ZE, HH, HO, HH2, HO2. cbn [andb]. destruct (Rlt_dec _ _); [|reflexivity].
  apply (f_equal SzOk), (f_equal (fun x => x * v)), (f_equal (fun x => x * 1e-4)).
  match goal with |- ?a * ?c = ?b * ?c => apply (f_equal (fun x => x * c)) end.
  unfold sumR, dens, anum; cbn [map fold_right fst snd].
  match goal with |- ?a / ?b = ?c / ?d => replace a with c by ring; replace b with d by ring end. reflexivity.
Qed.
(** in a hydrogen plasma the coefficient is the mean over the isotopes *)
Lemma suzuki_mix : forall E v ne te l lo hi, (length l <= 3)%nat -> l <> [] -> (forall i, In i l -> znum i = 1%Z /\ (1 <= anum i <= 3)%Z /\ 0 < dens i) ->
  (forall i, In i l -> exists s, suzuki_sigmav E v ne te [i] = SzOk s /\ lo <= s <= hi) ->
  exists s, suzuki_sigmav E v ne te l = SzOk s /\ lo <= s <= hi.
Proof.
  intros E v ne te l lo hi L N H B.
  assert (HA : forall l', (forall i, In i l' -> In i l) -> hydrogens l' = l' /\ others l' = []).
  { induction l' as [|i l' IH]; intros I; [auto|]. destruct (IH (fun j J => I j (or_intror J))) as [A C]. unfold hydrogens, others, isH in *. cbn [filter].
    destruct (H i (I i (or_introl eq_refl))) as (-> & _). cbn [Z.eqb Pos.eqb negb]. now rewrite A, C. }
  assert (SF : forall l', (length l' <= 3)%nat -> (forall i, In i l' -> In i l) -> suzuki_safe l').
  { intros l' L' I. destruct (HA l' I) as [A C]. split; [now rewrite A|split]; intros i J; destruct (H i (I i J)) as (-> & ? & _); auto; congruence. }
  assert (K : keV E < 10000).
  { destruct l as [|i l0]; [congruence|]. destruct (B i (or_introl eq_refl)) as (s & Q & _). rewrite suzuki_eq in Q by (apply SF; [cbn; lia | intros j [->|[]]; now left]).
    destruct (Rlt_dec (keV E) 10000); auto. rewrite andb_false_r in Q. discriminate. }
  set (t := fun i => term_H (nth (Z.to_nat (anum i - 1)) (table_A (keV E)) []) (keV E) (ln (keV E)) (ne * 1e-19) (ln (te / CONST_E * 1e-3))).
  assert (V : forall l', l' <> [] -> (length l' <= 3)%nat -> (forall i, In i l' -> In i l) -> suzuki_sigmav E v ne te l' = SzOk (sumR (map (fun i => dens i * t i) l') / sumR (map dens l') * 1e-4 * v)).
  { intros l' N' L' I. rewrite suzuki_eq by auto. destruct (HA l' I) as [A C]. unfold fit_Z. rewrite C. unfold fit_H. rewrite A. cbn [map sumR fold_right]. fold t.
    replace (match l' with [] => false | _ => true end) with true by (destruct l'; [congruence|auto]). destruct (Rlt_dec (keV E) 10000); [|lra]. cbn [andb]. f_equal. unfold sumR. cbn [fold_right]. change (fun i : ion => dens i * term_H (nth (Z.to_nat (anum i - 1)) (table_A (keV E)) []) (keV E) (ln (keV E)) (ne * 1e-19) (ln (te / CONST_E * 1e-3))) with (fun i => dens i * t i). ring. }
  assert (B' : forall i, In i l -> lo <= t i * 1e-4 * v <= hi).
  { intros i I. destruct (B i I) as (s & Q & Hs). rewrite (V [i]) in Q; [|discriminate|cbn; lia|intros j [->|[]]; auto]. injection Q as <-.
    unfold sumR in Hs. cbn [map fold_right] in Hs. destruct (H i I) as (_ & _ & D). replace ((dens i * t i + 0) / (dens i + 0)) with (t i) in Hs by (field; lra). auto. }
  eexists. split; [apply V; auto|].
  assert (P : 0 < sumR (map dens l)).
  { destruct l as [|i l0]; [congruence|]. cbn [map]. unfold sumR. cbn [fold_right]. destruct (H i (or_introl eq_refl)) as (_ & _ & D).
    assert (0 <= fold_right Rplus 0 (map dens l0)); [|lra]. assert (H' : forall j, In j l0 -> 0 < dens j) by (intros j J; apply H; now right). clear - H'.
    induction l0; cbn; [lra|]. pose proof (H' a (or_introl eq_refl)). specialize (IHl0 (fun j J => H' j (or_intror J))). lra. }
  assert (S : lo * sumR (map dens l) <= sumR (map (fun i => dens i * t i) l) * 1e-4 * v <= hi * sumR (map dens l)).
  { assert (H' : forall j, In j l -> 0 < dens j) by (intros j J; now apply H). clear - B' H'. unfold sumR. induction l as [|i l IH]; cbn [map fold_right]; [lra|].
    specialize (IH (fun j J => B' j (or_intror J)) (fun j J => H' j (or_intror J))). pose proof (B' i (or_introl eq_refl)). pose proof (H' i (or_introl eq_refl)).
    set (F := fold_right Rplus 0 (map (fun i => dens i * t i) l)) in *. set (G := fold_right Rplus 0 (map dens l)) in *. set (T := t i) in *. set (d := dens i) in *. clearbody F G T d.
    replace ((d * T + F) * 1e-4 * v) with (d * (T * 1e-4 * v) + F * 1e-4 * v) by ring. nra. }
  set (X := sumR (map (fun i => dens i * t i) l)) in *. set (Y := sumR (map dens l)) in *. clearbody X Y.
  replace (X / Y * 1e-4 * v) with (X * 1e-4 * v / Y) by (unfold Rdiv; ring).
  split; apply Rmult_le_reg_r with Y; auto; unfold Rdiv; rewrite (Rmult_assoc _ (/ Y)), Rinv_l by lra; lra.
Qed.
(** the impurity fit as the double expansion of the paper *)
Definition poly (cs : list R) (x : R) : R := fold_right (fun c acc => c + x * acc) 0 cs.
Lemma term_Z_expansion : forall B logE logN U, term_Z B logE logN U =
  sum_f_R0 (fun i => sum_f_R0 (fun j => sum_f_R0 (fun k => nth (4 * i + 2 * j + k) B 0 * logE ^ i * logN ^ j * U ^ k) 1) 1) 2.
Proof. intros. unfold term_Z. cbn [sum_f_R0 Nat.mul Nat.add pow]. ring. Qed.
Lemma term_H_product : forall A0 A1 A2 A3 A4 A5 A6 A7 A8 A9 E logE N U, term_H [A0; A1; A2; A3; A4; A5; A6; A7; A8; A9] E logE N U =
  A0 * 1e-16 / E * poly [1; A1; A2] logE * (1 + Rpower (1 - exp (- A3 * N)) A4 * poly [A5; A6; A7] logE) * poly [1; A8; A9] U.
Proof. intros. unfold term_H, poly. cbn [nth fold_right]. ring. Qed.
