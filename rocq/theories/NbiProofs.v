(** Specifications and proofs for the beam injection. *)
From Coq Require Import Reals List ZArith Bool Lra Lia.
From Verif Require Import Vec PhysModel PhysProofs StepFoModel StepFoProofs EndcondModel AtomModel AtomProofs NbiModel.
Import ListNotations.
Local Open Scope R_scope.

(** ** sharing the markers *)
Definition sumZ (l : list Z) : Z := fold_right Z.add 0%Z l.
Lemma foldl_sum : forall l a, fold_left Rplus l a = a + sumR l.
Proof. unfold sumR. induction l; intros; cbn; [lra|]. rewrite IHl. lra. Qed.
Lemma loop_sum : forall total nprt ps g, ps <> [] -> (g + sumZ (share_loop total nprt g ps) = nprt)%Z /\ length (share_loop total nprt g ps) = length ps.
Proof.
  intros total nprt ps. induction ps as [|p [|p2 ps] IH]; intros g H; [congruence| |].
  - cbn. lia.
  - change (share_loop total nprt g (p :: p2 :: ps)) with (ctrunc (p / total * IZR nprt) :: share_loop total nprt (g + ctrunc (p / total * IZR nprt)) (p2 :: ps)).
    destruct (IH (g + ctrunc (p / total * IZR nprt))%Z ltac:(discriminate)) as [A B]. set (l := share_loop _ _ _ _) in *.
    change (sumZ (ctrunc (p / total * IZR nprt) :: l)) with (ctrunc (p / total * IZR nprt) + sumZ l)%Z. split; [lia|]. cbn [length] in *. now rewrite B.
Qed.
Lemma shares_exact : forall nprt ps ns, ps <> [] -> shares nprt ps = Some ns -> sumZ ns = nprt /\ length ns = length ps.
Proof.
  intros nprt ps ns N H. unfold shares in H. destruct ps as [|p ps]; [congruence|]. destruct (Req_EM_T _ 0); [discriminate|]. injection H as <-.
  destruct (loop_sum (fold_left Rplus (p :: ps) 0) nprt (p :: ps) 0 N). split; auto.
Qed.
Lemma int_part_bounds : forall x, IZR (Int_part x) <= x < IZR (Int_part x) + 1.
Proof. intros. destruct (base_Int_part x). lra. Qed.
Lemma int_part_nonneg : forall x, 0 <= x -> (0 <= Int_part x)%Z.
Proof. intros. pose proof (int_part_bounds x). assert (-1 < Int_part x)%Z by (apply lt_IZR; lra). lia. Qed.
Lemma ctrunc_nonneg : forall x, 0 <= x -> (0 <= ctrunc x)%Z /\ IZR (ctrunc x) <= x < IZR (ctrunc x) + 1.
Proof. intros. unfold ctrunc. destruct (Rle_dec 0 x); [|lra]. split; [now apply int_part_nonneg | apply int_part_bounds]. Qed.
(** every count but the last is the share rounded down, the last is its share plus what the
    others lost *)
Fixpoint fair (total : R) (nprt : Z) (ps : list R) (ns : list Z) : Prop :=
  match ps, ns with
  | [], [] => True
  | [p], [k] => p / total * IZR nprt <= IZR k
  | p :: ps, k :: ns => IZR k <= p / total * IZR nprt < IZR k + 1 /\ fair total nprt ps ns
  | _, _ => False
  end.
(** the loss of a whole list is below one marker per injector *)
Lemma loop_fair : forall total nprt ps g, 0 < total -> (0 <= nprt)%Z -> Forall (fun p => 0 <= p) ps -> ps <> [] ->
  IZR g <= IZR nprt - sumR ps / total * IZR nprt ->
  let ns := share_loop total nprt g ps in
  fair total nprt ps ns /\ Forall (fun k => (0 <= k)%Z) ns /\
  IZR (last ns 0%Z) <= last ps 0 / total * IZR nprt + INR (length ps - 1) + (IZR nprt - sumR ps / total * IZR nprt - IZR g).
Proof.
  intros total nprt ps. induction ps as [|p [|p2 ps] IH]; intros g T N F Ne G; [congruence| |].
  - cbn [share_loop fair last length Nat.sub INR]. assert (0 <= IZR nprt) by now apply IZR_le. assert (0 <= p) by now inversion F.
    unfold sumR in *. cbn [fold_right] in *. replace ((p + 0) / total) with (p / total) in * by (rewrite Rplus_0_r; auto).
    assert (0 <= p / total * IZR nprt) by (apply Rmult_le_pos; auto; apply Rmult_le_pos; auto; left; now apply Rinv_0_lt_compat).
    assert (K : IZR (nprt - g) = IZR nprt - IZR g) by apply minus_IZR.
    split; [lra|]. split; [constructor; auto; apply le_IZR; lra | lra].
  - inversion F as [|? ? P F']; subst. change (share_loop total nprt g (p :: p2 :: ps)) with (ctrunc (p / total * IZR nprt) :: share_loop total nprt (g + ctrunc (p / total * IZR nprt)) (p2 :: ps)).
    assert (0 <= IZR nprt) by now apply IZR_le.
    assert (Q : 0 <= p / total * IZR nprt) by (apply Rmult_le_pos; auto; apply Rmult_le_pos; auto; left; now apply Rinv_0_lt_compat).
    destruct (ctrunc_nonneg _ Q) as [K1 K2]. set (k := ctrunc _) in *.
    assert (Sm : sumR (p :: p2 :: ps) / total * IZR nprt = p / total * IZR nprt + sumR (p2 :: ps) / total * IZR nprt) by (unfold sumR; cbn [fold_right]; field; lra).
    rewrite Sm in *.
    destruct (IH (g + k)%Z T N F' ltac:(discriminate)) as (A & B & C); [rewrite plus_IZR; lra|].
    set (ns := share_loop total nprt (g + k) (p2 :: ps)) in *. assert (ns <> []) by (unfold ns; destruct ps; discriminate).
    split; [|split].
    + cbn [fair]. split; auto.
    + constructor; auto.
    + destruct ns as [|k' ns]; [congruence|]. change (last (k :: k' :: ns) 0%Z) with (last (k' :: ns) 0%Z). change (last (p :: p2 :: ps) 0) with (last (p2 :: ps) 0).
      cbn [length Nat.sub] in *. rewrite plus_IZR in C. rewrite S_INR. rewrite Nat.sub_0_r in C. lra.
Qed.
Lemma shares_fair : forall nprt ps, (0 <= nprt)%Z -> Forall (fun p => 0 <= p) ps -> 0 < sumR ps ->
  exists ns, shares nprt ps = Some ns /\ fair (sumR ps) nprt ps ns /\ Forall (fun k => (0 <= k)%Z) ns /\
    IZR (last ns 0%Z) <= last ps 0 / sumR ps * IZR nprt + INR (length ps - 1).
Proof.
  intros nprt ps N F T. assert (Ne : ps <> []) by (intros ->; unfold sumR in T; cbn in T; lra).
  assert (E : fold_left Rplus ps 0 = sumR ps) by (rewrite foldl_sum; lra).
  exists (share_loop (sumR ps) nprt 0 ps). unfold shares. rewrite E.
  destruct (loop_fair (sumR ps) nprt ps 0 T N F Ne) as (A & B & C).
  - replace (sumR ps / sumR ps) with 1 by (field; lra). lra.
  - split; [destruct ps; [congruence|]; destruct (Req_EM_T _ 0); [lra|auto]|]. split; auto. split; auto.
    replace (sumR ps / sumR ps) with 1 in C by (field; lra). lra.
Qed.
(** the identifiers are 1, 2, ..., nprt *)
Lemma ids_range : forall ns g, Forall (fun k => (0 <= k)%Z) ns -> marker_ids g ns = map (fun i => (g + Z.of_nat i)%Z) (seq 1 (Z.to_nat (sumZ ns))).
Proof.
  unfold sumZ. induction ns as [|n ns IH]; intros g F; cbn [marker_ids fold_right]; [reflexivity|]. inversion F; subst.
  rewrite IH by auto. assert (0 <= fold_right Z.add 0 ns)%Z by (clear - H2; induction H2; cbn; lia).
  rewrite Z2Nat.inj_add by lia. rewrite seq_app, map_app. f_equal.
  - rewrite <- seq_shift, map_map. apply map_ext. intros. lia.
  - replace (1 + Z.to_nat n)%nat with (Z.to_nat n + 1)%nat by lia. clear - H1. generalize (Z.to_nat (fold_right Z.add 0%Z ns)) 1%nat. intros m.
    induction m as [|m IHm]; intros s; cbn [seq map]; auto. f_equal; [lia|]. replace (S (Z.to_nat n + s)) with (Z.to_nat n + S s)%nat by lia. apply IHm.
Qed.
Lemma beam_ids : forall nprt ps, (0 <= nprt)%Z -> Forall (fun p => 0 <= p) ps -> 0 < sumR ps ->
  exists ns, shares nprt ps = Some ns /\ marker_ids 0 ns = map Z.of_nat (seq 1 (Z.to_nat nprt)) /\ NoDup (marker_ids 0 ns).
Proof.
  intros nprt ps N F T. destruct (shares_fair nprt ps N F T) as (ns & A & _ & B & _). exists ns. split; auto.
  assert (Ne : ps <> []) by (intros ->; unfold sumR in T; cbn in T; lra).
  destruct (shares_exact nprt ps ns Ne A) as [<- _]. rewrite ids_range by auto. split; [apply map_ext; intros; lia|].
  apply FinFun.Injective_map_NoDup; [intros a b; lia|apply seq_NoDup].
Qed.
(** ** power *)
(** mean energy of the markers of an injector when the sampled number is uniform *)
Definition mean_energy (i : injector) : R := ef0 i * energy i + ef1 i * (energy i / 2) + (1 - ef0 i - ef1 i) * (energy i / 3).
Lemma power_iff : forall i n, (0 < n)%Z -> energy i <> 0 -> power i <> 0 -> ef0 i + ef1 i / 2 + ef2 i / 3 <> 0 ->
  (IZR n * weight i n * mean_energy i = power i <-> ef0 i + ef1 i + ef2 i = 1).
Proof.
  intros i n N E P F. assert (0 < IZR n) by now apply IZR_lt.
  set (f := ef0 i + ef1 i / 2 + ef2 i / 3) in *.
  assert (K : IZR n * weight i n * mean_energy i = power i * ((ef0 i + ef1 i / 2 + (1 - ef0 i - ef1 i) / 3) / f)).
  { unfold weight. replace (1 * ef0 i + 1 / 2 * ef1 i + 1 / 3 * ef2 i) with f by (unfold f; field). unfold mean_energy. field. repeat split; auto. lra. }
  rewrite K. split; intros H0.
  - assert ((ef0 i + ef1 i / 2 + (1 - ef0 i - ef1 i) / 3) / f = 1) by (apply Rmult_eq_reg_l with (power i); auto; lra).
    assert (ef0 i + ef1 i / 2 + (1 - ef0 i - ef1 i) / 3 = f) by (apply Rmult_eq_reg_r with (/ f); [unfold Rdiv in *; rewrite H1; field; auto | now apply Rinv_neq_0_compat]).
    unfold f in *. lra.
  - replace (ef0 i + ef1 i / 2 + (1 - ef0 i - ef1 i) / 3) with f by (unfold f; lra). field. auto.
Qed.
Lemma pick_energy_law : forall i, 0 <= ef0 i -> 0 <= ef1 i -> ef0 i + ef1 i <= 1 -> energy i <> 0 ->
  exactly_on (fun r => pick_energy i r = energy i) 0 (ef0 i) /\
  exactly_on (fun r => pick_energy i r = energy i / 2) (ef0 i) (ef0 i + ef1 i) /\
  exactly_on (fun r => pick_energy i r = energy i / 3) (ef0 i + ef1 i) 1.
Proof.
  intros i A B C D. split; [|split]; intros r I; unfold pick_energy; destruct (Rlt_dec r (ef0 i)); try destruct (Rlt_dec r (ef0 i + ef1 i)); split; intros; lra.
Qed.
(** an injector whose share is below one marker is dropped with its power *)
Lemma small_injector_dropped : forall nprt p p2 ps, (0 <= nprt)%Z -> Forall (fun p => 0 <= p) (p :: p2 :: ps) -> 0 < sumR (p :: p2 :: ps) ->
  p / sumR (p :: p2 :: ps) * IZR nprt < 1 -> exists ns, shares nprt (p :: p2 :: ps) = Some (0%Z :: ns).
Proof.
  intros nprt p p2 ps N F T L. destruct (shares_fair nprt _ N F T) as (ns & A & B & C & _).
  destruct ns as [|k ns]; [destruct B|]. cbn [fair] in B. destruct B as [B _]. inversion C; subst.
  assert (k = 0%Z) as -> by (assert (k < 1)%Z by (apply lt_IZR; lra); lia). eauto.
Qed.
(** ** beamlet data *)
Fixpoint bl_offset (ns : list nat) (i : nat) : nat := match i, ns with S i, n :: ns => (6 * n + bl_offset ns i)%nat | _, _ => 0%nat end.
Lemma beamlets_at : forall xyz ns idx i n, nth_error ns i = Some n -> exists b, nth_error (nbi_beamlets xyz idx ns) i = Some b /\ nbl b = n /\
  forall j, let o := (idx + bl_offset ns i)%nat in
    bx b j = xyz (o + j)%nat /\ byy b j = xyz (o + n + j)%nat /\ bz b j = xyz (o + 2 * n + j)%nat /\
    bdx b j = xyz (o + 3 * n + j)%nat /\ bdy b j = xyz (o + 4 * n + j)%nat /\ bdz b j = xyz (o + 5 * n + j)%nat.
Proof.
  intros xyz ns. induction ns as [|m ns IH]; intros idx [|i] n H; try discriminate; cbn [nth_error nbi_beamlets] in *.
  - injection H as ->. eexists. split; [reflexivity|]. cbn [nbl bx byy bz bdx bdy bdz bl_offset]. split; auto. intros j. repeat split; f_equal; lia.
  - destruct (IH (idx + 6 * m)%nat i n H) as (b & A & B & C). exists b. split; auto. split; auto. intros j. specialize (C j). cbv zeta in C.
    replace (idx + 6 * m + bl_offset ns i)%nat with (idx + bl_offset (m :: ns) (S i))%nat in C by (cbn [bl_offset]; lia). exact C.
Qed.
(** ** launching *)
Lemma beamlet_in_range : forall i u r s g1 g2, 0 <= u -> (0 < nbl (ibl i))%nat -> ((exists x, nbi_inject i u r s g1 g2 = Some x) <-> u < 1).
Proof.
  intros i u r s g1 g2 U N. unfold nbi_inject. set (n := nbl (ibl i)) in *. assert (P : 0 < INR n) by (apply lt_0_INR; lia).
  pose proof (int_part_bounds (u * INR n)) as B. set (k := Int_part (u * INR n)) in *.
  assert (0 <= k)%Z by (apply int_part_nonneg; nra). destruct (Z.leb_spec 0 k); [|lia].
  split.
  - intros [x H1]. destruct (Z.ltb_spec k (Z.of_nat n)); [|discriminate H1]. apply Rnot_le_lt. intros Q.
    assert (IZR (k + 1) <= INR n) by (rewrite INR_IZR_INZ; apply IZR_le; lia). rewrite plus_IZR in H3. nra.
  - intros L. assert (k < Z.of_nat n)%Z by (apply lt_IZR; rewrite <- INR_IZR_INZ; nra). destruct (Z.ltb_spec k (Z.of_nat n)); [|lia]. cbn [andb].
    destruct (Rlt_dec s (halo_frac i)); eauto.
Qed.
Lemma sphere : forall d, norm d = 1 -> let phi := atan2 (vy d) (vx d) in let th := acos (vz d) in
  vx d = sin th * cos phi /\ vy d = sin th * sin phi /\ vz d = cos th.
Proof.
  intros [x y z] H. cbn [vx vy vz]. assert (N : x * x + y * y + z * z = 1).
  { pose proof (norm_sq (V x y z)) as Q. rewrite H in Q. unfold dot in Q. cbn [vx vy vz] in Q. lra. }
  assert (Z1 : -1 <= z <= 1) by nra. destruct (atan2_spec y x) as [A B].
  rewrite cos_acos, sin_acos by auto.
  assert (sqrt (x * x + y * y) = sqrt (1 - z²)) as E by (f_equal; unfold Rsqr; lra). rewrite <- E, A, B. auto.
Qed.
(** launch direction for divergence angles [dh], [dv] *)
Definition launched (i : injector) (r s g1 g2 : R) (d v : vec) : Prop :=
  let e := pick_energy i r in
  let dh := (if Rlt_dec s (halo_frac i) then halo_h i else div_h i) * g1 / sqrt 2 in
  let dv := (if Rlt_dec s (halo_frac i) then halo_v i else div_v i) * g2 / sqrt 2 in
  (* kinetic energy and speed *)
  Ekin_gamma (imass i) (gamma_vnorm (norm v)) = e /\ norm v < CONST_C /\
  (* the direction is unit and makes the two divergence angles with the beamlet *)
  exists nh nv, norm nh = 1 /\ norm nv = 1 /\ dot nh d = 0 /\ dot nv d = 0 /\ dot nh nv = 0 /\ vz nh = 0 /\ vz nv <= 0 /\
    v = vscal (norm v) (vadd (vscal (cos dh * cos dv) d) (vadd (vscal (cos dh * sin dv) nv) (vscal (sin dh) nh))).
Lemma inject_spec : forall i u r s g1 g2 x v, 0 < imass i -> 0 <= energy i -> (forall j, (j < nbl (ibl i))%nat -> norm (V (bdx (ibl i) j) (bdy (ibl i) j) (bdz (ibl i) j)) = 1) ->
  nbi_inject i u r s g1 g2 = Some (x, v) ->
  exists j, (j < nbl (ibl i))%nat /\ IZR (Z.of_nat j) <= u * INR (nbl (ibl i)) < IZR (Z.of_nat j) + 1 /\
    x = V (bx (ibl i) j) (byy (ibl i) j) (bz (ibl i) j) /\ launched i r s g1 g2 (V (bdx (ibl i) j) (bdy (ibl i) j) (bdz (ibl i) j)) v.
Proof.
  intros i u r s g1 g2 x v M E0 D H. unfold nbi_inject in H.
  pose proof (int_part_bounds (u * INR (nbl (ibl i)))) as IB. set (k := Int_part _) in *.
  destruct (Z.leb_spec 0 k) as [K0|]; [|discriminate]. destruct (Z.ltb_spec k (Z.of_nat (nbl (ibl i)))) as [K1|]; [|discriminate]. cbn [andb] in H.
  exists (Z.to_nat k). split; [lia|]. split; [rewrite Z2Nat.id by lia; exact IB|]. set (j := Z.to_nat k) in *.
  assert (J : (j < nbl (ibl i))%nat) by (unfold j; lia). specialize (D j J). set (d := V (bdx (ibl i) j) (bdy (ibl i) j) (bdz (ibl i) j)) in *.
  change (bdx (ibl i) j) with (vx d) in H. change (bdy (ibl i) j) with (vy d) in H. change (bdz (ibl i) j) with (vz d) in H.
  destruct (sphere d D) as (S1 & S2 & S3). cbn [vx vy vz] in H. set (phi := atan2 (vy d) (vx d)) in *. set (th := acos (vz d)) in *.
  assert (A1 : sin (th + PI / 2) = cos th) by (rewrite sin_plus, sin_PI2, cos_PI2; ring).
  assert (A2 : cos (th + PI / 2) = - sin th) by (rewrite cos_plus, sin_PI2, cos_PI2; ring).
  rewrite A1, A2 in H. set (nv := V (cos th * cos phi) (cos th * sin phi) (- sin th)) in *.
  pose proof (trig1 phi) as T1. pose proof (trig1 th) as T2.
  assert (CR : cross d nv = V (- sin phi) (cos phi) 0).
  { destruct d as [a b c]. cbn [vx vy vz] in *. unfold cross, nv. cbn [vx vy vz]. rewrite S1, S2, S3.
    f_equal.
    - transitivity (- sin phi * (sin th * sin th + cos th * cos th)); [ring|rewrite T2; ring].
    - transitivity (cos phi * (sin th * sin th + cos th * cos th)); [ring|rewrite T2; ring].
    - ring. }
  assert (NH : norm (V (- sin phi) (cos phi) 0) = 1) by (unfold norm; cbn [vx vy vz]; rewrite <- sqrt_1; f_equal; lra).
  assert (UH : unit (cross d nv) = V (- sin phi) (cos phi) 0) by (rewrite CR; unfold unit; rewrite NH; cbn [vx vy vz]; f_equal; field).
  assert (NV : norm nv = 1).
  { unfold norm, nv. cbn [vx vy vz]. rewrite <- sqrt_1. f_equal. transitivity (cos th * cos th * (sin phi * sin phi + cos phi * cos phi) + sin th * sin th); [ring|rewrite T1; lra]. }
  assert (DV : dot nv d = 0).
  { unfold dot, nv. cbn [vx vy vz]. rewrite S1, S2, S3. transitivity (cos th * sin th * (sin phi * sin phi + cos phi * cos phi) - sin th * cos th); [ring|rewrite T1; ring]. }
  assert (DH : dot (V (- sin phi) (cos phi) 0) d = 0) by (unfold dot; cbn [vx vy vz]; rewrite S1, S2; ring).
  assert (HV : dot (V (- sin phi) (cos phi) 0) nv = 0) by (unfold dot, nv; cbn [vx vy vz]; ring).
  rewrite UH in H. cbn [vx vy vz] in H.
  set (dh := (if Rlt_dec s (halo_frac i) then halo_h i else div_h i) * g1 / sqrt 2). set (dv := (if Rlt_dec s (halo_frac i) then halo_v i else div_v i) * g2 / sqrt 2).
  assert (H' : Some (V (bx (ibl i) j) (byy (ibl i) j) (bz (ibl i) j), vscal (vnorm_gamma (gamma_Ekin (imass i) (pick_energy i r)))
     (unit (V (cos dh * (cos dv * vx d + sin dv * (cos th * cos phi)) + sin dh * - sin phi) (cos dh * (cos dv * vy d + sin dv * (cos th * sin phi)) + sin dh * cos phi) (cos dh * (cos dv * vz d + sin dv * - sin th) + sin dh * 0)))) = Some (x, v)).
  { rewrite <- H. unfold dh, dv. destruct (Rlt_dec s (halo_frac i)); reflexivity. }
  clear H. assert (SI : forall (a b c e : vec), Some (a, b) = Some (c, e) -> c = a /\ b = e) by (intros; split; congruence).
  apply SI in H'. destruct H' as [HX HV']. split; [exact HX|].
  assert (W : V (cos dh * (cos dv * vx d + sin dv * (cos th * cos phi)) + sin dh * - sin phi) (cos dh * (cos dv * vy d + sin dv * (cos th * sin phi)) + sin dh * cos phi) (cos dh * (cos dv * vz d + sin dv * - sin th) + sin dh * 0) =
     vadd (vscal (cos dh * cos dv) d) (vadd (vscal (cos dh * sin dv) nv) (vscal (sin dh) (V (- sin phi) (cos phi) 0)))).
  { unfold vadd, vscal, nv. cbn [vx vy vz]. f_equal; ring. }
  rewrite W in HV'. set (w := vadd _ _) in HV'.
  assert (WN : norm w = 1).
  { unfold norm. rewrite <- sqrt_1. f_equal. change (dot w w = 1). pose proof (trig1 dh) as T3. pose proof (trig1 dv) as T4.
    assert (dot d d = 1) by (rewrite <- norm_sq, D; ring). assert (dot nv nv = 1) by (rewrite <- norm_sq, NV; ring).
    assert (HH : dot (V (- sin phi) (cos phi) 0) (V (- sin phi) (cos phi) 0) = 1) by (rewrite <- norm_sq, NH; ring).
    set (nh := V (- sin phi) (cos phi) 0) in *. unfold w. clearbody nh nv d.
    transitivity ((cos dh * cos dv) * (cos dh * cos dv) * dot d d + (cos dh * sin dv) * (cos dh * sin dv) * dot nv nv + sin dh * sin dh * dot nh nh + 2 * (cos dh * cos dv) * (cos dh * sin dv) * dot nv d + 2 * (cos dh * cos dv) * sin dh * dot nh d + 2 * (cos dh * sin dv) * sin dh * dot nh nv).
    - destruct d as [d1 d2 d3], nv as [n1 n2 n3], nh as [h1 h2 h3]. unfold dot, vadd, vscal. cbn [vx vy vz]. ring.
    - rewrite H, H0, HH, DV, DH, HV. transitivity (cos dh * cos dh * (sin dv * sin dv + cos dv * cos dv) + sin dh * sin dh); [ring|]. rewrite T4. lra. }
  assert (UW : unit w = w) by (unfold unit; rewrite WN; destruct w as [w1 w2 w3]; cbn [vx vy vz]; f_equal; field). rewrite UW in HV'.
  set (e := pick_energy i r) in *. assert (PE : 0 <= e) by (unfold e, pick_energy; destruct (Rlt_dec r (ef0 i)); [|destruct (Rlt_dec r (ef0 i + ef1 i))]; lra).
  assert (G1 : 1 <= gamma_Ekin (imass i) e).
  { unfold gamma_Ekin. pose proof C_pos. assert (0 < imass i * CONST_C2) by (unfold CONST_C2; apply Rmult_lt_0_compat; nra). assert (0 <= e / (imass i * CONST_C2)) by (apply Rmult_le_pos; auto; left; now apply Rinv_0_lt_compat). lra. }
  destruct (vnorm_of_gamma _ G1) as [VR _].
  assert (NVv : norm v = vnorm_gamma (gamma_Ekin (imass i) e)) by (rewrite <- HV', norm_scal, WN, Rabs_right by lra; ring).
  unfold launched. fold e dh dv. rewrite NVv, gamma_vnorm_inv by auto. split; [apply energy_inv; auto|]. split; [lra|].
  exists (V (- sin phi) (cos phi) 0), nv. split; [exact NH|]. split; [exact NV|]. split; [exact DH|]. split; [exact DV|]. split; [exact HV|]. split; [reflexivity|]. split; [|symmetry; exact HV'].
  unfold nv. cbn [vz]. unfold th. destruct (acos_bound (vz d)). pose proof (sin_ge_0 (acos (vz d)) ltac:(lra) ltac:(lra)). lra.
Qed.
(** the mean launch direction is the beamlet, the deviation the two angles *)
Lemma launched_angle : forall i r s g1 g2 d v, norm d = 1 -> launched i r s g1 g2 d v ->
  dot v d = norm v * (cos ((if Rlt_dec s (halo_frac i) then halo_h i else div_h i) * g1 / sqrt 2) * cos ((if Rlt_dec s (halo_frac i) then halo_v i else div_v i) * g2 / sqrt 2)).
Proof.
  intros i r s g1 g2 d v D (_ & _ & nh & nv & N1 & N2 & O1 & O2 & O3 & _ & _ & Ev). rewrite Ev at 1. set (n := norm v). clearbody n. clear Ev.
  set (dh := _ * g1 / sqrt 2). set (dv := _ * g2 / sqrt 2). clearbody dh dv. assert (DD : dot d d = 1) by (rewrite <- norm_sq, D; ring).
  transitivity (n * (cos dh * cos dv * dot d d + cos dh * sin dv * dot nv d + sin dh * dot nh d)).
  - destruct d as [d1 d2 d3], nv as [n1 n2 n3], nh as [h1 h2 h3]. unfold dot, vadd, vscal. cbn [vx vy vz]. ring.
  - rewrite DD, O1, O2. ring.
Qed.
(** ** entering the field *)
Definition ray (x d : vec) (k : nat) : vec := vadd x (vscal (INR k * 1e-3) d).
Lemma enter_spec : forall fails fuel x d t y, enter fails fuel x d t = Some y <->
  exists k, (k < fuel)%nat /\ y = ray x d k /\ fails (xyz2rpz y) t = false /\ forall j, (j < k)%nat -> fails (xyz2rpz (ray x d j)) t = true.
Proof.
  intros fails fuel. assert (R0 : forall x d, ray x d 0 = x) by (intros [a b c] [a' b' c']; unfold ray, vadd, vscal; cbn [vx vy vz INR]; f_equal; ring).
  assert (RS : forall x d j, ray (V (vx x + 1e-3 * vx d) (vy x + 1e-3 * vy d) (vz x + 1e-3 * vz d)) d j = ray x d (S j)).
  { intros x d j. unfold ray, vadd, vscal. cbn [vx vy vz]. rewrite S_INR. f_equal; ring. }
  induction fuel as [|f IH]; intros x d t y; cbn [enter].
  - split; [discriminate|]. intros (k & K & _). lia.
  - destruct (fails (xyz2rpz x) t) eqn:F.
    + rewrite IH. split.
      * intros (k & K & Y & G & J). exists (S k). split; [lia|]. split; [now rewrite <- RS|]. split; auto.
        intros [|j] L; [now rewrite R0|]. rewrite <- RS. apply J. lia.
      * intros ([|k] & K & Y & G & J); [rewrite R0 in Y; congruence|]. exists k. split; [lia|]. split; [now rewrite RS|]. split; auto.
        intros j L. rewrite RS. apply J. lia.
    + split.
      * intros H. injection H as <-. exists 0%nat. split; [lia|]. split; [now rewrite R0|]. split; auto. intros; lia.
      * intros (k & K & Y & G & J). destruct k as [|k]; [rewrite R0 in Y; congruence|]. specialize (J 0%nat ltac:(lia)). rewrite R0 in J. congruence.
Qed.
(** a ray that never meets the field keeps the loop going for ever *)
Lemma enter_forever : forall fails x d t, (forall fuel, enter fails fuel x d t = None) <-> forall k, fails (xyz2rpz (ray x d k)) t = true.
Proof.
  intros fails x d t. split.
  - intros H k. induction k as [k IH] using lt_wf_ind. destruct (fails (xyz2rpz (ray x d k)) t) eqn:F; auto. exfalso.
    assert (enter fails (S k) x d t = Some (ray x d k)) by (apply enter_spec; exists k; repeat split; auto). rewrite H in H0. discriminate.
  - intros H fuel. destruct (enter fails fuel x d t) as [y|] eqn:E; auto. apply enter_spec in E. destruct E as (k & _ & -> & F & _). rewrite H in F. discriminate.
Qed.
Lemma vec_to_rpz_norm : forall v phi, norm (vec_to_rpz v phi) = norm v.
Proof.
  intros v phi. apply norm_eq. pose proof (trig1 phi) as T. unfold vec_to_rpz, dot. cbn [vx vy vz].
  transitivity (vx v * vx v * (sin phi * sin phi + cos phi * cos phi) + vy v * vy v * (sin phi * sin phi + cos phi * cos phi) + vz v * vz v); [ring|rewrite T; ring].
Qed.
Lemma to_xyz_back : forall v phi, to_xyz (vec_to_rpz v phi) phi = v.
Proof.
  intros [x y z] phi. pose proof (trig1 phi) as T. unfold to_xyz, vec_to_rpz. cbn [vx vy vz]. f_equal.
  - transitivity (x * (sin phi * sin phi + cos phi * cos phi)); [ring|rewrite T; ring].
  - transitivity (y * (sin phi * sin phi + cos phi * cos phi)); [ring|rewrite T; ring].
Qed.
Lemma pos_back : forall x, pos_xyz (vx (xyz2rpz x)) (vy (xyz2rpz x)) (vz (xyz2rpz x)) = x.
Proof. intros [x y z]. unfold pos_xyz, xyz2rpz. cbn [vx vy vz]. destruct (atan2_spec y x) as [A B]. now rewrite A, B. Qed.
Lemma some_inj : forall (A : Type) (a b : A), Some a = Some b -> b = a.
Proof. congruence. Qed.
(** the stored marker: on the ray, with the beam's momentum, neutral, and with its own number *)
Lemma marker_spec : forall fails fuel i nprt gen j t0 t1 ut u r s g1 g2 m, 0 < imass i -> 0 <= energy i ->
  (forall j, (j < nbl (ibl i))%nat -> norm (V (bdx (ibl i) j) (bdy (ibl i) j) (bdz (ibl i) j)) = 1) ->
  inject_marker fails fuel i nprt gen j t0 t1 ut u r s g1 g2 = Some m ->
  exists x v k, nbi_inject i u r s g1 g2 = Some (x, v) /\
    pos_xyz (vx (mrpz m)) (vy (mrpz m)) (vz (mrpz m)) = ray x (unit v) k /\ fails (mrpz m) (mtime m) = false /\
    to_xyz (mp m) (vy (mrpz m)) = vscal (gamma_vnorm (norm v) * imass i) v /\
    Ekin_pnorm (mmass m) (norm (mp m)) = pick_energy i r /\
    mcharge m = 0 /\ mweight m = weight i nprt /\ mid m = (gen + Z.of_nat j + 1)%Z /\ mmileage m = 0 /\ mtime m = t0 + ut * (t1 - t0).
Proof.
  intros fails fuel i nprt gen j t0 t1 ut u r s g1 g2 m M E0 D H. unfold inject_marker in H.
  destruct (nbi_inject i u r s g1 g2) as [[x v]|] eqn:J; [|discriminate].
  destruct (inject_spec i u r s g1 g2 x v M E0 D J) as (jj & _ & _ & _ & (EK & VC & _)). clear jj.
  destruct (enter fails fuel x (unit v) _) as [y|] eqn:Q; [|discriminate]. apply enter_spec in Q. destruct Q as (k & _ & Y & F & _).
  apply some_inj in H. subst m. exists x, v, k. cbv zeta. cbn [mrpz mp mmass mcharge mweight mid mmileage mtime]. set (phi := vy (xyz2rpz y)).
  rewrite (vec_to_rpz_norm v phi). set (g := gamma_vnorm (norm v)).
  assert (SC : V (vx (vec_to_rpz v phi) * g * imass i) (vy (vec_to_rpz v phi) * g * imass i) (vz (vec_to_rpz v phi) * g * imass i) = vscal (g * imass i) (vec_to_rpz v phi)) by (unfold vscal; f_equal; ring).
  rewrite SC. split; [auto|]. split; [now rewrite pos_back|]. split; [exact F|]. split.
  { transitivity (vscal (g * imass i) (to_xyz (vec_to_rpz v phi) phi)); [unfold to_xyz, vscal; cbn [vx vy vz]; f_equal; ring|]. now rewrite to_xyz_back. }
  split; [|repeat split].
  pose proof (norm_nonneg v) as NN. assert (VA : Rabs (norm v) < CONST_C) by (rewrite Rabs_right; lra).
  destruct (lorentz_vnorm (norm v) VA) as [_ G]. fold g in G.
  rewrite norm_scal, vec_to_rpz_norm. rewrite Rabs_right by nra.
  rewrite <- EK. unfold Ekin_pnorm, Ekin_gamma. fold g. replace (g * imass i * norm v) with (pnorm_vnorm (imass i) (norm v)) by (unfold pnorm_vnorm; fold g; ring).
  rewrite pnorm_gamma by auto. reflexivity.
Qed.
(** ** flight *)
Section flight.
Variable rho_at : R -> R -> R -> Z + R.
Variable rate_at : R -> R -> R -> R -> Z + R.
Variable hit : R * R * R -> R * R * R -> Z * R.
Variable junk : R.
Notation stp := (trace_step rho_at rate_at hit junk).
Notation trc := (trace rho_at rate_at hit junk).
Definition place (p : flight) : vec := pos_xyz (fx p) (fphi p) (fz p).
Definition pcart (p : flight) : vec := to_xyz (fmom p) (fphi p).
Definition speed (p : flight) : vec := vscal (/ (gamma_pnorm (fmass p) (norm (fmom p)) * fmass p)) (pcart p).
Lemma trc_S : forall n p, trc (S n) p = stp (trc n p). Proof. reflexivity. Qed.
Lemma idle : forall p, frun p = false -> stp p = p.
Proof. intros p H. unfold trace_step. now rewrite H. Qed.
Lemma idle_n : forall n p, frun p = false -> trc n p = p.
Proof. induction n; intros; auto. rewrite trc_S, IHn by auto. now apply idle. Qed.
Lemma run_before : forall n p, frun (trc n p) = true -> forall k, (k <= n)%nat -> frun (trc k p) = true.
Proof.
  induction n; intros p H k K; [now replace k with 0%nat by lia|]. destruct (Nat.eq_dec k (S n)) as [->|]; auto. apply IHn; [|lia].
  destruct (frun (trc n p)) eqn:E; auto. rewrite trc_S, idle in H by auto. congruence.
Qed.
(** a step without a wall hit or an error *)
Lemma step_straight : forall p, frun p = true -> frun (stp p) = true -> 0 < fx p ->
  place (stp p) = vadd (place p) (vscal hin (speed p)) /\ pcart (stp p) = pcart p /\ norm (fmom (stp p)) = norm (fmom p) /\
  fmass (stp p) = fmass p /\ fmile (stp p) = fmile p + hin /\ ftime (stp p) = ftime p /\ fcharge (stp p) = fcharge p /\ fend (stp p) = fend p /\ ferr (stp p) = ferr p /\ threshold (stp p) = threshold p.
Proof.
  intros p H. unfold trace_step at 1 2 3 4 5 6 7 8 9 10 11. rewrite H.
  set (pos := pos_xyz (fx p) (fphi p) (fz p)). set (g := gamma_pnorm _ _).
  set (f := V (vx pos + vx (to_xyz (fmom p) (fphi p)) * hin / (g * fmass p)) (vy pos + vy (to_xyz (fmom p) (fphi p)) * hin / (g * fmass p)) (vz pos + vz (to_xyz (fmom p) (fphi p)) * hin / (g * fmass p))).
  set (phi := fphi p + _). set (r := sqrt (vx f * vx f + vy f * vy f)).
  change (V (vx (to_xyz (fmom p) (fphi p)) * cos phi + vy (to_xyz (fmom p) (fphi p)) * sin phi) (- vx (to_xyz (fmom p) (fphi p)) * sin phi + vy (to_xyz (fmom p) (fphi p)) * cos phi) (vz (to_xyz (fmom p) (fphi p)))) with (vec_to_rpz (to_xyz (fmom p) (fphi p)) phi).
  destruct (rho_at r phi (vz f)) as [e|rho]; [intros; discriminate|].
  destruct (rate_at r phi (vz f) rho) as [e|rate]; [intros; discriminate|].
  match goal with |- context [if ?b then hit ?x ?y else ?d] => destruct (if b then hit x y else d) as [tile w] end. cbn [frun].
  intros RU P. assert (W : (0 <? tile)%Z = false) by (destruct (0 <? tile)%Z; [discriminate|reflexivity]). rewrite W in *.
  destruct (Rlt_dec NBI_MAX_DISTANCE (fmile p + hin)); [discriminate|]. destruct (Rlt_dec (remaining p * exp (- rate * hin)) (threshold p)); [discriminate|].
  unfold place, pcart. cbn [fx fphi fz fmom fmass fmile ftime fcharge fend ferr threshold].
  destruct (turn (fx p) (fphi p) (vx f) (vy f) P) as [T1 T2]. split.
  { unfold pos_xyz at 1. fold r in T1, T2.
    change (fphi p + atan2 (fx p * cos (fphi p) * vy f - fx p * sin (fphi p) * vx f) (fx p * cos (fphi p) * vx f + fx p * sin (fphi p) * vy f)) with phi in T1, T2.
    rewrite T1, T2. transitivity f; [reflexivity|]. unfold f, speed, pcart, place, vadd, vscal. fold g pos. cbn [vx vy vz]. unfold Rdiv. apply f_equal3; ring. }
  split; [apply to_xyz_back|]. split; [|repeat split].
  rewrite vec_to_rpz_norm. apply norm_eq. apply to_xyz_dot.
Qed.
Lemma straight : forall n p, frun (trc n p) = true -> (forall k, (k < n)%nat -> 0 < fx (trc k p)) ->
  place (trc n p) = vadd (place p) (vscal (INR n * hin) (speed p)) /\ speed (trc n p) = speed p /\ fmile (trc n p) = fmile p + INR n * hin /\
  ftime (trc n p) = ftime p /\ fcharge (trc n p) = fcharge p /\ fend (trc n p) = fend p /\ ferr (trc n p) = ferr p /\ threshold (trc n p) = threshold p.
Proof.
  induction n; intros p H P.
  - change (trc 0 p) with p. cbn [INR]. split; [|split; [reflexivity|split; [ring|repeat split]]]. destruct (place p) as [a b c]. unfold vadd, vscal. cbn [vx vy vz]. f_equal; ring.
  - assert (Hn : frun (trc n p) = true) by (apply (run_before (S n) p H); lia).
    destruct (IHn p Hn) as (A1 & A2 & A3 & A4 & A5 & A6 & A7 & A8); [intros; apply P; lia|]. rewrite trc_S in *.
    destruct (step_straight (trc n p) Hn H (P n ltac:(lia))) as (B1 & B2 & B3 & B4 & B5 & B6 & B7 & B8 & B9 & B10).
    rewrite B1, A1, A2, B5, A3, B6, A4, B7, A5, B8, A6, B9, A7, B10, A8, S_INR. split; [unfold vadd, vscal; cbn [vx vy vz]; f_equal; ring|].
    split; [|repeat split; ring]. rewrite <- A2. unfold speed. now rewrite B2, B3, B4.
Qed.
(** the point reached by a step, in cylindrical coordinates with a cumulative angle *)
Definition flown (p : flight) : R * R * R :=
  let a := place p in let b := vadd a (vscal hin (speed p)) in
  (sqrt (vx b * vx b + vy b * vy b), fphi p + atan2 (vx a * vy b - vy a * vx b) (vx a * vx b + vy a * vy b), vz b).
(** what a step decides: error, wall, distance and ionisation, each exactly *)
Definition decided (p q : flight) : Prop := forall r phi z, flown p = (r, phi, z) ->
  (forall e, rho_at r phi z = inl e \/ (exists rho, rho_at r phi z = inr rho /\ rate_at r phi z rho = inl e) ->
     frun q = false /\ ferr q = e /\ fend q = fend p /\ fcharge q = fcharge p) /\
  (forall rho rate, rho_at r phi z = inr rho -> rate_at r phi z rho = inr rate ->
     let rem := remaining p * exp (- (rate * hin)) in
     let out := shine p = true \/ (frho p <= 1 /\ 1 < rho) in
     let tw := hit (fx p, fphi p, fz p) (r, phi, z) in
     let wall := out /\ (0 < fst tw)%Z in
     let far := 1e-3 < fmile p + hin in
     let ion := rem < threshold p in
     ferr q = ferr p /\ remaining q = rem /\ frho q = rho /\ (shine q = true <-> out) /\
     (frun q = false <-> wall \/ far \/ ion) /\
     (forall i, (0 <= i)%Z -> Z.testbit (fend q) i = true <-> Z.testbit (fend p) i = true \/ (i = 3%Z /\ wall) \/ (i = 0%Z /\ far) \/ (i = 11%Z /\ ion)) /\
     (ion -> fcharge q = CONST_E) /\ (~ ion -> fcharge q = fcharge p) /\
     (wall -> ftile q = fst tw /\ fx q = fx p + snd tw * (r - fx p) /\ fphi q = fphi p + snd tw * (phi - fphi p) /\ fz q = fz p + snd tw * (z - fz p)) /\
     (~ wall -> ftile q = ftile p /\ fx q = r /\ fphi q = phi /\ fz q = z)) /\
  fmile q = fmile p + hin /\ ftime q = ftime p /\ threshold q = threshold p /\ (shine q = true -> shine p = true \/ (frho p <= 1 /\ 1 < frho q)).
Lemma lor_if : forall (b : bool) a c i, (0 <= c)%Z -> (0 <= i)%Z -> Z.testbit (if b then Z.lor a (2 ^ c) else a) i = true <-> Z.testbit a i = true \/ (i = c /\ b = true).
Proof.
  intros b a c i C I. destruct b.
  - rewrite Z.lor_spec, Z.pow2_bits_eqb by auto. rewrite orb_true_iff, Z.eqb_eq. intuition.
  - intuition discriminate.
Qed.
Lemma step_decided : forall p, frun p = true -> decided p (stp p).
Proof.
  intros p H r phi z F. unfold flown in F. unfold trace_step. rewrite H.
  set (pos := pos_xyz (fx p) (fphi p) (fz p)). set (g := gamma_pnorm _ _).
  set (f := V (vx pos + vx (to_xyz (fmom p) (fphi p)) * hin / (g * fmass p)) (vy pos + vy (to_xyz (fmom p) (fphi p)) * hin / (g * fmass p)) (vz pos + vz (to_xyz (fmom p) (fphi p)) * hin / (g * fmass p))).
  assert (FE : vadd (place p) (vscal hin (speed p)) = f) by (unfold f, speed, pcart, place, vadd, vscal; fold g pos; cbn [vx vy vz]; unfold Rdiv; apply f_equal3; ring).
  rewrite FE in F. change (place p) with pos in F. cbv zeta in F. clearbody f g pos. assert (PI3 : forall a b c a' b' c' : R, (a, b, c) = (a', b', c') -> a = a' /\ b = b' /\ c = c') by (intros; repeat split; congruence). apply PI3 in F. destruct F as (F1 & F2 & F3). rewrite F1, F2, F3. clear F1 F2 F3 FE.
  set (mom := V _ _ _). clearbody mom.
  destruct (rho_at r phi z) as [e|rho] eqn:RH.
  { split; [|split; [intros; discriminate|cbn [fmile ftime threshold shine]; auto]]. intros e' [Q|(rho & Q & _)]; [|discriminate]. injection Q as <-. cbn [frun ferr fend fcharge]. auto. }
  destruct (rate_at r phi z rho) as [e|rate] eqn:RT.
  { split; [|split; [intros rho' rate' Q1 Q2; injection Q1 as <-; congruence|cbn [fmile ftime threshold shine frho]; split; [auto|split; [auto|split; [auto|]]]; destruct (Rle_dec (frho p) 1); [destruct (Rlt_dec 1 rho)|]; auto]]. intros e' [Q|(rho' & Q & Q')]; [discriminate|]. injection Q as <-. rewrite RT in Q'. injection Q' as <-. cbn [frun ferr fend fcharge]. auto. }
  split.
  { intros e [Q|(rho' & Q & Q')]; [discriminate|]. injection Q as <-. congruence. }
  set (sh := if Rle_dec (frho p) 1 then _ else _). 
  assert (SH : sh = true <-> shine p = true \/ (frho p <= 1 /\ 1 < rho)).
  { unfold sh. destruct (Rle_dec (frho p) 1); [destruct (Rlt_dec 1 rho)|]; intuition; try lra. }
  clearbody sh. destruct (if sh then hit (fx p, fphi p, fz p) (r, phi, z) else (0%Z, 0)) as [tile w] eqn:TW.
  split; [|cbn [fmile ftime threshold shine frho]; split; [auto|split; [destruct (0 <? tile)%Z; ring|split; [auto|apply SH]]]].
  intros rho' rate' Q1 Q2. injection Q1 as <-. rewrite RT in Q2. injection Q2 as <-. cbv zeta.
  assert (WA : (0 <? tile)%Z = true <-> (shine p = true \/ frho p <= 1 /\ 1 < rho) /\ (0 < fst (hit (fx p, fphi p, fz p) (r, phi, z)))%Z).
  { rewrite <- SH, Z.ltb_lt. destruct sh.
    - rewrite TW. cbn [fst]. intuition.
    - injection TW as <- <-. split; [lia|]. intros [Q _]. discriminate. }
  assert (TT : (0 <? tile)%Z = true -> hit (fx p, fphi p, fz p) (r, phi, z) = (tile, w)).
  { intros Q. destruct sh; auto. injection TW as <- <-. discriminate. }
  replace (- rate * hin) with (- (rate * hin)) by ring. set (rem := remaining p * exp (- (rate * hin))).
  set (far := if Rlt_dec NBI_MAX_DISTANCE _ then true else false). set (ion := if Rlt_dec rem _ then true else false).
  assert (DB : forall a b : R, (if Rlt_dec a b then true else false) = true <-> a < b) by (intros; destruct (Rlt_dec a b); split; auto; discriminate).
  assert (FA : far = true <-> 1e-3 < fmile p + hin) by apply DB. assert (IO : ion = true <-> rem < threshold p) by apply DB. clearbody far ion.
  cbn [ferr remaining frho shine frun fend fcharge ftile fx fphi fz]. rewrite <- WA, <- FA, <- IO.
  split; [reflexivity|]. split; [reflexivity|]. split; [reflexivity|]. split; [exact SH|]. split.
  { rewrite negb_false_iff, !orb_true_iff. intuition. }
  split.
  { intros i I. change endcond_wall with (2 ^ 3)%Z. change endcond_tlim with (2 ^ 0)%Z. change endcond_ioniz with (2 ^ 11)%Z. rewrite !lor_if by lia. intuition. }
  split; [intros ->; ring|]. split; [intros N; destruct ion; [congruence|auto]|].
  split; [intros W; rewrite (TT W); rewrite W; cbn [fst snd]; auto|]. intros W. destruct (0 <? tile)%Z; [congruence|auto].
Qed.
Lemma mile_run : forall n p, frun (trc n p) = true -> fmile (trc n p) = fmile p + INR n * hin /\ (n <> 0%nat -> fmile (trc n p) <= 1e-3).
Proof.
  induction n as [|n IH]; intros p H; [cbn; split; [lra|congruence]|].
  assert (Hn : frun (trc n p) = true) by (apply (run_before (S n) p H); lia). destruct (IH p Hn) as [A _]. rewrite trc_S in *.
  pose proof (step_decided (trc n p) Hn) as D. unfold decided in D. destruct (flown (trc n p)) as [[r phi] z]. destruct (D r phi z eq_refl) as (D1 & D2 & D3 & _).
  rewrite D3, A, S_INR. split; [ring|]. intros _. destruct (rho_at r phi z) as [e|rho] eqn:RH.
  { destruct (D1 e (or_introl eq_refl)) as [Q _]. congruence. }
  destruct (rate_at r phi z rho) as [e|rate] eqn:RT.
  { destruct (D1 e ltac:(right; eauto)) as [Q _]. congruence. }
  destruct (D2 rho rate eq_refl RT) as (_ & _ & _ & _ & Q & _). destruct (Rle_dec (fmile p + INR n * hin + hin) 1e-3) as [L|L]; auto. exfalso.
  assert (frun (stp (trc n p)) = false) by (apply Q; right; left; rewrite A; lra). congruence.
Qed.
(** every flight ends *)
Lemma flight_ends : forall n p, n <> 0%nat -> 1e-3 < fmile p + INR n * hin -> frun (trc n p) = false.
Proof. intros n p N L. destruct (frun (trc n p)) eqn:H; auto. destruct (mile_run n p H) as [A B]. specialize (B N). lra. Qed.
(** survival: the exponential of the collected rates *)
Lemma survival : forall n p rate, frun (trc n p) = true ->
  (forall k, (k < n)%nat -> rate_at (fx (trc (S k) p)) (fphi (trc (S k) p)) (fz (trc (S k) p)) (frho (trc (S k) p)) = inr (rate k)) ->
  remaining (trc n p) = remaining p * exp (- (hin * sumR (map rate (seq 0 n)))) /\ (n <> 0%nat -> threshold p <= remaining (trc n p)) /\ threshold (trc n p) = threshold p.
Proof.
  induction n as [|n IH]; intros p rate H RA.
  - cbn. split; [unfold sumR; cbn; rewrite Rmult_0_r, Ropp_0, exp_0; ring|split; [congruence|auto]].
  - assert (Hn : frun (trc n p) = true) by (apply (run_before (S n) p H); lia).
    destruct (IH p rate Hn) as (A & _ & TH); [intros; apply RA; lia|]. specialize (RA n ltac:(lia)). rewrite trc_S in *.
    pose proof (step_decided (trc n p) Hn) as D. unfold decided in D. destruct (flown (trc n p)) as [[r phi] z]. destruct (D r phi z eq_refl) as (D1 & D2 & D3 & D4 & D5 & _). clear D.
    destruct (rho_at r phi z) as [e|rho] eqn:RH; [destruct (D1 e (or_introl eq_refl)) as [Q _]; congruence|].
    destruct (rate_at r phi z rho) as [e|ra] eqn:RT; [destruct (D1 e ltac:(right; eauto)) as [Q _]; congruence|].
    destruct (D2 rho ra eq_refl RT) as (_ & E1 & E2 & _ & Q & _ & _ & _ & _ & NW). clear D1 D2.
    assert (NF : ~ ((shine (trc n p) = true \/ frho (trc n p) <= 1 /\ 1 < rho) /\ (0 < fst (hit (fx (trc n p), fphi (trc n p), fz (trc n p)) (r, phi, z)))%Z)).
    { intros W. assert (frun (stp (trc n p)) = false) by (apply Q; left; exact W). congruence. }
    destruct (NW NF) as (_ & X1 & X2 & X3). rewrite X1, X2, X3, E2, RT in RA. injection RA as RA. subst ra.
    rewrite D5. split; [|split; [intros _|exact TH]].
    + rewrite E1, A, seq_S, map_app, sumR_app. cbn [map Nat.add]. rewrite Rmult_assoc, <- exp_plus. f_equal. f_equal. unfold sumR at 3. cbn [fold_right]. ring.
    + rewrite <- TH. apply Rnot_lt_le. intros L. assert (frun (stp (trc n p)) = false) by (apply Q; right; right; rewrite <- E1; exact L). congruence.
Qed.
(** only a marker that has left the plasma can meet the wall *)
Lemma wall_after_plasma : forall n p, shine p = false -> Z.testbit (fend p) 3 = false -> Z.testbit (fend (trc n p)) 3 = true ->
  exists k, (k < n)%nat /\ frho (trc k p) <= 1 /\ 1 < frho (trc (S k) p).
Proof.
  intros n p S0 B0. assert (G : forall n, (shine (trc n p) = true -> exists k, (k < n)%nat /\ frho (trc k p) <= 1 /\ 1 < frho (trc (S k) p)) /\
     (Z.testbit (fend (trc n p)) 3 = true -> exists k, (k < n)%nat /\ frho (trc k p) <= 1 /\ 1 < frho (trc (S k) p))).
  { clear n. induction n as [|n [IH1 IH2]]; [change (trc 0 p) with p; split; intros; congruence|].
    destruct (frun (trc n p)) eqn:Hn.
    2:{ rewrite trc_S, idle by auto. split; intros Q; [destruct (IH1 Q) as (k & K & Q')|destruct (IH2 Q) as (k & K & Q')]; exists k; (split; [lia|exact Q']). }
    pose proof (step_decided (trc n p) Hn) as D. unfold decided in D. destruct (flown (trc n p)) as [[r phi] z]. destruct (D r phi z eq_refl) as (D1 & D2 & _ & _ & _ & D6).
    assert (SHI : shine (trc (S n) p) = true -> exists k, (k < S n)%nat /\ frho (trc k p) <= 1 /\ 1 < frho (trc (S k) p)).
    { intros Q. destruct (D6 Q) as [Q'|Q'].
      - destruct (IH1 Q') as (k & K & Q''). exists k. split; [lia|exact Q''].
      - exists n. split; [lia|]. exact Q'. }
    split; [exact SHI|]. intros Q.
    assert (OLD : Z.testbit (fend (trc n p)) 3 = true -> exists k, (k < S n)%nat /\ frho (trc k p) <= 1 /\ 1 < frho (trc (S k) p)) by (intros Q'; destruct (IH2 Q') as (k & K & Q''); exists k; split; [lia|exact Q'']).
    rewrite trc_S in Q.
    destruct (rho_at r phi z) as [e|rho] eqn:RH; [destruct (D1 e (or_introl eq_refl)) as (_ & _ & F & _); rewrite F in Q; auto|].
    destruct (rate_at r phi z rho) as [e|ra] eqn:RT; [destruct (D1 e ltac:(right; eauto)) as (_ & _ & F & _); rewrite F in Q; auto|].
    destruct (D2 rho ra eq_refl RT) as (_ & _ & _ & E3 & _ & E4 & _). apply E4 in Q; [|lia]. destruct Q as [Q|[[_ [Q _]]|[[Q _]|[Q _]]]]; [auto| |discriminate|discriminate].
    apply SHI. rewrite trc_S. apply E3. exact Q. }
  apply G.
Qed.
(** the mileage, and with it the final time, of a wall hit counts the whole step although
    the marker is moved back to the wall *)
Lemma wall_time : forall n p, (forall k, (k < n)%nat -> frun (trc k p) = true) -> finish_time (trc n p) = ftime p + fmile p + INR n * hin.
Proof.
  intros n p H. assert (ftime (trc n p) = ftime p /\ fmile (trc n p) = fmile p + INR n * hin) as [A B].
  { induction n as [|n IH]; [cbn; split; lra|]. destruct IH as [A B]; [intros; apply H; lia|]. rewrite trc_S.
    pose proof (step_decided (trc n p) (H n ltac:(lia))) as D. unfold decided in D. destruct (flown (trc n p)) as [[r phi] z]. destruct (D r phi z eq_refl) as (_ & _ & C1 & C2 & _).
    rewrite C1, C2, A, B, S_INR. split; [auto|ring]. }
  unfold finish_time. rewrite A, B. ring.
Qed.
End flight.
Lemma ctrunc_at : forall x k, (0 <= k)%Z -> IZR k <= x < IZR k + 1 -> ctrunc x = k.
Proof.
  intros x k K H. assert (0 <= IZR k) by now apply IZR_le. destruct (ctrunc_nonneg x) as [A B]; [lra|].
  assert (ctrunc x < k + 1)%Z by (apply lt_IZR; rewrite plus_IZR; lra). assert (k < ctrunc x + 1)%Z by (apply lt_IZR; rewrite plus_IZR; lra). lia.
Qed.
Lemma no_power : forall nprt ps, ps <> [] -> (shares nprt ps = None <-> sumR ps = 0).
Proof.
  intros nprt ps N. unfold shares. rewrite foldl_sum, Rplus_0_l. destruct ps; [congruence|]. destruct (Req_EM_T (sumR (r :: ps)) 0); split; intros; auto; try discriminate; congruence.
Qed.
