(** Lemmas on particle_fo_to_gc. *)
From Coq Require Import Reals Lra Lia ZArith List Bool.
From Verif Require Import Vec ParticleModel ParticleProofs FogcModel AngleProofs.
Import ListNotations.
Local Open Scope R_scope.

Section conv.
Variables (eval_B : R -> R -> R -> R -> Z * (rf -> R)) (eval_psi : R -> R -> R -> R -> Z * R) (eval_rho : R -> Z * R) (axis_rz : R -> Z * (R * R))
  (p2g : R -> R -> (rf -> R) -> R -> R -> R -> R -> R -> R -> R * R * R * R * R * R) (unphys : Z) (cc : R).
Notation conv := (fo_to_gc eval_B eval_psi eval_rho axis_rz p2g unphys).
Notation fo2s := (fo_to_state eval_B eval_psi eval_rho p2g unphys cc).
(** the guiding centre of the marker in slot j, its field, flux coordinate and the axis used *)
Definition centre (b : bundle) (j : nat) : R * R * R * R * R * R :=
  p2g (bre b mass j) (bre b charge j) (fun f => bre b f j) (bre b r j) (bre b phi j) (bre b z j) (bre b p_r j) (bre b p_phi j) (bre b p_z j).
(** what the slot holds after a successful conversion *)
Definition converted (b g g' : bundle) (j : nat) : Prop :=
  exists gr gphi gz gpp gmu gzeta B psi rh ax,
    centre b j = (gr, gphi, gz, gpp, gmu, gzeta) /\ 0 < gr /\ 0 <= gmu /\
    eval_B gr gphi gz (bre b time j) = (0%Z, B) /\ eval_psi gr gphi gz (bre b time j) = (0%Z, psi) /\ eval_rho psi = (0%Z, rh) /\
    axis_rz (bre g phi j) = (0%Z, ax) /\
    bre g' r j = gr /\ bre g' phi j = gphi /\ bre g' z j = gz /\ bre g' ppar j = gpp /\ bre g' mu j = gmu /\ bre g' zeta j = gzeta /\
    bre g' rho j = rh /\ (forall f, In f all_B -> bre g' f j = B f) /\
    (forall f, In f [mass; charge; weight; time; mileage; cputime] -> bre g' f j = bre b f j) /\
    (forall f, In f [id; index; endcond; running; walltile] -> bze g' f j = bze b f j) /\ bze g' err j = 0%Z /\
    bze g' bounces j = bze g bounces j /\
    follows ax (bre b r j) (bre b z j) (bre b theta j) gr gz (bre g' theta j).
(** and after a failed one *)
Definition rejected (b g g' : bundle) (j : nat) (e : Z) : Prop :=
  e <> 0%Z /\ bze g' err j = e /\ bze g' running j = 0%Z /\ bze g' endcond j = 0%Z /\
  bze g' id j = bze b id j /\ bze g' index j = bze b index j /\
  (forall f, In f ([r; phi; z; ppar; mu; zeta; rho; theta] ++ all_B) -> bre g' f j = bre g f j).

Ltac red2 := cbv [copy_r copy_z fold_left bput bfields bsetr bsetz bre bze upr upz rf_beq zf_beq fst snd].
Ltac oks2 := repeat first [apply ok_refl | apply ok_if | eapply ok_trans; [|first [apply ok_bsetr | apply ok_bsetz | apply ok_bput]] | eapply ok_trans; [|apply ok_fold; intros; first [apply ok_bsetr | apply ok_bsetz]]].
Lemma fogc_others : forall b j g, others_kept j g (snd (conv b j g)).
Proof.
  intros b j g. unfold fo_to_gc, fogc_flag. cbv zeta.
  destruct (negb _); [cbn [snd]; oks2|]. destruct (p2g _ _ _ _ _ _ _ _ _) as [[[[[gr gp] gz] gpp] gm] gze].
  destruct (Rle_dec gr 0); [cbn [snd]; oks2|]. destruct (Rlt_dec gm 0); [cbn [snd]; oks2|].
  destruct (eval_B _ _ _ _) as [e1 B]. destruct (negb _); [cbn [snd]; oks2|].
  destruct (eval_psi _ _ _ _) as [e2 psi]. destruct (negb _); [cbn [snd]; oks2|].
  destruct (eval_rho _) as [e3 rh]. destruct (negb _); [cbn [snd]; oks2|].
  destruct (axis_rz _) as [e4 [ar az]]. destruct (negb _); cbn [snd Z.eqb]; oks2.
Qed.
Ltac fail_tac N := right; split; [exact N|]; try rewrite (proj2 (Z.eqb_neq _ _) N); unfold all_B; cbn [app]; repeat split; intros;
  try (match goal with H : In _ _ |- _ => cbn [In] in H; each H end); red2; rewrite ?upn_same; reflexivity.
Lemma fogc_spec : forall b j g, unphys <> 0%Z -> let '(e, g') := conv b j g in
  (e = 0%Z /\ bze b err j = 0%Z /\ converted b g g' j) \/ rejected b g g' j e.
Proof.
  intros b j g U. unfold fo_to_gc, fogc_flag, converted, rejected. cbv zeta. fold (centre b j).
  destruct (Z.eqb_spec (bze b err j) 0) as [E0|N0]; cbn [negb]; [|fail_tac N0].
  destruct (centre b j) as [[[[[gr gp] gz] gpp] gm] gze].
  destruct (Rle_dec gr 0) as [|GR]; [fail_tac U|]. destruct (Rlt_dec gm 0) as [|GM]; [fail_tac U|].
  destruct (eval_B gr gp gz _) as [e1 B] eqn:EB. destruct (Z.eqb_spec e1 0) as [->|N1]; cbn [negb]; [|fail_tac N1].
  destruct (eval_psi gr gp gz _) as [e2 psi] eqn:EP. destruct (Z.eqb_spec e2 0) as [->|N2]; cbn [negb]; [|fail_tac N2].
  destruct (eval_rho psi) as [e3 rh] eqn:ER. destruct (Z.eqb_spec e3 0) as [->|N3]; cbn [negb]; [|fail_tac N3].
  match goal with |- context [axis_rz ?x] => replace x with (bre g phi j) by (red2; reflexivity) end.
  destruct (axis_rz _) as [e4 [ar az]] eqn:EA. destruct (Z.eqb_spec e4 0) as [->|N4]; cbn [negb]; [|fail_tac N4].
  left. cbn [Z.eqb]. split; [reflexivity|]. split; [exact E0|].
  exists gr, gp, gz, gpp, gm, gze, B, psi, rh, (ar, az). unfold all_B.
  repeat match goal with |- _ /\ _ => split end; intros; try assumption; try lra; try reflexivity;
    try (match goal with H : In _ _ |- _ => cbn [In] in H; each H end); try (red2; rewrite ?upn_same; reflexivity).
  match goal with |- follows _ _ _ _ _ _ ?t => replace t with (bre b theta j + atan2 ((bre b r j - ar) * (gz - az) - (bre b z j - az) * (gr - ar)) ((bre b r j - ar) * (gr - ar) + (bre b z j - az) * (gz - az)))
    by (red2; rewrite ?upn_same; reflexivity) end.
  apply (follows_turn (ar, az)).
Qed.
(** the conversion succeeds whenever it can *)
Definition convertible (b g : bundle) (j : nat) : Prop :=
  bze b err j = 0%Z /\ let '(gr, gphi, gz, _, gmu, _) := centre b j in 0 < gr /\ 0 <= gmu /\
  fst (eval_B gr gphi gz (bre b time j)) = 0%Z /\ fst (eval_psi gr gphi gz (bre b time j)) = 0%Z /\
  fst (eval_rho (snd (eval_psi gr gphi gz (bre b time j)))) = 0%Z /\ fst (axis_rz (bre g phi j)) = 0%Z.
Lemma fogc_iff : forall b j g, unphys <> 0%Z -> (fst (conv b j g) = 0%Z <-> convertible b g j).
Proof.
  clear cc. intros b j g U. unfold fo_to_gc, fogc_flag, convertible. cbv zeta. fold (centre b j).
  destruct (Z.eqb_spec (bze b err j) 0) as [E0|N0]; cbn [negb]; [|cbn [fst]; tauto].
  destruct (centre b j) as [[[[[gr gp] gz] gpp] gm] gze].
  destruct (Rle_dec gr 0) as [GR|GR]; [cbn [fst]; split; [tauto | intros (_ & G & _); lra]|].
  destruct (Rlt_dec gm 0) as [GM|GM]; [cbn [fst]; split; [tauto | intros (_ & _ & G & _); lra]|].
  destruct (eval_B gr gp gz _) as [e1 B]. destruct (Z.eqb_spec e1 0) as [->|N1]; cbn [negb]; [|cbn [fst]; tauto].
  destruct (eval_psi gr gp gz _) as [e2 psi]. destruct (Z.eqb_spec e2 0) as [->|N2]; cbn [negb]; [|cbn [fst]; tauto].
  cbn [snd]. destruct (eval_rho psi) as [e3 rh]. destruct (Z.eqb_spec e3 0) as [->|N3]; cbn [negb]; [|cbn [fst]; tauto].
  match goal with |- context [axis_rz ?x] => replace x with (bre g phi j) by (red2; reflexivity) end.
  destruct (axis_rz _) as [e4 [ar az]]. destruct (Z.eqb_spec e4 0) as [->|N4]; cbn [negb]; [|cbn [fst]; tauto].
  cbn [fst]. intuition lra.
Qed.
(** the full-orbit write-back of the same slot *)
Lemma fo2s_values : forall b j q gr gphi gz gpp gmu gzeta B psi rh, bze b err j = 0%Z ->
  centre b j = (gr, gphi, gz, gpp, gmu, gzeta) -> 0 < gr -> 0 <= gmu -> gpp < cc ->
  eval_B gr gphi gz (bre b time j) = (0%Z, B) -> eval_psi gr gphi gz (bre b time j) = (0%Z, psi) -> eval_rho psi = (0%Z, rh) ->
  let p := fo2s b j q in
  ze p err = 0%Z /\ re p r = gr /\ re p phi = gphi /\ re p z = gz /\ re p ppar = gpp /\ re p mu = gmu /\ re p zeta = gzeta /\ re p rho = rh /\
  (forall f, In f all_B -> re p f = B f).
Proof.
  intros [br bz] j q gr gphi gz gpp gmu gzeta B psi rh E0 C GR GM GP EB EP ER. cbn [bze bre] in *. unfold centre in C. cbn [bre] in C.
  cbv zeta. unfold fo_to_state. cbv zeta.
  match goal with |- context [p2g ?a1 ?a2 ?a3 ?a4 ?a5 ?a6 ?a7 ?a8 ?a9] => replace (p2g a1 a2 a3 a4 a5 a6 a7 a8 a9) with (gr, gphi, gz, gpp, gmu, gzeta) by (rewrite <- C; reflexivity) end.
  destruct (Rle_dec gr 0); [lra|]. destruct (Rlt_dec gmu 0); [lra|]. cbn [Z.eqb].
  match goal with |- context [eval_B gr gphi gz ?t] => replace (eval_B gr gphi gz t) with (0%Z, B) by (rewrite <- EB; reflexivity) end. cbn [Z.eqb].
  match goal with |- context [eval_psi gr gphi gz ?t] => replace (eval_psi gr gphi gz t) with (0%Z, psi) by (rewrite <- EP; reflexivity) end. cbn [Z.eqb].
  rewrite ER. cbn [Z.eqb]. destruct (Rle_dec cc gpp); [lra|]. cbn [bze]. rewrite E0. cbn [Z.eqb].
  unfold all_B. repeat split; intros; try (match goal with H : In _ _ |- _ => cbn [In] in H; each H end);
    cbv [storer storez same fold_left map fst snd mput bfields setr setz bre bze re ze upr upz rf_beq zf_beq]; reflexivity.
Qed.
(** the conversion through the marker state gives the same guiding centre, but leaves the
    poloidal angle at the particle position *)
Lemma fogc_route : forall b j g q g2, unphys <> 0%Z -> fst (conv b j g) = 0%Z -> (let '(_, _, _, gpp, _, _) := centre b j in gpp < cc) -> bze b endcond j = 0%Z ->
  let g1 := snd (conv b j g) in let '(e, h) := state_to_gc (fo2s b j q) (bze b index j) g2 j in
  e = 0%Z /\
  (forall f, In f ([r; phi; z; ppar; mu; zeta; mass; charge; time; rho; weight; mileage; cputime] ++ all_B) -> bre h f j = bre g1 f j) /\
  (forall f, In f [id; index; endcond; walltile; err] -> bze h f j = bze g1 f j) /\
  bre h theta j = bre b theta j /\ bze h running j = 1%Z /\ bze g1 running j = bze b running j /\ bze h bounces j = 0%Z /\ bze g1 bounces j = bze g bounces j.
Proof.
  intros b j g q g2 U OK GP EC. cbv zeta. pose proof (fogc_spec b j g U) as S. destruct (conv b j g) as [e g1]. cbn [fst snd] in *. subst e.
  destruct S as [(_ & E0 & gr & gphi & gz & gpp & gmu & gzeta & B & psi & rh & ax & C & GR & GM & EB & EP & ER & _ & V1 & V2 & V3 & V4 & V5 & V6 & V7 & VB & VC & VZ & VE & VN & _)|[N _]]; [|congruence].
  rewrite C in GP. destruct (fo2s_values b j q _ _ _ _ _ _ B psi rh E0 C GR GM GP EB EP ER) as (P0 & P1 & P2 & P3 & P4 & P5 & P6 & P7 & PB).
  destruct (fo2s_fields eval_B eval_psi eval_rho p2g unphys cc b j q) as (F1 & F2 & _).
  destruct (s2gc_slot (fo2s b j q) (bze b index j) g2 j P0) as (S0 & S1 & S2 & S3 & S4 & S5 & S6).
  destruct (state_to_gc _ _ _ _) as [e h]. cbn [fst snd] in *.
  split; [exact S0|]. split.
  { intros f I. apply in_app_or in I. destruct I as [I|I].
    - cbn [In] in I. rewrite S1; [|each I; cbn; tauto].
      each I; first [congruence | rewrite F1 by (cbn; tauto); symmetry; apply VC; cbn; tauto].
    - rewrite S1 by (unfold identity_r; do 2 (apply in_or_app; right); exact I). rewrite PB, VB; auto. }
  split.
  { intros f I. cbn [In] in I. each I; [| | | | congruence].
    - rewrite S2, F2, VZ; cbn; tauto.
    - rewrite S5. symmetry. apply VZ. cbn. tauto.
    - rewrite S2, F2, VZ; cbn; tauto.
    - rewrite S2, F2, VZ; cbn; tauto. }
  split. { rewrite S1, F1; cbn; tauto. }
  split. { rewrite S6, F2 by (cbn; tauto). rewrite EC. reflexivity. }
  split; [apply VZ; cbn; tauto|]. split; [exact S3 | exact VN].
Qed.
End conv.

(** the axis is taken at a stale toroidal angle *)
Lemma fogc_stale : exists eval_B eval_psi eval_rho axis_rz p2g b g,
  let '(e, g') := fo_to_gc eval_B eval_psi eval_rho axis_rz p2g 1%Z b 0 g in
  e = 0%Z /\ bre b phi 0 = bre g' phi 0 /\ (forall t, fst (axis_rz t) = 0%Z) /\
  at_angle (snd (axis_rz (bre b phi 0%nat))) (bre b r 0%nat) (bre b z 0%nat) (bre b theta 0%nat) /\
  ~ on_axis (snd (axis_rz (bre g' phi 0%nat))) (bre g' r 0%nat) (bre g' z 0%nat) /\
  ~ at_angle (snd (axis_rz (bre g' phi 0%nat))) (bre g' r 0%nat) (bre g' z 0%nat) (bre g' theta 0%nat).
Proof.
  exists (fun _ _ _ _ => (0%Z, fun _ => 1)), (fun _ _ _ _ => (0%Z, 0)), (fun _ => (0%Z, 0)), (fun t => (0%Z, (1, sin t))), (fun _ _ _ _ _ _ _ _ _ => (3, 0, 0, 1, 1, 0)),
    (mkb (fun f _ => match f with r => 2 | _ => 0 end) (fun _ _ => 0%Z)), (mkb (fun f _ => match f with phi => PI / 2 | _ => 0 end) (fun _ _ => 0%Z)).
  unfold fo_to_gc, fogc_flag. cbn [bze Z.eqb negb bre]. destruct (Rle_dec 3 0); [lra|]. destruct (Rlt_dec 1 0); [lra|]. cbn [Z.eqb negb].
  cbv [copy_r copy_z fold_left bput bfields bsetr bsetz bre bze upr upz rf_beq zf_beq fst snd upn Nat.eqb]. rewrite sin_PI2, sin_0.
  split; [reflexivity|]. split; [reflexivity|]. split; [reflexivity|].
  split. { exists 1. cbn [fst snd]. rewrite sin_0, cos_0. lra. }
  split. { intros [E _]. cbn in E. lra. }
  replace (atan2 _ _) with (atan (1 / 3)).
  2:{ unfold atan2. destruct (Rlt_dec 0 _) as [_|F]; [|exfalso; apply F; lra]. f_equal. field. }
  intros (d & DP & _ & Y). cbn [snd] in Y. rewrite Rplus_0_l in Y.
  assert (0 < atan (1 / 3)) by (rewrite <- atan_0; apply atan_increasing; lra). destruct (atan_bound (1 / 3)). pose proof PI_RGT_0.
  assert (0 < sin (atan (1 / 3))) by (apply sin_gt_0; lra). nra.
Qed.
