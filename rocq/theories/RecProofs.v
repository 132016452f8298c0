(** Lemmas on the record mode of the full-orbit loop. *)
From Coq Require Import Reals ZArith List Bool Lia Lra FunctionalExtensionality.
From Verif Require Import Vec ParticleModel ParticleProofs FogcModel FogcProofs AngleProofs DgModel DistProofs DgProofs RecModel.
From Verif Require OrbModel DistModel TcModel.
Import ListNotations.
Local Open Scope R_scope.

Definition same_slot (j : nat) (g g' : bundle) : Prop := (forall f, bre g f j = bre g' f j) /\ (forall f, bze g f j = bze g' f j).
Lemma ss_refl j g : same_slot j g g. Proof. split; auto. Qed.
Lemma ss_sym j g g' : same_slot j g g' -> same_slot j g' g. Proof. intros [A B]. split; auto. Qed.
Lemma ss_trans j a b c : same_slot j a b -> same_slot j b c -> same_slot j a c.
Proof. intros [A B] [C D]. split; intros; [rewrite A; apply C|rewrite B; apply D]. Qed.
Lemma ss_bsetr j g g' f v v' : same_slot j g g' -> v = v' -> same_slot j (bsetr g j f v) (bsetr g' j f v').
Proof. intros [A B] <-. split; intros h; cbn; auto. unfold upr. destruct (rf_beq h f); [now rewrite !upn_same|auto]. Qed.
Lemma ss_bsetz j g g' f v v' : same_slot j g g' -> v = v' -> same_slot j (bsetz g j f v) (bsetz g' j f v').
Proof. intros [A B] <-. split; intros h; cbn; auto. unfold upz. destruct (zf_beq h f); [now rewrite !upn_same|auto]. Qed.
Lemma ss_copy_r b j l : forall g g', same_slot j g g' -> same_slot j (copy_r b j j l g) (copy_r b j j l g').
Proof. unfold copy_r. induction l as [|f l IH]; intros g g' E; cbn [fold_left]; [exact E|]. apply IH. now apply ss_bsetr. Qed.
Lemma ss_copy_z b j l : forall g g', same_slot j g g' -> same_slot j (copy_z b j j l g) (copy_z b j j l g').
Proof. unfold copy_z. induction l as [|f l IH]; intros g g' E; cbn [fold_left]; [exact E|]. apply IH. now apply ss_bsetz. Qed.
Lemma ss_bput j B : forall g g', same_slot j g g' -> same_slot j (bput g j B) (bput g' j B).
Proof. unfold bput. generalize bfields. intros l. induction l as [|f l IH]; intros g g' E; cbn [fold_left]; [exact E|]. apply IH. now apply ss_bsetr. Qed.
Lemma ss_others j k g g' : k <> j -> others_kept k g g' -> same_slot j g' g.
Proof. intros N O. destruct (O j (fun e => N (eq_sym e))). split; auto. Qed.

Section rec.
Variables (eval_B : R -> R -> R -> R -> Z * (rf -> R)) (eval_psi : R -> R -> R -> R -> Z * R) (eval_rho : R -> Z * R) (axis_rz : R -> Z * (R * R))
  (p2g : R -> R -> (rf -> R) -> R -> R -> R -> R -> R -> R -> R * R * R * R * R * R) (unphys : Z).
Notation conv := (fo_to_gc eval_B eval_psi eval_rho axis_rz p2g unphys).
Notation slotf := (rec_slot eval_B eval_psi eval_rho axis_rz p2g unphys).
Notation bundlef := (rec_bundle eval_B eval_psi eval_rho axis_rz p2g unphys).
Notation conver := (converted eval_B eval_psi eval_rho axis_rz p2g).
Notation convable := (convertible eval_B eval_psi eval_rho axis_rz p2g).

Lemma ss_flag j g g' e : same_slot j g g' -> same_slot j (snd (fogc_flag g j e)) (snd (fogc_flag g' j e)).
Proof. intros E. unfold fogc_flag. cbn [snd]. destruct (Z.eqb e 0); repeat first [apply ss_bsetz; [|reflexivity]]; exact E. Qed.
Lemma ss_conv b j g g' : same_slot j g g' -> same_slot j (snd (conv b j g)) (snd (conv b j g')).
Proof.
  intros E. unfold fo_to_gc. cbv zeta.
  set (g1 := bsetz (bsetz g j id _) j index _). set (g1' := bsetz (bsetz g' j id _) j index _).
  assert (E1 : same_slot j g1 g1') by (repeat (apply ss_bsetz; [|reflexivity]); exact E).
  destruct (negb _); [apply ss_flag, E1|].
  set (g2 := copy_r b j j [cputime] _). set (g2' := copy_r b j j [cputime] (copy_z b j j _ (copy_r b j j _ g1'))).
  assert (E2 : same_slot j g2 g2') by (apply ss_copy_r, ss_copy_z, ss_copy_r, E1). clearbody g2 g2'.
  destruct (p2g _ _ _ _ _ _ _ _ _) as [[[[[gr gp] gz] gpp] gm] gze].
  destruct (Rle_dec gr 0); [apply ss_flag, E2|]. destruct (Rlt_dec gm 0); [apply ss_flag, E2|].
  destruct (eval_B _ _ _ _) as [e1 B]. destruct (negb _); [apply ss_flag, E2|].
  destruct (eval_psi _ _ _ _) as [e2 psi]. destruct (negb _); [apply ss_flag, E2|].
  destruct (eval_rho _) as [e3 rh]. destruct (negb _); [apply ss_flag, E2|].
  rewrite (proj1 E2 phi). destruct (axis_rz _) as [e4 [ar az]]. destruct (negb _); [apply ss_flag, E2|].
  apply ss_flag, ss_bput.
  match goal with |- same_slot j (bsetr ?a j theta ?v) (bsetr ?a' j theta ?v') => assert (E3 : same_slot j a a') by (repeat (apply ss_bsetr; [|reflexivity]); exact E2) end.
  apply ss_bsetr; [exact E3|]. rewrite (proj1 E3 theta), (proj1 E3 z), (proj1 E3 r). reflexivity.
Qed.
Lemma ss_slot b j g g' : same_slot j g g' -> same_slot j (slotf b g j) (slotf b g' j).
Proof. intros E. unfold rec_slot. destruct (Z.eqb _ _); [repeat (apply ss_bsetz; [|reflexivity]); exact E|now apply ss_conv]. Qed.
Lemma slot_others b g k : others_kept k g (slotf b g k).
Proof. unfold rec_slot. destruct (Z.eqb _ _); [eapply ok_trans; apply ok_bsetz|apply fogc_others]. Qed.

(** the slots are independent: each is what it would be alone *)
Lemma fold_slot b l : NoDup l -> forall j g, same_slot j (fold_left (fun g j => slotf b g j) l g) (if in_dec Nat.eq_dec j l then slotf b g j else g).
Proof.
  induction l as [|k l IH]; intros ND j g; cbn [fold_left]; [apply ss_refl|]. inversion ND as [|? ? NI ND']; subst.
  eapply ss_trans; [apply IH; exact ND'|].
  destruct (in_dec Nat.eq_dec j l) as [I|NI2]; destruct (in_dec Nat.eq_dec j (k :: l)) as [I2|NI3].
  - apply ss_slot. apply (ss_others j k); [intros ->; contradiction|apply slot_others].
  - exfalso. apply NI3. now right.
  - destruct I2 as [->|I2]; [apply ss_refl|contradiction].
  - apply (ss_others j k); [intros ->; apply NI3; now left|apply slot_others].
Qed.
Theorem slots_independent : forall (n : nat) (b junk : bundle) (j : nat), same_slot j (bundlef n b junk) (if Nat.ltb j n then slotf b junk j else junk).
Proof.
  intros n b junk j. eapply ss_trans; [apply fold_slot, seq_NoDup|].
  destruct (in_dec Nat.eq_dec j (seq 0 n)) as [I|I]; rewrite in_seq in I; destruct (Nat.ltb_spec j n); first [apply ss_refl|lia].
Qed.

(** what a slot holds *)
Definition slot_spec (b junk g : bundle) (j : nat) : Prop :=
  (bze b running j = 0%Z -> bze g id j = bze b id j /\ bze g running j = 0%Z /\
     (forall f, bre g f j = bre junk f j) /\ (forall f, f <> id -> f <> running -> bze g f j = bze junk f j)) /\
  (bze b running j <> 0%Z -> convable b junk j -> conver b junk g j) /\
  (bze b running j <> 0%Z -> ~ convable b junk j -> exists e, rejected b junk g j e).
Lemma converted_ss b junk g g' j : same_slot j g g' -> conver b junk g' j -> conver b junk g j.
Proof.
  intros [A B] (gr & gphi & gz & gpp & gmu & gzeta & Bf & psi & rh & ax & C). exists gr, gphi, gz, gpp, gmu, gzeta, Bf, psi, rh, ax.
  rewrite !A, !B. repeat match goal with H : _ /\ _ |- _ => destruct H end.
  repeat match goal with |- _ /\ _ => split end; try assumption; intros f I; rewrite ?A, ?B; auto.
Qed.
Lemma rejected_ss b junk g g' j e : same_slot j g g' -> rejected b junk g' j e -> rejected b junk g j e.
Proof.
  intros [A B] C. unfold rejected in *. rewrite !B. repeat match goal with H : _ /\ _ |- _ => destruct H end.
  repeat match goal with |- _ /\ _ => split end; try assumption; intros f I; rewrite ?A; auto.
Qed.
Theorem rec_spec : forall (n : nat) (b junk : bundle) (j : nat), unphys <> 0%Z -> (j < n)%nat -> slot_spec b junk (bundlef n b junk) j.
Proof.
  intros n b junk j U J. pose proof (slots_independent n b junk j) as E. destruct (Nat.ltb_spec j n); [|lia].
  unfold slot_spec, rec_slot in *. destruct (Z.eqb_spec (bze b running j) 0) as [Z|Z].
  - split; [|split; intros; contradiction]. intros _. destruct E as [A B]. rewrite !B. cbn. unfold upz. cbn [zf_beq]. rewrite !upn_same.
    repeat (split; [reflexivity|]). split; [intros f; rewrite A; reflexivity|]. intros f N1 N2. rewrite B. cbn. unfold upz.
    destruct (zf_beq f running) eqn:E1; [apply internal_zf_dec_bl in E1; contradiction|].
    destruct (zf_beq f id) eqn:E2; [apply internal_zf_dec_bl in E2; contradiction|]. reflexivity.
  - split; [intros; contradiction|]. pose proof (fogc_spec eval_B eval_psi eval_rho axis_rz p2g unphys b j junk U) as SP.
    pose proof (fogc_iff eval_B eval_psi eval_rho axis_rz p2g unphys b j junk U) as IFF. destruct (conv b j junk) as [e g']. cbn [fst snd] in *.
    split; intros _ C.
    + apply IFF in C. destruct SP as [(_ & _ & SP)|[N _]]; [|contradiction]. now apply (converted_ss _ _ _ g').
    + destruct SP as [(E0 & _ & SP)|SP]; [exfalso; apply C, IFF, E0|]. exists e. now apply (rejected_ss _ _ _ g').
Qed.

(** time, weight and mileage are there whether or not the guiding centre can be computed *)
Ltac red2 := cbv [copy_r copy_z fold_left bput bfields bsetr bsetz bre bze upr upz rf_beq zf_beq fst snd].
Lemma conv_copies b j g : bze b err j = 0%Z -> forall f, In f [mass; charge; weight; time; mileage; cputime] -> bre (snd (conv b j g)) f j = bre b f j.
Proof.
  intros E f I. unfold fo_to_gc, fogc_flag. cbv zeta. rewrite E. cbn [Z.eqb negb].
  assert (K : forall (c : bool) (x y : bundle), bre x f j = bre b f j -> bre y f j = bre b f j -> bre (if c then x else y) f j = bre b f j) by (intros [|]; auto).
  destruct (p2g _ _ _ _ _ _ _ _ _) as [[[[[gr gp] gz] gpp] gm] gze].
  assert (F : forall e g2, bre g2 f j = bre b f j -> bre (snd (e, if Z.eqb e 0 then bsetz g2 j err e else bsetz (bsetz (bsetz g2 j err e) j running 0) j endcond 0)) f j = bre b f j)
    by (intros e g2 G; cbn [snd]; apply K; exact G).
  match goal with |- context [copy_r b j j [cputime] ?x] => set (g2 := copy_r b j j [cputime] x); assert (G2 : bre g2 f j = bre b f j) by (subst g2; cbn [In] in I; each I; red2; rewrite ?upn_same; reflexivity) end.
  clearbody g2.
  destruct (Rle_dec gr 0); [apply F, G2|]. destruct (Rlt_dec gm 0); [apply F, G2|].
  destruct (eval_B _ _ _ _) as [e1 B]. destruct (negb _); [apply F, G2|].
  destruct (eval_psi _ _ _ _) as [e2 psi]. destruct (negb _); [apply F, G2|].
  destruct (eval_rho _) as [e3 rh]. destruct (negb _); [apply F, G2|].
  destruct (axis_rz _) as [e4 [ar az]]. destruct (negb _); [apply F, G2|]. cbn [snd Z.eqb].
  cbn [In] in I; each I; red2; rewrite ?upn_same; exact G2.
Qed.

(** ** Distributions *)
(** the guiding centre of the particle in slot j as the distributions count it; [t] is the toroidal angle at which the axis is looked up *)
Definition is_centre (t : R) (b : bundle) (j : nat) (m : DistModel.gc) : Prop :=
  bze b err j = 0%Z /\ exists gr gphi gz gpp gmu gzeta B psi rh ax th,
    centre p2g b j = (gr, gphi, gz, gpp, gmu, gzeta) /\ 0 < gr /\ 0 <= gmu /\
    eval_B gr gphi gz (bre b time j) = (0%Z, B) /\ eval_psi gr gphi gz (bre b time j) = (0%Z, psi) /\ eval_rho psi = (0%Z, rh) /\ axis_rz t = (0%Z, ax) /\
    follows ax (bre b r j) (bre b z j) (bre b theta j) gr gz th /\
    m = DistModel.GCM true gr gphi gz gpp gmu (V (B B_r) (B B_phi) (B B_z)) rh th (bre b time j) (bre b charge j) (bre b mass j) (bre b weight j).
Lemma centre_convertible b g j m : is_centre (bre g phi j) b j m -> convable b g j.
Proof.
  intros (E & gr & gphi & gz & gpp & gmu & gzeta & B & psi & rh & ax & th & C & GR & GM & EB & EP & ER & EA & _). unfold convertible. rewrite C, EB, EP. cbn [fst snd]. rewrite ER, EA. cbn [fst]. auto 10.
Qed.
Lemma converted_centre b junk g j : bze b running j <> 0%Z -> bze b err j = 0%Z -> conver b junk g j -> is_centre (bre junk phi j) b j (gc_view g j).
Proof.
  intros RU E (gr & gphi & gz & gpp & gmu & gzeta & B & psi & rh & ax & C & GR & GM & EB & EP & ER & EA & V1 & V2 & V3 & V4 & V5 & V6 & V7 & VB & VC & VZ & VE & VN & FO).
  split; [exact E|]. exists gr, gphi, gz, gpp, gmu, gzeta, B, psi, rh, ax, (bre g theta j). repeat (split; [assumption|]).
  unfold gc_view. rewrite V1, V2, V3, V4, V5, V7, (VB B_r), (VB B_phi), (VB B_z), (VC time), (VC charge), (VC mass), (VC weight), (VZ running) by (cbn; tauto). destruct (Z.eqb_spec (bze b running j) 0); [contradiction|reflexivity].
Qed.

Variables (E0 c0 : R) (psi : R -> R -> R -> R -> R) (mom : DistModel.gc -> R * R * R) (u : setup).
Notation upd := (rec_update eval_B eval_psi eval_rho axis_rz p2g unphys E0 c0 psi mom u).
Notation slotsf := (rec_slots eval_B eval_psi eval_rho axis_rz p2g unphys).
Lemma upd_call n p p0 jf ji s : upd n p p0 jf ji s = diag_call E0 c0 psi mom u s (CGc (slotsf n p p0 jf ji)).
Proof. reflexivity. Qed.

(** a bin grows by the weight times the elapsed time of the particles that still run and whose
    guiding centre can be computed and lies in the bin; what the local bundles held enters only
    through the axis *)
Theorem rec_bins : forall (n : nat) (p p0 jf ji : bundle), unphys <> 0%Z ->
  (forall j, (j < n)%nat -> bze p running j <> 0%Z -> bze p0 running j <> 0%Z /\ bze p0 err j = 0%Z) ->
  exists c : nat -> option DistModel.gc,
    (forall j, (j < n)%nat -> match c j with Some m => bze p running j <> 0%Z /\ is_centre (bre jf phi j) p j m
                              | None => bze p running j = 0%Z \/ forall m, ~ is_centre (bre jf phi j) p j m end) /\
    (forall s t d, wf t (dist_ax u t) -> inrange (map DistModel.an (dist_ax u t)) d ->
       let i := DistModel.index t (dist_ax u t) d in
       d_hist (upd n p p0 jf ji s) t i = d_hist s t i + if dist_on u t then
         sumif (fun j => match c j with Some m => incell (dist_ax u t) d (DistModel.coords_gc E0 c0 psi mom t m) | None => false end)
               (fun j => bre p weight j * (bre p time j - bre p0 time j)) (seq 0 n) else 0).
Proof.
  intros n p p0 jf ji U H0. pose (gf := bundlef n p jf). pose (gi := bundlef n p0 ji).
  exists (fun j => if Z.eqb (bze p running j) 0 then None else if Z.eqb (fst (conv p j jf)) 0 then Some (gc_view gf j) else None). split.
  - intros j J. destruct (Z.eqb_spec (bze p running j) 0) as [Z|Z]; [now left|].
    pose proof (fogc_iff eval_B eval_psi eval_rho axis_rz p2g unphys p j jf U) as IFF. destruct (rec_spec n p jf j U J) as (_ & S2 & _).
    destruct (Z.eqb_spec (fst (conv p j jf)) 0) as [E|E].
    + split; [exact Z|]. apply IFF in E. apply converted_centre; [exact Z|apply E|]. now apply S2.
    + right. intros m M. apply E, IFF, (centre_convertible _ _ _ m M).
  - intros s t d W D. cbv zeta. rewrite upd_call, call_hist. destruct (dist_on u t); [|ring].
    rewrite hist_call_bin; [|exact W|exact D|exact I]. f_equal. cbn [visits]. unfold rec_slots. rewrite map_map. cbn [sg]. rewrite sumif_map.
    fold gf gi. unfold sumif.
    assert (K : forall l, (forall j, In j l -> (j < n)%nat) -> fold_right (fun a s => (if v_run (visit_gc E0 c0 psi mom t (gc_view gf a, gc_view gi a)) && incell (dist_ax u t) d (v_x (visit_gc E0 c0 psi mom t (gc_view gf a, gc_view gi a)))
         then v_w (visit_gc E0 c0 psi mom t (gc_view gf a, gc_view gi a)) else 0) + s) 0 l =
       fold_right (fun a s => (if match (if Z.eqb (bze p running a) 0 then None else if Z.eqb (fst (conv p a jf)) 0 then Some (gc_view gf a) else None) with Some m => incell (dist_ax u t) d (DistModel.coords_gc E0 c0 psi mom t m) | None => false end
         then bre p weight a * (bre p time a - bre p0 time a) else 0) + s) 0 l).
    { induction l as [|j l IH]; intros IN; cbn [fold_right]; [reflexivity|]. rewrite IH by (intros; apply IN; now right). f_equal. clear IH.
      assert (J : (j < n)%nat) by (apply IN; now left). destruct (rec_spec n p jf j U J) as (S1 & S2 & S3). fold gf in S1, S2, S3.
      unfold visit_gc. cbn [fst snd v_run v_x v_w].
      destruct (Z.eqb_spec (bze p running j) 0) as [Z|Z].
      - destruct (S1 Z) as (_ & R0 & _). cbn [gc_view DistModel.g_run]. rewrite R0. reflexivity.
      - pose proof (fogc_iff eval_B eval_psi eval_rho axis_rz p2g unphys p j jf U) as IFF. destruct (Z.eqb_spec (fst (conv p j jf)) 0) as [E|E].
        + apply IFF in E. specialize (S2 Z E). destruct (H0 j J Z) as [RU0 ER0]. pose proof (slots_independent n p0 ji j) as [TI _]. fold gi in TI.
          destruct (Nat.ltb_spec j n); [|lia]. unfold rec_slot in TI. destruct (Z.eqb_spec (bze p0 running j) 0); [contradiction|].
          destruct S2 as (gr & gphi & gz & gpp & gmu & gzeta & B & ps & rh & ax & _ & _ & _ & _ & _ & _ & _ & _ & _ & _ & _ & _ & _ & _ & _ & VC & VZ & _).
          replace (DistModel.g_run (gc_view gf j)) with true by (cbn [gc_view DistModel.g_run]; rewrite (VZ running) by (cbn; tauto); destruct (Z.eqb_spec (bze p running j) 0); [contradiction|reflexivity]).
          cbn [andb]. destruct (incell _ _ _); [|reflexivity]. cbn [gc_view DistModel.g_weight DistModel.g_time].
          rewrite (VC weight), (VC time) by (cbn; tauto). rewrite (TI time), conv_copies by (cbn; tauto || exact ER0). reflexivity.
        + destruct (S3 Z) as (e & _ & _ & R0 & _); [intros C; apply E, IFF, C|]. cbn [gc_view DistModel.g_run]. rewrite R0. reflexivity. }
    apply K. intros j J. apply in_seq in J. lia.
Qed.

(** ** When it works *)
Definition view_r : list rf := [r; phi; z; ppar; mu; zeta; mass; charge; weight; time; mileage; rho; theta; B_r; B_phi; B_z].
Definition view_z : list zf := [id; index; endcond; running].
Lemma conv_indep b j g g' : (forall t t', axis_rz t = axis_rz t') -> fst (conv b j g) = 0%Z -> unphys <> 0%Z ->
  (forall f, In f view_r -> bre (snd (conv b j g)) f j = bre (snd (conv b j g')) f j) /\ (forall f, In f view_z -> bze (snd (conv b j g)) f j = bze (snd (conv b j g')) f j).
Proof.
  intros AX E U. unfold fo_to_gc, fogc_flag in *. cbv zeta in *. destruct (Z.eqb_spec (bze b err j) 0) as [E1|E1]; cbn [negb] in *; [|cbn [fst] in E; contradiction].
  destruct (p2g _ _ _ _ _ _ _ _ _) as [[[[[gr gp] gz] gpp] gm] gze].
  destruct (Rle_dec gr 0); [cbn [fst] in E; contradiction|]. destruct (Rlt_dec gm 0); [cbn [fst] in E; contradiction|].
  destruct (eval_B _ _ _ _) as [e1 B]. destruct (Z.eqb_spec e1 0) as [Q1|Q1]; cbn [negb] in *; [|cbn [fst] in E; contradiction].
  destruct (eval_psi _ _ _ _) as [e2 ps]. destruct (Z.eqb_spec e2 0) as [Q2|Q2]; cbn [negb] in *; [|cbn [fst] in E; contradiction].
  destruct (eval_rho _) as [e3 rh]. destruct (Z.eqb_spec e3 0) as [Q3|Q3]; cbn [negb] in *; [|cbn [fst] in E; contradiction].
  match goal with |- context [axis_rz (bre (copy_r _ _ _ _ (copy_z _ _ _ _ (copy_r _ _ _ _ (bsetz (bsetz g' _ _ _) _ _ _)))) phi j)] =>
    match goal with |- context [axis_rz (bre ?x phi j)] => rewrite (AX (bre (copy_r b j j [cputime] (copy_z b j j [endcond; running; walltile] (copy_r b j j [mass; charge; weight; time; mileage] (bsetz (bsetz g' j id (bze b id j)) j index (bze b index j))))) phi j)
      (bre (copy_r b j j [cputime] (copy_z b j j [endcond; running; walltile] (copy_r b j j [mass; charge; weight; time; mileage] (bsetz (bsetz g j id (bze b id j)) j index (bze b index j))))) phi j)) end end.
  destruct (axis_rz _) as [e4 [ar az]]. destruct (Z.eqb_spec e4 0) as [Q4|Q4]; cbn [negb] in *; [|cbn [fst] in E; contradiction].
  cbn [snd Z.eqb]. unfold view_r, view_z. split; intros f I; cbn [In] in I; each I; red2; rewrite ?upn_same; reflexivity.
Qed.
Lemma interval_idle c k d pf pi : (OrbModel.m_id pf <= 0)%Z -> OrbModel.upd_interval c k d pf pi = d.
Proof. intros L. unfold OrbModel.upd_interval. destruct (Z.ltb_spec 0 (OrbModel.m_id pf)); [lia|reflexivity]. Qed.
Lemma poincare_idle c k d pf pi : (OrbModel.m_id pf <= 0)%Z -> OrbModel.upd_poincare c k d pf pi = d.
Proof. intros L. unfold OrbModel.upd_poincare. destruct (Z.ltb_spec 0 (OrbModel.m_id pf)); [lia|reflexivity]. Qed.
Lemma tc_idle f c k e : (TcModel.e_id e <= 0)%Z -> TcModel.update f c k e = Some k.
Proof.
  intros L. unfold TcModel.update, TcModel.record. rewrite Z.gtb_ltb. destruct (Z.ltb_spec 0 (TcModel.e_id e)); [lia|]. destruct (Z.ltb_spec (TcModel.e_id e) 1); [reflexivity|lia].
Qed.
Definition like (x y : gc_slot) : Prop := x = y \/
  (DistModel.g_run (fst (sg x)) = false /\ DistModel.g_run (fst (sg y)) = false /\ (OrbModel.m_id (fst (sg_orb x)) <= 0)%Z /\ (OrbModel.m_id (fst (sg_orb y)) <= 0)%Z /\
   (TcModel.e_id (sg_tc x) <= 0)%Z /\ (TcModel.e_id (sg_tc y) <= 0)%Z).
Lemma like_diag l l' s : Forall2 like l l' ->
  d_orb (diag_update_gc E0 c0 psi mom u l s) = d_orb (diag_update_gc E0 c0 psi mom u l' s) /\
  (forall t, d_hist (diag_update_gc E0 c0 psi mom u l s) t = d_hist (diag_update_gc E0 c0 psi mom u l' s) t) /\
  d_tc (diag_update_gc E0 c0 psi mom u l s) = d_tc (diag_update_gc E0 c0 psi mom u l' s).
Proof.
  intros F. pose proof (call_orb E0 c0 psi mom u s (CGc l)) as O. pose proof (call_orb E0 c0 psi mom u s (CGc l')) as O'.
  pose proof (call_tc E0 c0 psi mom u s (CGc l)) as T. pose proof (call_tc E0 c0 psi mom u s (CGc l')) as T'.
  cbn [diag_call DgProofs.orb_view DgProofs.tc_view fst snd] in *. rewrite O, O', T, T'. clear O O' T T'. split; [|split].
  - destruct (orb_on u); [|reflexivity]. unfold OrbModel.update. generalize (d_orb s). induction F as [|x y l l' L F IH]; intros d; cbn [map fold_left]; [reflexivity|].
    destruct L as [<-|(_ & _ & A & B & _)]; [apply IH|]. rewrite !interval_idle, !poincare_idle by assumption. destruct (OrbModel.interval_mode _); apply IH.
  - intros t. pose proof (call_hist E0 c0 psi mom u s (CGc l) t) as H. pose proof (call_hist E0 c0 psi mom u s (CGc l') t) as H'. cbn [diag_call] in *. rewrite H, H'. clear H H'.
    destruct (dist_on u t); [|reflexivity]. cbn [hist_call]. unfold DistModel.update_gc. generalize (d_hist s t).
    induction F as [|x y l l' L F IH]; intros d; cbn [map fold_left]; [reflexivity|]. destruct L as [<-|(A & B & _)]; [apply IH|]. rewrite A, B. apply IH.
  - destruct (tc_on u); [|reflexivity]. destruct (d_tc s) as [k|]; [|reflexivity]. revert k. induction F as [|x y l l' L F IH]; intros d; cbn [map TcModel.run]; [reflexivity|].
    destruct L as [<-|(_ & _ & _ & _ & A & B)]; [destruct (TcModel.update _ _ _ _); [apply IH|reflexivity]|]. rewrite !tc_idle by assumption. apply IH.
Qed.
Lemma view_gc g g' j : (forall f, In f view_r -> bre g f j = bre g' f j) -> (forall f, In f view_z -> bze g f j = bze g' f j) -> gc_view g j = gc_view g' j.
Proof. intros A B. unfold gc_view. rewrite (A r), (A phi), (A z), (A ppar), (A mu), (A B_r), (A B_phi), (A B_z), (A rho), (A theta), (A time), (A charge), (A mass), (A weight), (B running) by (cbn; tauto). reflexivity. Qed.
Lemma view_orb g g' j : (forall f, In f view_r -> bre g f j = bre g' f j) -> (forall f, In f view_z -> bze g f j = bze g' f j) -> RecModel.orb_view g j = RecModel.orb_view g' j.
Proof.
  intros A B. unfold RecModel.orb_view. rewrite (B id), (B index), (B endcond) by (cbn; tauto). f_equal. apply functional_extensionality. intros [| | | | | | | | | | | | | | | | | | | |]; try reflexivity; apply A; cbn; tauto.
Qed.
Lemma view_tc gf gi gf' gi' j : (forall f, In f view_r -> bre gf f j = bre gf' f j) -> (forall f, In f view_z -> bze gf f j = bze gf' f j) -> (forall f, In f view_r -> bre gi f j = bre gi' f j) ->
  RecModel.tc_view gf gi j = RecModel.tc_view gf' gi' j.
Proof. intros A B C. unfold RecModel.tc_view. rewrite (B id), (B index), (B running), (A rho), (A r), (A ppar), (A mileage), (A theta), (C mileage), (C theta) by (cbn; tauto). reflexivity. Qed.

(** with an axis that does not depend on the toroidal angle, and as long as no particle ends and
    all guiding centres can be computed, what the local bundles held does not matter *)
Theorem rec_junk_free : forall (n : nat) (p p0 jf ji jf' ji' : bundle) (s : dg), unphys <> 0%Z -> (forall t t', axis_rz t = axis_rz t') ->
  (forall j, (j < n)%nat -> (bze p running j = 0%Z /\ (bze p id j <= 0)%Z) \/ (bze p running j <> 0%Z /\ convable p jf j /\ bze p0 running j <> 0%Z /\ convable p0 ji j)) ->
  d_orb (upd n p p0 jf ji s) = d_orb (upd n p p0 jf' ji' s) /\ (forall t, d_hist (upd n p p0 jf ji s) t = d_hist (upd n p p0 jf' ji' s) t) /\ d_tc (upd n p p0 jf ji s) = d_tc (upd n p p0 jf' ji' s).
Proof.
  intros n p p0 jf ji jf' ji' s U AX H. apply like_diag. unfold rec_slots.
  assert (K : forall l, (forall j, In j l -> (j < n)%nat) -> Forall2 like
     (map (fun j => SG (gc_view (bundlef n p jf) j, gc_view (bundlef n p0 ji) j) (RecModel.orb_view (bundlef n p jf) j, RecModel.orb_view (bundlef n p0 ji) j) (RecModel.tc_view (bundlef n p jf) (bundlef n p0 ji) j)) l)
     (map (fun j => SG (gc_view (bundlef n p jf') j, gc_view (bundlef n p0 ji') j) (RecModel.orb_view (bundlef n p jf') j, RecModel.orb_view (bundlef n p0 ji') j) (RecModel.tc_view (bundlef n p jf') (bundlef n p0 ji') j)) l)).
  { induction l as [|j l IH]; intros IN; cbn [map]; constructor; [|apply IH; intros; apply IN; now right]. clear IH.
    assert (J : (j < n)%nat) by (apply IN; now left). destruct (H j J) as [[R0 I0]|(R1 & C1 & R2 & C2)].
    - right. cbn [sg sg_orb sg_tc fst gc_view RecModel.orb_view RecModel.tc_view DistModel.g_run OrbModel.m_id TcModel.e_id].
      destruct (rec_spec n p jf j U J) as (S1 & _). destruct (rec_spec n p jf' j U J) as (S1' & _). destruct (S1 R0) as (-> & -> & _). destruct (S1' R0) as (-> & -> & _). auto 10.
    - left.
      assert (Q : forall b g g', bze b running j <> 0%Z -> convable b g j -> (forall f, In f view_r -> bre (bundlef n b g) f j = bre (bundlef n b g') f j) /\ (forall f, In f view_z -> bze (bundlef n b g) f j = bze (bundlef n b g') f j)).
      { intros b g g' RU C. pose proof (slots_independent n b g j) as [A B]. pose proof (slots_independent n b g' j) as [A' B']. destruct (Nat.ltb_spec j n); [|lia]. unfold rec_slot in *. destruct (Z.eqb_spec (bze b running j) 0); [contradiction|].
        apply (fogc_iff eval_B eval_psi eval_rho axis_rz p2g unphys b j g U) in C. destruct (conv_indep b j g g' AX C U) as [D E]. split; intros f I; [rewrite A, A'; now apply D|rewrite B, B'; now apply E]. }
      destruct (Q p jf jf' R1 C1) as [A B]. destruct (Q p0 ji ji' R2 C2) as [A' B']. rewrite (view_gc _ _ _ A B), (view_gc _ _ _ A' B'), (view_orb _ _ _ A B), (view_orb _ _ _ A' B'), (view_tc _ _ _ _ _ A B A'). reflexivity. }
  apply K. intros j J. apply in_seq in J. lia.
Qed.

(** ** When it does not *)
(** contents of the local bundle: marker index, end condition and coordinates *)
Definition junk (k : nat) (ec : Z) (v : OrbModel.fld -> R) : bundle :=
  mkb (fun f _ => match f with
         | mileage => v OrbModel.Fmil | r => v OrbModel.Fr | phi => v OrbModel.Fphi | z => v OrbModel.Fz | ppar => v OrbModel.Fppar | mu => v OrbModel.Fmu
         | zeta => v OrbModel.Fzeta | weight => v OrbModel.Fw | charge => v OrbModel.Fq | rho => v OrbModel.Frho | theta => v OrbModel.Fth
         | B_r => v OrbModel.FBr | B_phi => v OrbModel.FBphi | B_z => v OrbModel.FBz | _ => 0 end)
      (fun f _ => match f with index => Z.of_nat k | endcond => ec | _ => 0%Z end).
Lemma one_orb p p0 jf ji s : orb_on u = true -> OrbModel.interval_mode (orb_cfg u) = true ->
  d_orb (upd 1 p p0 jf ji s) = OrbModel.upd_interval (orb_cfg u) OrbModel.GC (d_orb s) (RecModel.orb_view (bundlef 1 p jf) 0) (RecModel.orb_view (bundlef 1 p0 ji) 0).
Proof.
  intros O IM. rewrite upd_call, call_orb, O. unfold rec_slots. cbn [seq map DgProofs.orb_view fst snd sg_orb]. unfold OrbModel.update. cbn [fold_left fst snd]. rewrite IM. reflexivity.
Qed.
Lemma one_tc p p0 jf ji s : tc_on u = true ->
  d_tc (upd 1 p p0 jf ji s) = match d_tc s with None => None | Some c => TcModel.update (tc_fuel u) (tc_par u) c (RecModel.tc_view (bundlef 1 p jf) (bundlef 1 p0 ji) 0) end.
Proof.
  intros T. rewrite upd_call, call_tc, T. unfold rec_slots. cbn [seq map DgProofs.tc_view sg_tc TcModel.run]. destruct (d_tc s) as [c|]; [|reflexivity]. destruct (TcModel.update _ _ _ _); reflexivity.
Qed.
Lemma ended_slot p k ec v : unphys <> 0%Z -> bze p running 0 = 0%Z -> let g := bundlef 1 p (junk k ec v) in
  bze g id 0 = bze p id 0 /\ bze g running 0 = 0%Z /\ bze g index 0 = Z.of_nat k /\ bze g endcond 0 = ec /\ (forall f, bre g f 0 = bre (junk k ec v) f 0).
Proof.
  intros U R0. cbv zeta. destruct (rec_spec 1 p (junk k ec v) 0 U (le_n 1)) as (S1 & _). destruct (S1 R0) as (A & B & C & D). repeat (split; [first [assumption|rewrite D by discriminate; reflexivity]|]). exact C.
Qed.
Lemma is0_false x : x <> 0 -> OrbModel.is0 x = false. Proof. intros N. unfold OrbModel.is0. destruct (Req_EM_T x 0); [contradiction|reflexivity]. Qed.

Lemma interval_value c kd d pf pi k f : (0 < OrbModel.m_id pf)%Z -> OrbModel.m_index pf = k -> OrbModel.arr d OrbModel.Fid (k * OrbModel.npnt c)%nat <> 0 ->
  (0 < OrbModel.m_endcond pf)%Z \/ OrbModel.recd d k + OrbModel.wint c <= OrbModel.m_val pf OrbModel.Fmil ->
  OrbModel.arr (OrbModel.upd_interval c kd d pf pi) f (k * OrbModel.npnt c + OrbModel.pnt d k)%nat =
  match OrbModel.pt_state kd pf f with Some v => v | None => OrbModel.arr d f (k * OrbModel.npnt c + OrbModel.pnt d k)%nat end.
Proof.
  intros ID IX NZ C. unfold OrbModel.upd_interval. destruct (Z.ltb_spec 0 (OrbModel.m_id pf)); [|lia]. cbv zeta. rewrite IX, is0_false by exact NZ. cbn [fst].
  assert (E : (OrbModel.leb (OrbModel.recd d k + OrbModel.wint c - OrbModel.m_val pf OrbModel.Fmil) 0 || (0 <? OrbModel.m_endcond pf)%Z)%bool = true).
  { apply orb_true_iff. destruct C as [C|C]; [right; now apply Z.ltb_lt|left]. unfold OrbModel.leb. destruct (Rle_dec _ _); [reflexivity|exfalso; lra]. }
  rewrite E. cbn [OrbModel.push fst OrbModel.arr]. unfold OrbModel.write. rewrite Nat.eqb_refl. reflexivity.
Qed.

(** a particle that ends in this step writes a point with arbitrary contents into the orbit of
    any other marker, under its own id *)
Theorem rec_foreign_orbit : forall (p p0 ji : bundle) (s : dg) (k : nat) (v : OrbModel.fld -> R), unphys <> 0%Z ->
  bze p running 0 = 0%Z -> (0 < bze p id 0)%Z -> orb_on u = true -> OrbModel.interval_mode (orb_cfg u) = true ->
  OrbModel.arr (d_orb s) OrbModel.Fid (k * OrbModel.npnt (orb_cfg u))%nat <> 0 ->
  exists jf, let i := (k * OrbModel.npnt (orb_cfg u) + OrbModel.pnt (d_orb s) k)%nat in let o := d_orb (upd 1 p p0 jf ji s) in
    OrbModel.arr o OrbModel.Fid i = IZR (bze p id 0) /\
    (forall f, In f [OrbModel.Fmil; OrbModel.Fr; OrbModel.Fphi; OrbModel.Fz; OrbModel.Fppar; OrbModel.Fmu; OrbModel.Fzeta; OrbModel.Fw; OrbModel.Fq; OrbModel.Frho; OrbModel.Fth; OrbModel.FBr; OrbModel.FBphi; OrbModel.FBz] ->
       OrbModel.arr o f i = v f).
Proof.
  intros p p0 ji s k v U R0 ID O IM NZ. exists (junk k 1 v). cbv zeta. rewrite one_orb by assumption.
  destruct (ended_slot p k 1 v U R0) as (A & B & C & D & F).
  assert (V : forall f, OrbModel.arr (OrbModel.upd_interval (orb_cfg u) OrbModel.GC (d_orb s) (RecModel.orb_view (bundlef 1 p (junk k 1 v)) 0) (RecModel.orb_view (bundlef 1 p0 ji) 0)) f (k * OrbModel.npnt (orb_cfg u) + OrbModel.pnt (d_orb s) k)%nat =
    match OrbModel.pt_state OrbModel.GC (RecModel.orb_view (bundlef 1 p (junk k 1 v)) 0) f with Some v => v | None => OrbModel.arr (d_orb s) f (k * OrbModel.npnt (orb_cfg u) + OrbModel.pnt (d_orb s) k)%nat end).
  { intros f. apply interval_value; [cbn [RecModel.orb_view OrbModel.m_id OrbModel.m_index OrbModel.m_endcond OrbModel.m_val]; rewrite A; exact ID|cbn [RecModel.orb_view OrbModel.m_id OrbModel.m_index OrbModel.m_endcond OrbModel.m_val]; rewrite C; apply Nat2Z.id|exact NZ|left; cbn [RecModel.orb_view OrbModel.m_id OrbModel.m_index OrbModel.m_endcond OrbModel.m_val]; rewrite D; lia]. }
  split. { rewrite V. unfold OrbModel.pt_state, RecModel.orb_view. cbn [OrbModel.m_id]. rewrite A. reflexivity. }
  intros f I. cbn [In] in I. rewrite V. each I; cbn [OrbModel.pt_state OrbModel.coord RecModel.orb_view OrbModel.m_val]; rewrite F; reflexivity.
Qed.
(** or its end is not recorded at all, although the local bundle holds its right index *)
Theorem rec_end_unrecorded : forall (p p0 ji : bundle) (s : dg) (k : nat), unphys <> 0%Z ->
  bze p running 0 = 0%Z -> orb_on u = true -> OrbModel.interval_mode (orb_cfg u) = true -> 0 < OrbModel.wint (orb_cfg u) ->
  OrbModel.arr (d_orb s) OrbModel.Fid (k * OrbModel.npnt (orb_cfg u))%nat <> 0 ->
  exists jf, bze jf index 0 = Z.of_nat k /\ d_orb (upd 1 p p0 jf ji s) = d_orb s.
Proof.
  intros p p0 ji s k U R0 O IM W NZ. exists (junk k 0 (fun _ => OrbModel.recd (d_orb s) k)). split; [reflexivity|]. rewrite one_orb by assumption.
  destruct (ended_slot p k 0 (fun _ => OrbModel.recd (d_orb s) k) U R0) as (A & B & C & D & F). unfold OrbModel.upd_interval, RecModel.orb_view.
  cbn [OrbModel.m_id OrbModel.m_index OrbModel.m_endcond OrbModel.m_val]. rewrite A, C, D, Nat2Z.id. destruct (0 <? bze p id 0)%Z; [|reflexivity].
  cbv zeta. rewrite is0_false by exact NZ. cbn [fst]. rewrite F. cbn [junk bre]. unfold OrbModel.leb. destruct (Rle_dec _ 0) as [L|_]; [lra|]. reflexivity.
Qed.
(** for any bound there are contents with which the write goes beyond it *)
Theorem rec_out_of_bounds : forall (p p0 ji : bundle) (s : dg) (k : nat), unphys <> 0%Z ->
  bze p running 0 = 0%Z -> (0 < bze p id 0)%Z -> orb_on u = true -> OrbModel.interval_mode (orb_cfg u) = true -> 
  exists jf i, (k * OrbModel.npnt (orb_cfg u) <= i)%nat /\ OrbModel.arr (d_orb (upd 1 p p0 jf ji s)) OrbModel.Fid i = IZR (bze p id 0).
Proof.
  intros p p0 ji s k U R0 ID O IM. exists (junk k 1 (fun _ => 0)). rewrite one_orb by assumption.
  destruct (ended_slot p k 1 (fun _ => 0) U R0) as (A & B & C & D & F). set (pf := RecModel.orb_view (bundlef 1 p (junk k 1 (fun _ => 0))) 0).
  assert (I1 : OrbModel.m_id pf = bze p id 0) by exact A. assert (I2 : OrbModel.m_index pf = k) by (subst pf; cbn [RecModel.orb_view OrbModel.m_id OrbModel.m_index OrbModel.m_endcond OrbModel.m_val]; rewrite C; apply Nat2Z.id). assert (I3 : OrbModel.m_endcond pf = 1%Z) by exact D. clearbody pf.
  unfold OrbModel.upd_interval. rewrite I1, I2, I3. destruct (Z.ltb_spec 0 (bze p id 0)); [|lia]. cbv zeta. change (0 <? 1)%Z with true. rewrite orb_true_r.
  match goal with |- context [if OrbModel.is0 ?x then ?a else ?b] => destruct (if OrbModel.is0 x then a else b) as [d ip] end.
  cbn [OrbModel.push fst OrbModel.arr]. exists (k * OrbModel.npnt (orb_cfg u) + ip)%nat. split; [lia|]. unfold OrbModel.write. rewrite Nat.eqb_refl.
  cbn [OrbModel.pt_state]. rewrite I1. reflexivity.
Qed.
(** the crossings of any other marker are turned into coefficients under the id of the ended one *)
Theorem rec_foreign_transport : forall (p p0 ji : bundle) (s : dg) (c : TcModel.tc) (k : nat), unphys <> 0%Z ->
  bze p running 0 = 0%Z -> (0 < bze p id 0)%Z -> tc_on u = true -> d_tc s = Some c ->
  exists jf, d_tc (upd 1 p p0 jf ji s) = TcModel.process (tc_fuel u) (tc_par u) c k (bze p id 0).
Proof.
  intros p p0 ji s c k U R0 ID T S0. pose (gi := bundlef 1 p0 ji). exists (junk k 0 (fun _ => bre gi mileage 0)). rewrite one_tc, S0 by assumption. fold gi.
  destruct (ended_slot p k 0 (fun _ => bre gi mileage 0) U R0) as (A & B & C & D & F). unfold TcModel.update, TcModel.record, RecModel.tc_view.
  cbn [TcModel.e_index TcModel.e_id TcModel.e_running TcModel.e_rho TcModel.e_r TcModel.e_b TcModel.e_tf TcModel.e_ti TcModel.e_thf TcModel.e_thi].
  rewrite A, B, C, Nat2Z.id, F. cbn [junk bre]. rewrite Z.gtb_ltb. destruct (Z.ltb_spec 0 (bze p id 0)); [|lia].
  destruct (Rlt_dec _ _) as [L|_]; [exfalso; lra|]. destruct (Rlt_dec 0 0) as [L|_]; [exfalso; lra|]. destruct (Z.ltb_spec (bze p id 0) 1); [lia|]. reflexivity.
Qed.

(** a particle that goes on but whose guiding centre cannot be computed *)
Lemma lost_slot p jf : unphys <> 0%Z -> bze p running 0 <> 0%Z -> bze p err 0 = 0%Z -> ~ convable p jf 0 -> let g := bundlef 1 p jf in
  bze g id 0 = bze p id 0 /\ bze g running 0 = 0%Z /\ bze g index 0 = bze p index 0 /\ bze g endcond 0 = 0%Z /\ bre g mileage 0 = bre p mileage 0 /\
  (forall f, In f ([r; phi; z; ppar; mu; zeta; rho; theta] ++ all_B) -> bre g f 0 = bre jf f 0).
Proof.
  intros U RU E NC. cbv zeta. destruct (rec_spec 1 p jf 0 U (le_n 1)) as (_ & _ & S3). destruct (S3 RU NC) as (e & _ & _ & A & B & C & D & F).
  repeat (split; [assumption|]). split; [|exact F]. destruct (slots_independent 1 p jf 0) as [G _]. rewrite G. cbn [Nat.ltb Nat.leb]. unfold rec_slot.
  destruct (Z.eqb_spec (bze p running 0) 0); [contradiction|]. apply conv_copies; [exact E|cbn; tauto].
Qed.
(** its orbit gets points with arbitrary coordinates *)
Theorem rec_junk_point : forall (p p0 ji : bundle) (s : dg) (v : OrbModel.fld -> R), unphys <> 0%Z ->
  bze p running 0 <> 0%Z -> bze p err 0 = 0%Z -> (forall g, ~ convable p g 0) -> (0 < bze p id 0)%Z -> orb_on u = true -> OrbModel.interval_mode (orb_cfg u) = true ->
  let k := Z.to_nat (bze p index 0) in
  OrbModel.arr (d_orb s) OrbModel.Fid (k * OrbModel.npnt (orb_cfg u))%nat <> 0 -> OrbModel.recd (d_orb s) k + OrbModel.wint (orb_cfg u) <= bre p mileage 0 ->
  exists jf, let i := (k * OrbModel.npnt (orb_cfg u) + OrbModel.pnt (d_orb s) k)%nat in let o := d_orb (upd 1 p p0 jf ji s) in
    OrbModel.arr o OrbModel.Fid i = IZR (bze p id 0) /\ OrbModel.arr o OrbModel.Fmil i = bre p mileage 0 /\
    (forall f, In f [OrbModel.Fr; OrbModel.Fphi; OrbModel.Fz; OrbModel.Fppar; OrbModel.Fmu; OrbModel.Fzeta; OrbModel.Frho; OrbModel.Fth; OrbModel.FBr; OrbModel.FBphi; OrbModel.FBz] ->
       OrbModel.arr o f i = v f).
Proof.
  intros p p0 ji s v U RU E NC ID O IM k NZ M. exists (junk 0 0 v). cbv zeta. rewrite one_orb by assumption.
  destruct (lost_slot p (junk 0 0 v) U RU E (NC _)) as (A & B & C & D & G & F).
  assert (V : forall f, OrbModel.arr (OrbModel.upd_interval (orb_cfg u) OrbModel.GC (d_orb s) (RecModel.orb_view (bundlef 1 p (junk 0 0 v)) 0) (RecModel.orb_view (bundlef 1 p0 ji) 0)) f (k * OrbModel.npnt (orb_cfg u) + OrbModel.pnt (d_orb s) k)%nat =
    match OrbModel.pt_state OrbModel.GC (RecModel.orb_view (bundlef 1 p (junk 0 0 v)) 0) f with Some v => v | None => OrbModel.arr (d_orb s) f (k * OrbModel.npnt (orb_cfg u) + OrbModel.pnt (d_orb s) k)%nat end).
  { intros f. apply interval_value; [cbn [RecModel.orb_view OrbModel.m_id OrbModel.m_index OrbModel.m_endcond OrbModel.m_val]; rewrite A; exact ID|cbn [RecModel.orb_view OrbModel.m_id OrbModel.m_index OrbModel.m_endcond OrbModel.m_val]; rewrite C; reflexivity|exact NZ|right; cbn [RecModel.orb_view OrbModel.m_id OrbModel.m_index OrbModel.m_endcond OrbModel.m_val]; rewrite G; exact M]. }
  split. { rewrite V. unfold OrbModel.pt_state, RecModel.orb_view. cbn [OrbModel.m_id]. rewrite A. reflexivity. }
  split. { rewrite V. cbn [OrbModel.pt_state OrbModel.coord RecModel.orb_view OrbModel.m_val]. exact G. }
  intros f I. cbn [In] in I. rewrite V. each I; cbn [OrbModel.pt_state OrbModel.coord RecModel.orb_view OrbModel.m_val]; (rewrite F by (cbn; tauto)); reflexivity.
Qed.
(** its crossings are turned into coefficients as if it had ended, and dropped *)
Theorem rec_running_processed : forall (p p0 ji : bundle) (s : dg) (c : TcModel.tc), unphys <> 0%Z ->
  bze p running 0 <> 0%Z -> bze p err 0 = 0%Z -> (forall g, ~ convable p g 0) -> (0 < bze p id 0)%Z -> tc_on u = true -> d_tc s = Some c -> (forall k, TcModel.dp c k = None \/ 
    exists a l, TcModel.dp c k = Some a /\ TcModel.heap c a = Some l) ->
  exists jf, d_tc (upd 1 p p0 jf ji s) = TcModel.process (tc_fuel u) (tc_par u) c (Z.to_nat (bze p index 0)) (bze p id 0).
Proof.
  intros p p0 ji s c U RU E NC ID T S0 WF. pose (gi := bundlef 1 p0 ji). exists (junk 0 0 (fun _ => bre gi theta 0)). rewrite one_tc, S0 by assumption. fold gi.
  destruct (lost_slot p (junk 0 0 (fun _ => bre gi theta 0)) U RU E (NC _)) as (A & B & C & D & G & F). unfold TcModel.update, TcModel.record, RecModel.tc_view.
  cbn [TcModel.e_index TcModel.e_id TcModel.e_running TcModel.e_rho TcModel.e_r TcModel.e_b TcModel.e_tf TcModel.e_ti TcModel.e_thf TcModel.e_thi].
  rewrite A, B, C, G. rewrite (F theta) by (cbn; tauto). cbn [junk bre]. rewrite Z.gtb_ltb. destruct (Z.ltb_spec 0 (bze p id 0)); [|lia].
  assert (CR : TcModel.crossing (bre gi theta 0) (bre gi theta 0) = 0) by (unfold TcModel.crossing; destruct (Req_EM_T _ _); [reflexivity|contradiction]).
  rewrite CR. assert (F0 : ~ 0 < 0) by lra.
  destruct (Rlt_dec _ (bre p mileage 0)) as [L|_].
  - destruct (WF (Z.to_nat (bze p index 0))) as [WN|(a & l & WD & WL)]; [rewrite WN|rewrite WD, WL; destruct (Rlt_dec (TcModel.p_interval (tc_par u)) _)]; (destruct (Rlt_dec 0 0); [contradiction|]);
      destruct (Z.ltb_spec (bze p id 0) 1); try lia; reflexivity.
  - destruct (Rlt_dec 0 0); [contradiction|]. destruct (Z.ltb_spec (bze p id 0) 1); [lia|]. reflexivity.
Qed.
End rec.

(** with an axis that depends on the angle the poloidal angle of the guiding centre depends on what the local bundle held *)
Theorem rec_angle_refuted : exists eval_B eval_psi eval_rho axis_rz p2g p jf jf', let conv := rec_bundle eval_B eval_psi eval_rho axis_rz p2g 1%Z 1 p in
  bze p running 0 = 1%Z /\ convertible eval_B eval_psi eval_rho axis_rz p2g p jf 0 /\ convertible eval_B eval_psi eval_rho axis_rz p2g p jf' 0 /\
  bre (conv jf) phi 0 = bre (conv jf') phi 0 /\ bre (conv jf) theta 0 <> bre (conv jf') theta 0.
Proof.
  exists (fun _ _ _ _ => (0%Z, fun _ => 1)), (fun _ _ _ _ => (0%Z, 0)), (fun _ => (0%Z, 0)), (fun t => (0%Z, (1, sin t))), (fun _ _ _ _ _ _ _ _ _ => (3, 0, 0, 1, 1, 0)),
    (mkb (fun f _ => match f with r => 2 | _ => 0 end) (fun f _ => match f with running => 1%Z | _ => 0%Z end)), (mkb (fun f _ => match f with phi => PI / 2 | _ => 0 end) (fun _ _ => 0%Z)), (mkb (fun _ _ => 0) (fun _ _ => 0%Z)).
  cbv zeta. unfold rec_bundle. cbn [seq fold_left]. unfold rec_slot. cbn [bze Z.eqb]. split; [reflexivity|].
  split; [unfold convertible, centre; cbn; repeat split; lra|]. split; [unfold convertible, centre; cbn; repeat split; lra|].
  unfold fo_to_gc, fogc_flag. cbn [bze Z.eqb negb bre]. destruct (Rle_dec 3 0); [lra|]. destruct (Rlt_dec 1 0); [lra|]. cbn [Z.eqb negb].
  cbv [copy_r copy_z fold_left bput bfields bsetr bsetz bre bze upr upz rf_beq zf_beq fst snd upn Nat.eqb]. rewrite sin_PI2, sin_0. split; [reflexivity|].
  replace (atan2 ((2 - 1) * (0 - 1) - (0 - 1) * (3 - 1)) _) with (atan (1 / 3)).
  2:{ unfold atan2. destruct (Rlt_dec 0 _) as [_|F]; [|exfalso; apply F; lra]. f_equal. field. }
  replace (atan2 _ _) with (atan 0).
  2:{ unfold atan2. destruct (Rlt_dec 0 _) as [_|F]; [|exfalso; apply F; lra]. f_equal. field. }
  assert (atan 0 < atan (1 / 3)) by (apply atan_increasing; lra). lra.
Qed.
