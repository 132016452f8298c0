(** Lemmas on marker format conversions. *)
From Coq Require Import Reals ZArith List Bool Lra Lia.
From Verif Require Import ParticleModel.
Import ListNotations.
Local Open Scope R_scope.

(** Everything a marker is identified and weighted by. *)
Definition identity_r : list rf := [weight; time; mileage; cputime; theta].
Definition identity_z : list zf := [id; endcond; walltile].
Definition all_B : list rf :=
  [B_r; B_phi; B_z; B_r_dr; B_phi_dr; B_z_dr; B_r_dphi; B_phi_dphi; B_z_dphi; B_r_dz; B_phi_dz; B_z_dz].

Definition agree_r (l : list rf) (p q : marker) := forall f, In f l -> re p f = re q f.
Definition agree_z (l : list zf) (p q : marker) := forall f, In f l -> ze p f = ze q f.
(** all slots other than j hold what they held *)
Definition others_kept (j : nat) (b b' : bundle) :=
  forall k, k <> j -> (forall f, bre b' f k = bre b f k) /\ (forall f, bze b' f k = bze b f k).

Lemma upn_same : forall A (f : nat -> A) k v, upn f k v k = v.
Proof. intros. unfold upn. now rewrite Nat.eqb_refl. Qed.
Lemma upn_other : forall A (f : nat -> A) k v x, x <> k -> upn f k v x = f x.
Proof. intros. unfold upn. destruct (Nat.eqb_spec x k); congruence. Qed.

Lemma ok_refl : forall j b, others_kept j b b.
Proof. unfold others_kept; auto. Qed.
Lemma ok_trans : forall j a b c, others_kept j a b -> others_kept j b c -> others_kept j a c.
Proof.
  unfold others_kept; intros j a b c H K k N. destruct (H k N), (K k N).
  split; intros f; [rewrite H2, H0 | rewrite H3, H1]; reflexivity.
Qed.
Lemma ok_bsetr : forall j b f v, others_kept j b (bsetr b j f v).
Proof.
  intros j b f v k N; split; intros g; cbn; auto. unfold upr.
  destruct (rf_beq g f) eqn:E; auto. apply internal_rf_dec_bl in E; subst. now apply upn_other.
Qed.
Lemma ok_bsetz : forall j b f v, others_kept j b (bsetz b j f v).
Proof.
  intros j b f v k N; split; intros g; cbn; auto. unfold upz.
  destruct (zf_beq g f) eqn:E; auto. apply internal_zf_dec_bl in E; subst. now apply upn_other.
Qed.
Lemma ok_fold : forall A (g : bundle -> A -> bundle) j, (forall b a, others_kept j b (g b a)) ->
  forall l b, others_kept j b (fold_left g l b).
Proof.
  intros A g j H l; induction l; intros b; cbn; [apply ok_refl|]. eapply ok_trans; [apply H | apply IHl].
Qed.
Lemma ok_loadr : forall p j l b, others_kept j b (loadr p j l b).
Proof. intros. apply ok_fold. intros; apply ok_bsetr. Qed.
Lemma ok_loadz : forall p j l b, others_kept j b (loadz p j l b).
Proof. intros. apply ok_fold. intros; apply ok_bsetz. Qed.
Lemma ok_bput : forall j v b, others_kept j b (bput b j v).
Proof. intros. apply ok_fold. intros; apply ok_bsetr. Qed.
Lemma ok_if : forall j b (c : bool) x y, others_kept j b x -> others_kept j b y -> others_kept j b (if c then x else y).
Proof. destruct c; auto. Qed.

Ltac oks := repeat (first [apply ok_refl
  | eapply ok_trans; [| first [apply ok_bsetr | apply ok_bsetz | apply ok_loadr | apply ok_loadz | apply ok_bput]]
  | apply ok_if]).

(** enumerate a membership hypothesis *)
Ltac each H := repeat (destruct H as [<- | H]; [ | ]); try destruct H.

Section P.
Context (eval_B : R -> R -> R -> R -> Z * (rf -> R)) (eval_psi : R -> R -> R -> R -> Z * R)
        (eval_rho : R -> Z * R) (axis_rz : R -> Z * (R * R))
        (p2g g2p : R -> R -> (rf -> R) -> R -> R -> R -> R -> R -> R -> R * R * R * R * R * R)
        (ppm : R -> R -> (rf -> R) -> R -> R -> R -> R -> R * R * R)
        (unphys : Z) (cc : R) (atan2 : R -> R -> R).

Notation s2fo := (state_to_fo eval_B eval_psi eval_rho).
Notation fo2s := (fo_to_state eval_B eval_psi eval_rho p2g unphys cc).
Notation gc2s := (gc_to_state eval_B g2p ppm unphys).

Ltac red1 := cbv [loadr loadz storer storez same fold_left map fst snd bput mput bfields
  bsetr bsetz setr setz bre bze re ze upr upz rf_beq zf_beq].
Ltac red1in H := cbv [loadr loadz storer storez same fold_left map fst snd bput mput bfields
  bsetr bsetz setr setz bre bze re ze upr upz rf_beq zf_beq] in H.

(** ** loading *)
Lemma s2fo_others : forall p i b j, others_kept j b (snd (s2fo p i b j)).
Proof.
  intros. unfold state_to_fo. cbv zeta.
  destruct (negb _); [apply ok_refl|]. destruct (eval_B _ _ _ _) as [e1 B].
  destruct (negb _); [cbn [snd]; oks|].
  destruct (eval_psi _ _ _ _) as [e2 ps]. destruct (negb _); [cbn [snd]; oks|].
  destruct (eval_rho _) as [e3 rh]. destruct (negb _); [cbn [snd]; oks|]. cbn [snd]; oks.
Qed.
Lemma s2gc_others : forall p i b j, others_kept j b (snd (state_to_gc p i b j)).
Proof. intros. unfold state_to_gc. cbv zeta. destruct (negb _); cbn [snd]; oks. Qed.
Lemma s2ml_others : forall p i b j, others_kept j b (snd (state_to_ml p i b j)).
Proof. intros. unfold state_to_ml. cbv zeta. destruct (negb _); cbn [snd]; oks. Qed.

(** success of the evaluations at the particle position *)
Definition fo_evals (p : marker) (B : rf -> R) (rh : R) := exists psi,
  eval_B (re p rprt) (re p phiprt) (re p zprt) (re p time) = (0%Z, B) /\
  eval_psi (re p rprt) (re p phiprt) (re p zprt) (re p time) = (0%Z, psi) /\
  eval_rho psi = (0%Z, rh).

Lemma s2fo_iff : forall p i b j,
  fst (s2fo p i b j) = 0%Z <-> ze p err = 0%Z /\ exists B rh, fo_evals p B rh.
Proof.
  intros. unfold state_to_fo, fo_evals. cbv zeta.
  destruct (Z.eqb_spec (ze p err) 0) as [E|E]; cbn [negb].
  2:{ cbn. split; [congruence | intros [K _]; congruence]. }
  destruct (eval_B _ _ _ _) as [e1 B] eqn:EB. destruct (Z.eqb_spec e1 0) as [E1|E1]; cbn [negb].
  2:{ cbn. split; [congruence | intros [_ [? [? [? [K _]]]]]; congruence]. }
  destruct (eval_psi _ _ _ _) as [e2 ps] eqn:EP. destruct (Z.eqb_spec e2 0) as [E2|E2]; cbn [negb].
  2:{ cbn. split; [congruence | intros [_ [? [? [? [_ [K _]]]]]]; congruence]. }
  destruct (eval_rho _) as [e3 rh] eqn:ER. destruct (Z.eqb_spec e3 0) as [E3|E3]; cbn [negb].
  2:{ cbn. split; [congruence | intros [_ [? [? [? [_ [K K']]]]]]]. congruence. }
  cbn [fst]. subst. split; auto. intros _. split; auto. exists B, rh, ps. auto.
Qed.

(** after a successful load the slot holds the marker *)
Definition fo_slot (p : marker) (i : Z) (B : rf -> R) (rh : R) (b : bundle) (j : nat) :=
  (forall f, In f ([p_r; p_phi; p_z; mass; charge] ++ identity_r) -> bre b f j = re p f) /\
  (forall f, In f ([anum; znum] ++ identity_z) -> bze b f j = ze p f) /\
  bre b r j = re p rprt /\ bre b phi j = re p phiprt /\ bre b z j = re p zprt /\
  bre b rho j = rh /\ (forall f, In f all_B -> bre b f j = B f) /\
  bze b bounces j = 0%Z /\ bze b err j = 0%Z /\ bze b index j = i /\
  bze b running j = (if Z.eqb (ze p endcond) 0 then 1 else 0)%Z.

Lemma s2fo_slot : forall p i b j B rh, ze p err = 0%Z -> fo_evals p B rh ->
  fo_slot p i B rh (snd (s2fo p i b j)) j.
Proof.
  intros p i b j B rh E (psi & EB & EP & ER). unfold state_to_fo. rewrite E. change (negb (0 =? 0)%Z) with false. cbv beta zeta iota.
  rewrite EB, EP, ER. change (negb (0 =? 0)%Z) with false. cbn [fst snd]. unfold fo_slot, identity_r, identity_z, all_B. cbn [app].
  destruct (Z.eqb (ze p endcond) 0); repeat split; intros; try (match goal with H : In _ _ |- _ => cbn [In] in H; each H end);
    red1; rewrite ?upn_same; reflexivity.
Qed.

Definition gc_slot (p : marker) (i : Z) (b : bundle) (j : nat) :=
  (forall f, In f ([r; phi; z; ppar; mu; zeta; mass; charge; rho] ++ identity_r ++ all_B) -> bre b f j = re p f) /\
  (forall f, In f identity_z -> bze b f j = ze p f) /\
  bze b bounces j = 0%Z /\ bze b err j = 0%Z /\ bze b index j = i /\
  bze b running j = (if Z.eqb (ze p endcond) 0 then 1 else 0)%Z.

Lemma s2gc_slot : forall p i b j, ze p err = 0%Z ->
  fst (state_to_gc p i b j) = 0%Z /\ gc_slot p i (snd (state_to_gc p i b j)) j.
Proof.
  intros p i b j E. unfold state_to_gc. rewrite E. change (negb (0 =? 0)%Z) with false. cbv beta zeta iota.
  cbn [fst snd]. unfold gc_slot, identity_r, identity_z, all_B. cbn [app].
  destruct (Z.eqb (ze p endcond) 0); repeat split; intros; try (match goal with H : In _ _ |- _ => cbn [In] in H; each H end);
    red1; rewrite ?upn_same; reflexivity.
Qed.

Definition ml_slot (p : marker) (i : Z) (b : bundle) (j : nat) :=
  (forall f, In f ([r; phi; z; rho] ++ identity_r ++ all_B) -> bre b f j = re p f) /\
  (forall f, In f identity_z -> bze b f j = ze p f) /\
  bre b pitch j = (if Rle_dec 0 (re p ppar) then 1 else -1) /\
  bze b err j = 0%Z /\ bze b index j = i /\
  bze b running j = (if Z.eqb (ze p endcond) 0 then 1 else 0)%Z.

Lemma s2ml_slot : forall p i b j, ze p err = 0%Z ->
  fst (state_to_ml p i b j) = 0%Z /\ ml_slot p i (snd (state_to_ml p i b j)) j.
Proof.
  intros p i b j E. unfold state_to_ml. rewrite E. change (negb (0 =? 0)%Z) with false. cbv beta zeta iota.
  cbn [fst snd]. unfold ml_slot, identity_r, identity_z, all_B. cbn [app].
  destruct (Z.eqb (ze p endcond) 0); repeat split; intros; try (match goal with H : In _ _ |- _ => cbn [In] in H; each H end);
    red1; rewrite ?upn_same; reflexivity.
Qed.

Lemma load_error : forall p i b j, ze p err <> 0%Z ->
  s2fo p i b j = (ze p err, b) /\ state_to_gc p i b j = (ze p err, b) /\ state_to_ml p i b j = (ze p err, b).
Proof.
  intros p i b j E. unfold state_to_fo, state_to_gc, state_to_ml. cbv zeta.
  destruct (Z.eqb_spec (ze p err) 0); [contradiction | cbn [negb]; auto].
Qed.

(** ** writing back *)
Ltac brk := repeat match goal with
  | |- context [match ?x with _ => _ end] => destruct x eqn:?
  end.

Lemma fo2s_fields : forall b j q,
  let p := fo2s b j q in
  (forall f, In f ([p_r; p_phi; p_z; mass; charge] ++ identity_r) -> re p f = bre b f j) /\
  (forall f, In f ([anum; znum] ++ identity_z) -> ze p f = bze b f j) /\
  re p rprt = bre b r j /\ re p phiprt = bre b phi j /\ re p zprt = bre b z j.
Proof.
  intros b j q. cbv zeta. unfold fo_to_state, identity_r, identity_z. cbn [app]. cbv zeta.
  repeat split; intros; try (match goal with H : In _ _ |- _ => cbn [In] in H; each H end);
    destruct (p2g _ _ _ _ _ _ _ _ _) as [[[[[gr gp] gz] gpp] gm] gze];
    destruct (Z.eqb (if Rle_dec gr 0 then _ else _) 0);
    repeat match goal with
    | |- context [let (_, _) := ?x in _] => destruct x
    | |- context [if Z.eqb ?z 0 then setr _ _ _ else _] => destruct (Z.eqb z 0)
    end; red1; reflexivity.
Qed.

Lemma gc2s_fields : forall b j q,
  let p := gc2s b j q in
  (forall f, In f ([r; phi; z; ppar; mu; zeta; mass; charge; rho] ++ identity_r ++ all_B) -> re p f = bre b f j) /\
  (forall f, In f identity_z -> ze p f = bze b f j) /\
  ze p anum = ze q anum /\ ze p znum = ze q znum.
Proof.
  intros b j q. cbv zeta. unfold gc_to_state, identity_r, identity_z, all_B. cbn [app]. cbv zeta.
  repeat split; intros; try (match goal with H : In _ _ |- _ => cbn [In] in H; each H end);
    destruct (g2p _ _ _ _ _ _ _ _ _) as [[[[[xr xp] xz] pp] m] zz];
    destruct (ppm _ _ _ _ _ _ _) as [[pr pphi] pz];
    destruct (Rle_dec xr 0); match goal with |- context [if Z.eqb ?z 0 then setr _ _ _ else _] => destruct (Z.eqb z 0) end;
    red1; reflexivity.
Qed.

Lemma ml2s_fields : forall b j q,
  let p := ml_to_state b j q in
  (forall f, In f ([r; phi; z; rho] ++ identity_r ++ all_B) -> re p f = bre b f j) /\
  (forall f, In f identity_z -> ze p f = bze b f j) /\
  re p ppar = bre b pitch j /\
  re p rprt = bre b r j /\ re p phiprt = bre b phi j /\ re p zprt = bre b z j /\
  (forall f, In f [p_r; p_phi; p_z; mu; zeta; mass; charge] -> re p f = 0) /\
  ze p anum = ze q anum /\ ze p znum = ze q znum.
Proof.
  intros b j q. cbv zeta. unfold ml_to_state, identity_r, identity_z, all_B. cbn [app]. cbv zeta.
  repeat split; intros; try (match goal with H : In _ _ |- _ => cbn [In] in H; each H end);
    red1; reflexivity.
Qed.

(** ** C11: round trips *)
Lemma fo_roundtrip : forall p i b j q,
  fst (s2fo p i b j) = 0%Z ->
  let p' := fo2s (snd (s2fo p i b j)) j q in
  agree_r ([rprt; phiprt; zprt; p_r; p_phi; p_z; mass; charge] ++ identity_r) p' p /\
  agree_z ([anum; znum] ++ identity_z) p' p.
Proof.
  intros p i b j q H p'. apply s2fo_iff in H. destruct H as [E (B & rh & K)].
  destruct (s2fo_slot p i b j B rh E K) as (A1 & A2 & A3 & A4 & A5 & _).
  destruct (fo2s_fields (snd (s2fo p i b j)) j q) as (C1 & C2 & C3 & C4 & C5). fold p' in C1, C2, C3, C4, C5.
  split.
  - intros f I. apply in_app_or in I. destruct I as [I|I].
    + do 3 (destruct I as [<- | I]; [congruence|]). rewrite C1, A1; auto; apply in_or_app; left; auto.
    + rewrite C1, A1; auto; apply in_or_app; right; auto.
  - intros f I. rewrite C2, A2; auto.
Qed.

Lemma gc_roundtrip : forall p i b j q,
  ze p err = 0%Z ->
  let p' := gc2s (snd (state_to_gc p i b j)) j q in
  agree_r ([r; phi; z; ppar; mu; zeta; mass; charge; rho] ++ identity_r ++ all_B) p' p /\
  agree_z identity_z p' p /\ ze p' anum = ze q anum /\ ze p' znum = ze q znum.
Proof.
  intros p i b j q E p'. destruct (s2gc_slot p i b j E) as (_ & A1 & A2 & _).
  destruct (gc2s_fields (snd (state_to_gc p i b j)) j q) as (C1 & C2 & C3). fold p' in C1, C2, C3.
  repeat split; try apply C3; intros f I; [rewrite C1, A1 | rewrite C2, A2]; auto.
Qed.

Lemma ml_roundtrip : forall p i b j q,
  ze p err = 0%Z ->
  let p' := ml_to_state (snd (state_to_ml p i b j)) j q in
  agree_r ([r; phi; z; rho] ++ identity_r ++ all_B) p' p /\
  agree_z identity_z p' p /\
  (re p' ppar = 1 /\ 0 <= re p ppar \/ re p' ppar = -1 /\ re p ppar < 0) /\
  re p' rprt = re p r /\ re p' phiprt = re p phi /\ re p' zprt = re p z /\
  (forall f, In f [p_r; p_phi; p_z; mu; zeta; mass; charge] -> re p' f = 0).
Proof.
  intros p i b j q E p'. destruct (s2ml_slot p i b j E) as (_ & A1 & A2 & A3 & _).
  destruct (ml2s_fields (snd (state_to_ml p i b j)) j q) as (C1 & C2 & C3 & C4 & C5 & C6 & C7 & _).
  fold p' in C1, C2, C3, C4, C5, C6, C7.
  repeat split; auto.
  - intros f I; rewrite C1, A1; auto.
  - intros f I; rewrite C2, A2; auto.
  - rewrite C3, A3. destruct (Rle_dec 0 (re p ppar)); [left | right]; split; auto; lra.
  - rewrite C4. apply A1. cbn. auto.
  - rewrite C5. apply A1. cbn. auto.
  - rewrite C6. apply A1. cbn. auto.
Qed.

(** ** C12 *)
Ltac kill v := cbv beta iota; repeat (match goal with |- context [(v =? 0)%Z] => destruct (Z.eqb_spec v 0); [contradiction|] end; cbv beta iota).
Lemma fo2s_err : forall b j q, bze b err j <> 0%Z -> ze (fo2s b j q) err = bze b err j.
Proof.
  intros [br bz] j q H. cbn [bze] in H. unfold fo_to_state. cbv zeta.
  destruct (p2g _ _ _ _ _ _ _ _ _) as [[[[[gr gp] gz] gpp] gm] gze].
  repeat match goal with |- context [let (_, _) := ?x in _] => destruct x end.
  red1. destruct (Z.eqb_spec (bz err j) 0); [contradiction | reflexivity].
Qed.
Lemma gc2s_err : forall b j q, bze b err j <> 0%Z -> ze (gc2s b j q) err = bze b err j.
Proof.
  intros [br bz] j q H. cbn [bze] in H. unfold gc_to_state. cbv zeta.
  destruct (g2p _ _ _ _ _ _ _ _ _) as [[[[[xr xp] xz] pp] m] zz].
  destruct (ppm _ _ _ _ _ _ _) as [[pr pphi] pz].
  red1. destruct (Z.eqb_spec (bz err j) 0); [contradiction | reflexivity].
Qed.
Lemma ml2s_err : forall b j q, ze (ml_to_state b j q) err = 0%Z.
Proof. intros. reflexivity. Qed.

(** new errors appear only when the physics says so *)
Lemma gc2s_err0 : forall b j q, bze b err j = 0%Z -> unphys <> 0%Z ->
  (ze (gc2s b j q) err <> 0%Z <-> re (gc2s b j q) rprt <= 0).
Proof.
  intros [br bz] j q H U. cbn [bze] in H. unfold gc_to_state. cbv zeta.
  destruct (g2p _ _ _ _ _ _ _ _ _) as [[[[[xr xp] xz] pp] m] zz].
  destruct (ppm _ _ _ _ _ _ _) as [[pr pphi] pz].
  destruct (Rle_dec xr 0).
  - destruct (Z.eqb_spec unphys 0); [contradiction|]. red1. rewrite H. cbn. split; auto.
  - cbn [Z.eqb]. red1. rewrite H. cbn. split; intros; [congruence | lra].
Qed.

Lemma fo2s_err0 : forall b j q, bze b err j = 0%Z -> unphys <> 0%Z ->
  let p := fo2s b j q in
  (ze p err = 0%Z ->
     0 < re p r /\ 0 <= re p mu /\ re p ppar < cc /\
     exists psi, eval_B (re p r) (re p phi) (re p z) (re p time) = (0%Z, snd (eval_B (re p r) (re p phi) (re p z) (re p time))) /\
       (forall f, In f all_B -> re p f = snd (eval_B (re p r) (re p phi) (re p z) (re p time)) f) /\
       eval_psi (re p r) (re p phi) (re p z) (re p time) = (0%Z, psi) /\ eval_rho psi = (0%Z, re p rho)).
Proof.
  intros [br bz] j q H U. cbn [bze] in H. cbv zeta. unfold fo_to_state. cbv zeta.
  match goal with |- context [p2g ?a1 ?a2 ?a3 ?a4 ?a5 ?a6 ?a7 ?a8 ?a9] =>
    destruct (p2g a1 a2 a3 a4 a5 a6 a7 a8 a9) as [[[[[gr gp] gz] gpp] gm] gze] end.
  match goal with |- context [eval_B ?a ?b ?c ?t] => set (tt0 := t) end.
  assert (Ht : tt0 = br time j) by reflexivity.
  clearbody tt0. subst tt0.
  destruct (Rle_dec gr 0) as [L|L].
  { destruct (Z.eqb_spec unphys 0); [contradiction|].
    intros K. exfalso. revert K. kill unphys. red1. rewrite H. cbn. kill unphys. congruence. }
  destruct (Rlt_dec gm 0) as [M|M].
  { destruct (Z.eqb_spec unphys 0); [contradiction|].
    intros K. exfalso. revert K. kill unphys. red1. rewrite H. cbn. kill unphys. congruence. }
  cbn [Z.eqb].
  destruct (eval_B gr gp gz (br time j)) as [e1 B] eqn:EB.
  destruct (Z.eqb_spec e1 0) as [Q1|Q1].
  2:{ intros K. exfalso. revert K. kill e1. red1. rewrite H. cbn. kill e1. congruence. }
  destruct (eval_psi gr gp gz (br time j)) as [e2 ps] eqn:EP.
  destruct (Z.eqb_spec e2 0) as [Q2|Q2].
  2:{ intros K. exfalso. revert K. kill e2. red1. rewrite H. cbn. kill e2. congruence. }
  destruct (eval_rho ps) as [e3 rh] eqn:ER.
  destruct (Z.eqb_spec e3 0) as [Q3|Q3].
  2:{ intros K. exfalso. revert K. kill e3. red1. rewrite H. cbn. kill e3. congruence. }
  red1. rewrite H. cbn [Z.eqb]. destruct (Rle_dec cc gpp); [congruence|].
  intros _. rewrite EB. subst. repeat split; try lra. exists ps.
  repeat split; auto.
  intros f I. unfold all_B in I. cbn [In] in I. each I; reflexivity.
Qed.

(** ** input validation *)
Definition valid_input (ty : itype) (energy : R) (m : marker) : Prop :=
  0 < re m r /\ 0 < re m weight /\ (0 < ze m id)%Z /\
  (ty <> TML -> 0 < re m mass) /\ (ty = TGC -> 0 < energy /\ Rabs (re m pitch) <= 1).

Notation in2s := (input_to_state eval_B eval_psi eval_rho axis_rz p2g g2p ppm unphys atan2).

Lemma leb_spec : forall a b, leb a b = true <-> a <= b.
Proof. intros. unfold leb. destruct (Rle_dec a b); intuition congruence. Qed.
Lemma raise0 : forall c e, unphys <> 0%Z -> (raise unphys c e = 0%Z <-> e = 0%Z /\ c = false).
Proof.
  intros c e U. unfold raise. destruct (Z.eqb_spec e 0); subst; destruct c; intuition congruence.
Qed.

Lemma fin_setr : forall l (g : rf -> R) q k, ze (fold_left (fun q f => setr q f (g f)) l q) k = ze q k.
Proof. induction l; intros; cbn; auto. rewrite IHl. reflexivity. Qed.

(** an accepted marker has no error, no end condition and the right id *)
Lemma input_invalid : forall conv ty en m ps, unphys <> 0%Z -> ~ valid_input ty en m ->
  let s := in2s conv ty en m ps in
  ze s err = unphys /\ ze s id = ze m id /\ ze s endcond = 0%Z.
Proof.
  intros conv ty en m ps U NV. cbv zeta. unfold input_to_state.
  assert (W : forall X Y : bool, True) by auto.
  destruct ty.
  - set (e := raise unphys (Z.leb (ze m id) 0) _).
    assert (He : e <> 0%Z).
    { intros K. apply NV. unfold e in K. rewrite !raise0 in K by auto.
      destruct K as [[[[_ K1] K2] K3] K4]. rewrite <- not_true_iff_false in K1, K2, K3. rewrite leb_spec in K1, K2, K3.
      apply Z.leb_gt in K4. repeat split; try lra; try lia; congruence. }
    assert (He' : e = unphys).
    { revert He. unfold e, raise. repeat match goal with |- context [if ?c then _ else _] => destruct c eqn:? end; congruence. }
    destruct (Z.eqb_spec e 0); [contradiction|]. destruct (Z.eqb_spec e 0); [contradiction|]. red1. auto.
  - set (e := raise unphys (Z.leb (ze m id) 0) _).
    assert (He : e <> 0%Z).
    { intros K. apply NV. unfold e in K. rewrite !raise0 in K by auto.
      destruct K as [[[[[[_ K1] K2] K3] K4] K5] K6]. rewrite <- not_true_iff_false in K1, K3, K4, K5. rewrite leb_spec in K1, K3, K4, K5.
      destruct (Rlt_dec 1 (Rabs (re m pitch))); [discriminate|].
      apply Z.leb_gt in K6. repeat split; try lra; try lia. }
    assert (He' : e = unphys).
    { revert He. unfold e, raise. repeat match goal with |- context [if ?c then _ else _] => destruct c eqn:? end; congruence. }
    destruct (Z.eqb_spec e 0); [contradiction|]. destruct (Z.eqb_spec e 0); [contradiction|]. red1. auto.
  - set (e := raise unphys (Z.leb (ze m id) 0) _).
    assert (He : e <> 0%Z).
    { intros K. apply NV. unfold e in K. rewrite !raise0 in K by auto.
      destruct K as [[[_ K1] K2] K3]. rewrite <- not_true_iff_false in K1, K2. rewrite leb_spec in K1, K2.
      apply Z.leb_gt in K3. repeat split; try lra; try lia; congruence. }
    assert (He' : e = unphys).
    { revert He. unfold e, raise. repeat match goal with |- context [if ?c then _ else _] => destruct c eqn:? end; congruence. }
    destruct (Z.eqb_spec e 0); [contradiction|]. destruct (Z.eqb_spec e 0); [contradiction|]. red1. auto.
Qed.

Ltac fin := cbn [In] in *; red1; try reflexivity.
Lemma raise_nz : forall c e, e <> 0%Z -> raise unphys c e = e.
Proof. intros. unfold raise. destruct (Z.eqb_spec e 0); congruence. Qed.

(** starting values common to all accepted markers *)
Definition fresh (s m : marker) : Prop :=
  re s weight = re m weight /\ re s time = re m time /\ ze s id = ze m id /\
  re s mileage = 0 /\ re s cputime = 0 /\ ze s endcond = 0%Z /\ ze s walltile = 0%Z.

Lemma in2s_ok : forall conv ty en m ps, unphys <> 0%Z ->
  ze (in2s conv ty en m ps) err = 0%Z ->
  valid_input ty en m /\
  match ty with
  | TP => exists s, input_p eval_B eval_psi eval_rho axis_rz p2g unphys atan2 m ps = (0%Z, s) /\ in2s conv ty en m ps = s
  | TGC => exists s, input_gc eval_B eval_psi eval_rho axis_rz g2p ppm unphys atan2 conv m ps = (0%Z, s) /\ in2s conv ty en m ps = s
  | TML => exists s, input_ml eval_B eval_psi eval_rho axis_rz atan2 m ps = (0%Z, s) /\ in2s conv ty en m ps = s
  end.
Proof.
  intros conv ty en m ps U H.
  assert (V : valid_input ty en m).
  { unfold valid_input.
    assert (D : {valid_input ty en m} + {~ valid_input ty en m}).
    { unfold valid_input. destruct (Rlt_dec 0 (re m r)); [|right; tauto].
      destruct (Rlt_dec 0 (re m weight)); [|right; tauto].
      destruct (Z_lt_dec 0 (ze m id)); [|right; tauto].
      destruct (Rlt_dec 0 (re m mass)); destruct (Rlt_dec 0 en); destruct (Rle_dec (Rabs (re m pitch)) 1); destruct ty;
      first [left; repeat split; intros; auto; try congruence; fail
            | right; intros (_ & _ & _ & K1 & K2);
              first [ now apply n, K1 | now apply n, K2 | now apply n0, K1 | now apply n0, K2 | now apply n1, K2 ] ]. }
    destruct D as [D|D]; auto.
    destruct (input_invalid conv ty en m ps U D) as [K _]. congruence. }
  split; auto. destruct V as (V1 & V2 & V3 & V4 & V5).
  assert (L1 : leb (re m r) 0 = false) by (apply not_true_iff_false; rewrite leb_spec; lra).
  assert (L2 : leb (re m weight) 0 = false) by (apply not_true_iff_false; rewrite leb_spec; lra).
  assert (L3 : Z.leb (ze m id) 0 = false) by (apply Z.leb_gt; lia).
  assert (L4 : ty <> TML -> leb (re m mass) 0 = false) by (intros; apply not_true_iff_false; rewrite leb_spec; intuition lra).
  assert (R0 : raise unphys false 0 = 0%Z) by reflexivity.
  unfold input_to_state in *. destruct ty.
  - rewrite L1, L2, L3, L4 in * by congruence. rewrite !R0 in *. cbn [Z.eqb] in *.
    destruct (input_p _ _ _ _ _ _ _ _ _) as [e s]. destruct (Z.eqb_spec e 0); subst; [eauto|].
    red1in H. congruence.
  - destruct V5 as [V5 V6]; auto. assert (L5 : leb en 0 = false) by (apply not_true_iff_false; rewrite leb_spec; lra).
    rewrite L1, L2, L3, L4, L5 in * by congruence.
    destruct (Rlt_dec 1 (Rabs (re m pitch))); [lra|]. rewrite !R0 in *. cbn [Z.eqb] in *.
    destruct (input_gc _ _ _ _ _ _ _ _ _) as [e s]. destruct (Z.eqb_spec e 0); subst; [eauto|].
    red1in H. congruence.
  - rewrite L1, L2, L3 in * by congruence. rewrite !R0 in *. cbn [Z.eqb] in *.
    destruct (input_ml _ _ _ _ _ _ _) as [e s]. destruct (Z.eqb_spec e 0); subst; [eauto|].
    red1in H. congruence.
Qed.

Ltac peel H := match type of H with
  | (if negb (Z.eqb ?e 0) then _ else _) = (0%Z, _) =>
      destruct (Z.eqb_spec e 0); cbn [negb] in H; [|exfalso; injection H; congruence]
  | (let (_, _) := ?x in _) = _ => destruct x eqn:?
  end.

Lemma input_p_accept : forall conv en m ps, unphys <> 0%Z ->
  let s := in2s conv TP en m ps in
  ze s err = 0%Z ->
  valid_input TP en m /\ fresh s m /\
  (forall f, In f [p_r; p_phi; p_z; mass; charge] -> re s f = re m f) /\
  re s rprt = re m r /\ re s phiprt = re m phi /\ re s zprt = re m z /\
  ze s anum = ze m anum /\ ze s znum = ze m znum /\ 0 < re s r /\ 0 <= re s mu.
Proof.
  intros conv en m ps U s H. destruct (in2s_ok _ _ _ _ _ U H) as [V (s' & K & E)]. fold s in E. rewrite E. clear E H s.
  split; auto. unfold input_p in K. cbv zeta in K.
  destruct (axis_rz (re m phi)) as [ea [ar az]]. peel K. peel K.
  match type of K with context [p2g ?a1 ?a2 ?a3 ?a4 ?a5 ?a6 ?a7 ?a8 ?a9] =>
    destruct (p2g a1 a2 a3 a4 a5 a6 a7 a8 a9) as [[[[[gr gp] gz] gpp] gm] gze] end.
  repeat peel K. injection K as <-.
  match goal with X : raise _ _ _ = 0%Z |- _ => rewrite !raise0 in X by auto; destruct X as [[_ X1] X2] end.
  rewrite <- not_true_iff_false, leb_spec in X1. destruct (Rlt_dec gm 0) in X2; try discriminate.
  unfold fresh. repeat split; try (intros f I; cbn [In] in I; each I); red1; try reflexivity; lra.
Qed.

Lemma input_gc_accept : forall conv en m ps, unphys <> 0%Z ->
  let s := in2s conv TGC en m ps in
  ze s err = 0%Z ->
  valid_input TGC en m /\ fresh s m /\
  (forall f, In f [r; phi; z; zeta; mass; charge] -> re s f = re m f) /\
  ze s anum = ze m anum /\ ze s znum = ze m znum /\
  (exists B, eval_B (re m r) (re m phi) (re m z) (re m time) = (0%Z, B) /\
             (forall f, In f all_B -> re s f = B f) /\ conv B = (re s ppar, re s mu)) /\
  0 < re s rprt /\ 0 <= re s mu.
Proof.
  intros conv en m ps U s H. destruct (in2s_ok _ _ _ _ _ U H) as [V (s' & K & E)]. fold s in E. rewrite E. clear E H s.
  split; auto. unfold input_gc in K. cbv zeta in K.
  destruct (eval_B (re m r) (re m phi) (re m z) (re m time)) as [eb B] eqn:EB. peel K.
  destruct (eval_psi (re m r) (re m phi) (re m z) (re m time)) as [ep ps0] eqn:EP. peel K.
  destruct (eval_rho ps0) as [er rh] eqn:ER. peel K.
  destruct (conv B) as [gpp gm] eqn:EC. peel K.
  destruct (axis_rz (re m phi)) as [ea [ar az]]. peel K.
  match type of K with context [g2p ?a1 ?a2 ?a3 ?a4 ?a5 ?a6 ?a7 ?a8 ?a9] =>
    destruct (g2p a1 a2 a3 a4 a5 a6 a7 a8 a9) as [[[[[xr xp] xz] pp] mm] zz] end.
  match type of K with context [ppm ?a1 ?a2 ?a3 ?a4 ?a5 ?a6 ?a7] =>
    destruct (ppm a1 a2 a3 a4 a5 a6 a7) as [[pr pphi] pz] end.
  peel K. injection K as <-.
  match goal with X : raise _ (leb _ _) _ = 0%Z |- _ => rewrite !raise0 in X by auto; destruct X as [_ X1] end.
  rewrite <- not_true_iff_false, leb_spec in X1.
  match goal with X : raise _ _ _ = 0%Z |- _ => rewrite !raise0 in X by auto; destruct X as [_ X2] end.
  destruct (Rlt_dec gm 0) in X2; try discriminate. subst.
  unfold fresh. repeat split; try (intros f I; cbn [In] in I; each I); red1; try reflexivity; try lra.
  exists B. unfold all_B. repeat split; try (intros f I; cbn [In] in I; each I); red1; try reflexivity; auto.
Qed.

Lemma input_ml_accept : forall conv en m ps, unphys <> 0%Z ->
  let s := in2s conv TML en m ps in
  ze s err = 0%Z ->
  valid_input TML en m /\ fresh s m /\
  (forall f, In f [r; phi; z] -> re s f = re m f) /\
  re s rprt = re m r /\ re s phiprt = re m phi /\ re s zprt = re m z /\
  re s ppar = (if Rle_dec 0 (re m pitch) then 1 else 0).
Proof.
  intros conv en m ps U s H. destruct (in2s_ok _ _ _ _ _ U H) as [V (s' & K & E)]. fold s in E. rewrite E. clear E H s.
  split; auto. unfold input_ml in K. cbv zeta in K. repeat peel K. injection K as <-.
  unfold fresh. repeat split; try (intros f I; cbn [In] in I; each I); red1; reflexivity.
Qed.

(** whatever pitch the user gives, tracing goes along +B *)
Lemma ml_direction_lost : forall conv en m ps i b j, unphys <> 0%Z ->
  let s := in2s conv TML en m ps in
  ze s err = 0%Z ->
  fst (state_to_ml s i b j) = 0%Z /\ bre (snd (state_to_ml s i b j)) pitch j = 1.
Proof.
  intros conv en m ps i b j U s H. destruct (input_ml_accept conv en m ps U H) as (_ & _ & _ & _ & _ & _ & P). fold s in P.
  destruct (s2ml_slot s i b j H) as (E & _ & _ & Q & _). split; auto. rewrite Q, P.
  destruct (Rle_dec 0 (re m pitch)); [destruct (Rle_dec 0 1) | destruct (Rle_dec 0 0)]; auto; lra.
Qed.
End P.

(** ** C13 *)
Lemma copy_r_spec : forall p1 i j l p2,
  (forall f, bze (copy_r p1 i j l p2) f = bze p2 f) /\
  (forall f, In f l -> bre (copy_r p1 i j l p2) f j = bre p1 f i) /\
  (forall f, ~ In f l -> bre (copy_r p1 i j l p2) f = bre p2 f) /\
  others_kept j p2 (copy_r p1 i j l p2).
Proof.
  intros p1 i j l. unfold copy_r. induction l as [|a l IH]; intros p2; cbn [fold_left].
  - repeat split; auto. intros f [].
  - destruct (IH (bsetr p2 j a (bre p1 a i))) as (A & B & C & D).
    repeat split; try (eapply ok_trans; [apply ok_bsetr | apply D]; fail).
    + intros f. rewrite A. reflexivity.
    + intros f I. destruct (in_dec rf_eq_dec f l) as [Y|N]; [auto|].
      destruct I as [<- | I]; [|contradiction]. rewrite C by auto. cbn. unfold upr.
      rewrite (internal_rf_dec_lb a a eq_refl). apply upn_same.
    + intros f I. rewrite C by (intros X; apply I; now right). cbn. unfold upr.
      destruct (rf_beq f a) eqn:E; auto. apply internal_rf_dec_bl in E. subst. exfalso. apply I. now left.
    + destruct (ok_trans _ _ _ _ (ok_bsetr j p2 a (bre p1 a i)) D k H) as [X _]. auto.
    + destruct (ok_trans _ _ _ _ (ok_bsetr j p2 a (bre p1 a i)) D k H) as [_ X]. auto.
Qed.
Lemma copy_z_spec : forall p1 i j l p2,
  (forall f, bre (copy_z p1 i j l p2) f = bre p2 f) /\
  (forall f, In f l -> bze (copy_z p1 i j l p2) f j = bze p1 f i) /\
  (forall f, ~ In f l -> bze (copy_z p1 i j l p2) f = bze p2 f) /\
  others_kept j p2 (copy_z p1 i j l p2).
Proof.
  intros p1 i j l. unfold copy_z. induction l as [|a l IH]; intros p2; cbn [fold_left].
  - repeat split; auto. intros f [].
  - destruct (IH (bsetz p2 j a (bze p1 a i))) as (A & B & C & D).
    repeat split.
    + intros f. rewrite A. reflexivity.
    + intros f I. destruct (in_dec zf_eq_dec f l) as [Y|N]; [auto|].
      destruct I as [<- | I]; [|contradiction]. rewrite C by auto. cbn. unfold upz.
      rewrite (internal_zf_dec_lb a a eq_refl). apply upn_same.
    + intros f I. rewrite C by (intros X; apply I; now right). cbn. unfold upz.
      destruct (zf_beq f a) eqn:E; auto. apply internal_zf_dec_bl in E. subst. exfalso. apply I. now left.
    + destruct (ok_trans _ _ _ _ (ok_bsetz j p2 a (bze p1 a i)) D k H) as [X _]. auto.
    + destruct (ok_trans _ _ _ _ (ok_bsetz j p2 a (bze p1 a i)) D k H) as [_ X]. auto.
Qed.

(** the fields of each simulation struct (particle.h), without err and index *)
Definition fo_rfields : list rf :=
  [r; phi; z; p_r; p_phi; p_z; mass; charge; time] ++ all_B ++ [weight; cputime; rho; theta; mileage].
Definition fo_zfields : list zf := [znum; anum; bounces; id; endcond; walltile; running].
Definition gc_rfields : list rf :=
  [r; phi; z; ppar; mu; zeta; mass; charge; time] ++ all_B ++ [weight; cputime; rho; theta; mileage].
Definition gc_zfields : list zf := [bounces; id; endcond; walltile; running].
Definition ml_rfields : list rf :=
  [r; phi; z; pitch; time] ++ all_B ++ [weight; cputime; rho; theta; mileage].
Definition ml_zfields : list zf := [id; endcond; walltile; running].

Definition copied (p1 : bundle) (i : nat) (p2 p2' : bundle) (j : nat) (lr : list rf) (lz : list zf) : Prop :=
  (forall f, In f lr -> bre p2' f j = bre p1 f i) /\
  (forall f, In f lz -> bze p2' f j = bze p1 f i) /\
  bze p2' err j = bze p2 err j /\ bze p2' index j = bze p2 index j /\
  (forall k, k <> j -> (forall f, bre p2' f k = bre p2 f k) /\ (forall f, bze p2' f k = bze p2 f k)).

Lemma copy_gen : forall p1 i p2 j l1 lz l2,
  ~ In err lz -> ~ In index lz ->
  copied p1 i p2 (copy_r p1 i j l2 (copy_z p1 i j lz (copy_r p1 i j l1 p2))) j (l1 ++ l2) lz.
Proof.
  intros p1 i p2 j l1 lz l2 NE NI.
  set (b1 := copy_r p1 i j l1 p2). set (b2 := copy_z p1 i j lz b1).
  destruct (copy_r_spec p1 i j l1 p2) as (A1 & A2 & A3 & A4).
  destruct (copy_z_spec p1 i j lz b1) as (B1 & B2 & B3 & B4).
  destruct (copy_r_spec p1 i j l2 b2) as (C1 & C2 & C3 & C4).
  fold b1 in A1, A2, A3, A4. fold b2 in B1, B2, B3, B4.
  unfold copied. split; [|split; [|split; [|split]]].
  - intros f I. destruct (in_dec rf_eq_dec f l2) as [Y|N]; [auto|].
    rewrite C3, B1 by auto. apply in_app_or in I. destruct I; [auto | contradiction].
  - intros f I. rewrite C1. auto.
  - rewrite C1, B3, A1; auto.
  - rewrite C1, B3, A1; auto.
  - apply (ok_trans _ _ _ _ A4 (ok_trans _ _ _ _ B4 C4)).
Qed.
Lemma copied_sub : forall p1 i p2 p2' j lr lz lr' lz', incl lr' lr -> incl lz' lz ->
  copied p1 i p2 p2' j lr lz -> copied p1 i p2 p2' j lr' lz'.
Proof. unfold copied, incl; intros; intuition. Qed.

Ltac incl_tac := intros f I; cbn [In app] in *; each I; tauto.
Lemma copy_fo_spec : forall p1 i p2 j, copied p1 i p2 (copy_fo p1 i p2 j) j fo_rfields fo_zfields.
Proof.
  intros. unfold copy_fo. cbv zeta. eapply copied_sub; [| |apply copy_gen].
  - unfold fo_rfields, all_B, copy_B. incl_tac.
  - unfold fo_zfields. incl_tac.
  - cbn. intuition congruence.
  - cbn. intuition congruence.
Qed.
Lemma copy_gc_spec : forall p1 i p2 j, copied p1 i p2 (copy_gc p1 i p2 j) j gc_rfields gc_zfields.
Proof.
  intros. unfold copy_gc. cbv zeta. eapply copied_sub; [| |apply copy_gen].
  - unfold gc_rfields, all_B, copy_B. incl_tac.
  - unfold gc_zfields. incl_tac.
  - cbn. intuition congruence.
  - cbn. intuition congruence.
Qed.
Lemma copy_ml_spec : forall p1 i p2 j, copied p1 i p2 (copy_ml p1 i p2 j) j ml_rfields ml_zfields.
Proof.
  intros. unfold copy_ml. cbv zeta. eapply copied_sub; [| |apply copy_gen].
  - unfold ml_rfields, all_B, copy_B. incl_tac.
  - unfold ml_zfields. incl_tac.
  - cbn. intuition congruence.
  - cbn. intuition congruence.
Qed.
