From Coq Require Import Reals ZArith List Bool Lia Lra Psatz.
From Verif Require Import MathModel MathProofs OrbModel.
Import ListNotations.
Local Open Scope R_scope.

(** ** Specification of what is recorded *)
(** points of the crossed planes, in order *)
Fixpoint crossed (chk : R -> R) (mkpt : R -> Z -> point) (base : Z) (l : list R) : list point :=
  match l with
  | [] => []
  | a :: t => (if is0 (chk a) then [] else [mkpt (chk a) base]) ++ crossed chk mkpt (base + 1)%Z t
  end.
Definition crossings (c : cfg) (kd : kind) (pf pi : mk) : list point :=
  crossed (check_plane (m_val pf Fphi) (m_val pi Fphi))
          (fun k j => pt_cross kd pf pi k (1 - k) j (Some (direction (m_val pf Fphi) (m_val pi Fphi))) true) 0 (tor c) ++
  crossed (check_plane (m_val pf Fth) (m_val pi Fth))
          (fun k j => pt_cross kd pf pi k (1 - k) j (Some (direction (m_val pf Fth) (m_val pi Fth))) true)
          (Z.of_nat (length (tor c))) (pol c) ++
  crossed (check_radial (m_val pf Frho) (m_val pi Frho))
          (fun k j => match kd with
             | FO => pt_cross kd pf pi (1 - k) k j (Some (direction (m_val pf Frho) (m_val pi Frho))) false
             | GC => pt_cross kd pf pi k (1 - k) j (Some (direction (m_val pf Frho) (m_val pi Frho))) false
             | ML => pt_cross kd pf pi k (1 - k) j None false end)
          (Z.of_nat (length (tor c)) + Z.of_nat (length (pol c)))%Z (rad c).

(** a marker's log: points recorded so far (oldest first) and the mileage at
    the latest record *)
Definition log := (list point * R)%type.
Definition new_points (c : cfg) (kd : kind) (s : log) (pf pi : mk) : list (point * R) :=
  if (m_id pf <=? 0)%Z then []
  else if interval_mode c then
    let first := match fst s with [] => [(pt_state kd pi, m_val pi Fmil)] | _ => [] end in
    let last := match fst s with [] => m_val pi Fmil | _ => snd s end in
    first ++ (if (leb (last + wint c) (m_val pf Fmil) || (0 <? m_endcond pf)%Z)%bool
              then [(pt_state kd pf, m_val pf Fmil)] else [])
  else if Req_EM_T (m_val pf Fmil) (m_val pi Fmil) then []
  else map (fun p => (p, m_val pf Fmil)) (crossings c kd pf pi).
Definition extend (s : log) (l : list (point * R)) : log :=
  fold_left (fun s p => (fst s ++ [fst p], snd p)) l s.
Definition log1 (c : cfg) (kd : kind) (S : nat -> log) (p : mk * mk) : nat -> log :=
  upd S (m_index (fst p)) (extend (S (m_index (fst p))) (new_points c kd (S (m_index (fst p))) (fst p) (snd p))).
Definition logrun (c : cfg) (steps : list (kind * list (mk * mk))) (S : nat -> log) : nat -> log :=
  fold_left (fun S s => fold_left (log1 c (fst s)) (snd s) S) steps S.
Definition log0 : nat -> log := fun _ => ([], 0).

(** the buffer holds the most recent N points in cyclic order *)
Definition holds (c : cfg) (d : orb) (m : nat) (L : list point) : Prop :=
  pnt d m = (length L mod npnt c)%nat /\
  (forall k p f v, nth_error L k = Some p -> (length L <= k + npnt c)%nat -> p f = Some v ->
     arr d f (m * npnt c + k mod npnt c)%nat = v).

Definition hasid (p : point) : Prop := exists x, p Fid = Some x /\ x <> 0.
Definition good (c : cfg) (d : orb) (m : nat) (s : log) : Prop :=
  holds c d m (fst s) /\ (fst s = [] <-> arr d Fid (m * npnt c)%nat = 0) /\ (fst s <> [] -> recd d m = snd s).

Lemma is0_spec : forall x, is0 x = true <-> x = 0.
Proof. intros x. unfold is0. destruct (Req_EM_T x 0); split; intros; auto; discriminate. Qed.
Lemma leb_spec : forall x y, leb x y = true <-> x <= y.
Proof. intros. unfold leb. destruct (Rle_dec x y); split; intros; auto; try discriminate; contradiction. Qed.
Lemma ltb_spec : forall x y, ltb x y = true <-> x < y.
Proof. intros. unfold ltb. destruct (Rlt_dec x y); split; intros; auto; try discriminate; contradiction. Qed.

Section Ring.
Variable c : cfg.
Hypothesis NP : (0 < npnt c)%nat.
Let N := npnt c.

Lemma mod_succ : forall n, (if Nat.eqb (S (n mod N)) N then 0%nat else S (n mod N)) = (S n mod N)%nat.
Proof.
  intros n. pose proof (Nat.mod_upper_bound n N ltac:(unfold N; lia)) as B.
  pose proof (Nat.div_mod n N ltac:(unfold N; lia)) as E.
  destruct (Nat.eqb_spec (S (n mod N)) N) as [H|H].
  - apply (Nat.mod_unique (S n) N (S (n / N))); [unfold N; lia|]. nia.
  - apply (Nat.mod_unique (S n) N (n / N)); nia.
Qed.

Lemma mod_eq_gap : forall k l, (k < l)%nat -> (l <= k + N)%nat -> (k mod N = l mod N)%nat -> l = (k + N)%nat.
Proof.
  intros k l H1 H2 E. assert (PN : (0 < N)%nat) by exact NP.
  pose proof (Nat.div_mod k N ltac:(lia)) as A. pose proof (Nat.div_mod l N ltac:(lia)) as B.
  pose proof (Nat.mod_upper_bound k N ltac:(lia)). rewrite E in A.
  assert (N * (l / N) - N * (k / N) = l - k)%nat by lia.
  assert (l / N > k / N)%nat by nia. assert (l / N <= k / N + 1)%nat by nia. nia.
Qed.

Lemma pos_inj : forall m k m' k', (k < N)%nat -> (k' < N)%nat -> (m * N + k = m' * N + k')%nat -> m = m' /\ k = k'.
Proof. intros. assert (m = m') by nia. subst. split; lia. Qed.

Lemma push_good : forall d m s p mil, good c d m s -> hasid p ->
  let st := push c m (d, pnt d m) p mil in
  good c (fst st) m (fst s ++ [p], mil) /\ snd st = pnt (fst st) m.
Proof.
  intros d m [L r] p mil ((HP & HA) & HI & HR) (x & Hx & Hx0). assert (PN : (0 < N)%nat) by exact NP.
  fold N in HP, HA, HI. cbn [fst snd] in *. unfold push. cbn [fst snd pnt]. fold N. rewrite HP.
  assert (LEN : length (L ++ [p]) = S (length L)) by (rewrite app_length; cbn; lia).
  split.
  2:{ unfold upd. rewrite Nat.eqb_refl. reflexivity. }
  unfold good, holds. cbn [fst snd pnt arr recd]. fold N. rewrite LEN. split; [split|split].
  - unfold upd. rewrite Nat.eqb_refl. apply mod_succ.
  - intros k q f v Hk Hlen Hq. unfold write.
    assert (KL : (k < S (length L))%nat) by (rewrite <- LEN; apply nth_error_Some; congruence).
    destruct (Nat.eq_dec k (length L)) as [->|NE].
    + rewrite nth_error_app2, Nat.sub_diag in Hk by lia. cbn in Hk. injection Hk as <-. rewrite Nat.eqb_refl, Hq. reflexivity.
    + rewrite nth_error_app1 in Hk by lia.
      destruct (Nat.eqb_spec (m * N + k mod N) (m * N + length L mod N)) as [E|E].
      * exfalso. assert (k mod N = length L mod N)%nat by lia.
        pose proof (mod_eq_gap k (length L) ltac:(lia) ltac:(lia) H). lia.
      * eapply HA; eauto. lia.
  - split; [intros H; destruct L; discriminate|]. intros H. exfalso. unfold write in H.
    destruct (Nat.eqb_spec (m * N) (m * N + length L mod N)) as [E|E].
    + rewrite Hx in H. contradiction.
    + apply HI in H. subst. cbn in E. rewrite Nat.mod_0_l in E by lia. lia.
  - intros _. unfold upd. rewrite Nat.eqb_refl. reflexivity.
Qed.

Lemma push_frame : forall d m p mil, (pnt d m < N)%nat ->
  let d' := fst (push c m (d, pnt d m) p mil) in
  (forall f i, ~ (m * N <= i < m * N + N)%nat -> arr d' f i = arr d f i) /\
  (forall m', m' <> m -> pnt d' m' = pnt d m' /\ recd d' m' = recd d m').
Proof.
  intros d m p mil H. cbv zeta. unfold push. cbn [fst arr pnt recd]. split.
  - intros f i Hi. unfold write. destruct (Nat.eqb_spec i (m * npnt c + pnt d m)); auto. fold N in e. lia.
  - intros m' Hm. unfold upd. destruct (Nat.eqb_spec m' m); [contradiction | auto].
Qed.

Definition pushes (m : nat) (st : orb * nat) (l : list (point * R)) : orb * nat :=
  fold_left (fun st p => push c m st (fst p) (snd p)) l st.
(** the state after pushing: everything we need *)
Definition step_ok (m : nat) (d d' : orb) (s' : log) : Prop :=
  good c d' m s' /\
  (forall f i, ~ (m * N <= i < m * N + N)%nat -> arr d' f i = arr d f i) /\
  (forall m', m' <> m -> pnt d' m' = pnt d m' /\ recd d' m' = recd d m').

Lemma good_lt : forall d m s, good c d m s -> (pnt d m < N)%nat.
Proof. intros d m s ((H & _) & _). rewrite H. apply Nat.mod_upper_bound. unfold N in *. lia. Qed.

Lemma pushes_ok : forall l m d s, good c d m s -> (forall p, In p l -> hasid (fst p)) ->
  let st := pushes m (d, pnt d m) l in
  step_ok m d (fst st) (extend s l) /\ snd st = pnt (fst st) m.
Proof.
  induction l as [|[p r] l IH]; intros m d s G H st.
  - cbn. split; [split; [auto | split; auto] | auto].
  - subst st. destruct (push_good d m s p r G (H (p, r) (or_introl eq_refl))) as [G1 E1].
    destruct (push_frame d m p r (good_lt _ _ _ G)) as [F1 F2].
    cbn [pushes fold_left fst snd extend]. set (st1 := push c m (d, pnt d m) p r) in *.
    destruct st1 as [d1 i1]. cbn [fst snd] in *. subst i1.
    destruct (IH m d1 (fst s ++ [p], r) G1 (fun q Hq => H q (or_intror Hq))) as [(A & B & C) D].
    unfold pushes in *. split; [|exact D]. split; [exact A|]. split.
    + intros f i Hi. rewrite B by auto. apply F1. auto.
    + intros m' Hm. destruct (C m' Hm) as [C1 C2]. destruct (F2 m' Hm) as [F3 F4]. rewrite C1, C2. auto.
Qed.

Lemma pushes_app : forall m l1 l2 st, pushes m st (l1 ++ l2) = pushes m (pushes m st l1) l2.
Proof. intros. unfold pushes. apply fold_left_app. Qed.
Lemma extend_app : forall s l1 l2, extend s (l1 ++ l2) = extend (extend s l1) l2.
Proof. intros. unfold extend. apply fold_left_app. Qed.

Lemma planes_pushes : forall m mil chk mkpt l base st,
  planes c m mil chk mkpt base l st = pushes m st (map (fun p => (p, mil)) (crossed chk mkpt base l)).
Proof.
  intros m mil chk mkpt l. induction l as [|a t IH]; intros base st; [reflexivity|].
  cbn [planes crossed]. rewrite IH, map_app, pushes_app. destruct (is0 (chk a)); reflexivity.
Qed.

Lemma crossed_hasid : forall chk mkpt base l, (forall k j, hasid (mkpt k j)) ->
  forall p, In p (crossed chk mkpt base l) -> hasid p.
Proof.
  intros chk mkpt base l H. revert base. induction l as [|a t IH]; intros base p K; [destruct K|].
  cbn in K. apply in_app_or in K. destruct K as [K|K]; [|eauto]. destruct (is0 (chk a)); [destruct K|].
  destruct K as [<-|[]]. apply H.
Qed.

Lemma cross_hasid : forall kd pf pi k d j o s, (0 < m_id pf)%Z -> hasid (pt_cross kd pf pi k d j o s).
Proof. intros. exists (IZR (m_id pf)). split; auto. apply not_0_IZR. lia. Qed.
Lemma state_hasid : forall kd p, (0 < m_id p)%Z -> hasid (pt_state kd p).
Proof. intros. exists (IZR (m_id p)). split; auto. apply not_0_IZR. lia. Qed.

Lemma crossings_hasid : forall kd pf pi, (0 < m_id pf)%Z -> forall p, In p (crossings c kd pf pi) -> hasid p.
Proof.
  intros kd pf pi H p K. unfold crossings in K. rewrite !in_app_iff in K.
  destruct K as [K|[K|K]]; revert K; apply crossed_hasid; intros; auto using cross_hasid.
  destruct kd; apply cross_hasid; auto.
Qed.

Definition update1 (kd : kind) (d : orb) (p : mk * mk) : orb :=
  if interval_mode c then upd_interval c kd d (fst p) (snd p) else upd_poincare c kd d (fst p) (snd p).

Lemma update1_ok : forall kd d pf pi s, ((0 < m_id pf)%Z -> (0 < m_id pi)%Z) -> good c d (m_index pf) s ->
  step_ok (m_index pf) d (update1 kd d (pf, pi)) (extend s (new_points c kd s pf pi)).
Proof.
  intros kd d pf pi s HI G. unfold update1, new_points. cbn [fst snd].
  assert (TRIV : step_ok (m_index pf) d d (extend s [])) by (split; [exact G | split; auto]).
  destruct (Z.leb_spec (m_id pf) 0).
  - unfold upd_interval, upd_poincare. destruct (Z.ltb_spec 0 (m_id pf)); [lia|]. cbn [andb].
    destruct (interval_mode c); exact TRIV.
  - destruct (interval_mode c).
    + unfold upd_interval. destruct (Z.ltb_spec 0 (m_id pf)); [|lia].
      set (m := m_index pf) in *. destruct G as (GH & GI & GR).
      destruct (is0 (arr d Fid (m * npnt c)%nat)) eqn:E0.
      * apply is0_spec in E0. apply GI in E0. rewrite E0. clear GR.
        assert (G : good c d m s) by (split; [auto | split; auto; congruence]).
        destruct (push_good d m s (pt_state kd pi) (m_val pi Fmil) G (state_hasid kd pi (HI H0))) as [G1 E1].
        assert (RD : recd (fst (push c m (d, pnt d m) (pt_state kd pi) (m_val pi Fmil))) m = m_val pi Fmil).
        { unfold push. cbn [fst recd]. unfold upd. now rewrite Nat.eqb_refl. }
        rewrite RD.
        replace (leb (m_val pi Fmil + wint c - m_val pf Fmil) 0) with (leb (m_val pi Fmil + wint c) (m_val pf Fmil))
          by (unfold leb; destruct (Rle_dec _ _), (Rle_dec _ 0); auto; lra).
        destruct (leb _ _ || _)%bool.
        -- apply (pushes_ok [(pt_state kd pi, m_val pi Fmil); (pt_state kd pf, m_val pf Fmil)] m d s G).
           intros p [<-|[<-|[]]]; apply state_hasid; auto.
        -- apply (pushes_ok [(pt_state kd pi, m_val pi Fmil)] m d s G). intros p [<-|[]]; apply state_hasid; auto.
      * assert (NE : fst s <> []) by (intros K; apply GI in K; apply is0_spec in K; congruence).
        assert (G : good c d m s) by (split; [auto | split; auto]). cbn [fst]. rewrite (GR NE).
        replace (leb (snd s + wint c - m_val pf Fmil) 0) with (leb (snd s + wint c) (m_val pf Fmil))
          by (unfold leb; destruct (Rle_dec _ _), (Rle_dec _ 0); auto; lra).
        destruct (fst s) as [|q L] eqn:EL; [contradiction|]. cbn [app].
        destruct (leb _ _ || _)%bool.
        -- apply (pushes_ok [(pt_state kd pf, m_val pf Fmil)] m d s G). intros p [<-|[]]; apply state_hasid; auto.
        -- exact TRIV.
    + unfold upd_poincare. destruct (Z.ltb_spec 0 (m_id pf)); [|lia]. cbn [andb].
      destruct (is0 (m_val pf Fmil - m_val pi Fmil)) eqn:E0; cbn [negb].
      * apply is0_spec in E0. destruct (Req_EM_T _ _); [exact TRIV | exfalso; lra].
      * destruct (Req_EM_T (m_val pf Fmil) (m_val pi Fmil)) as [Q|_].
        { exfalso. rewrite Q in E0. assert (X : is0 (m_val pi Fmil - m_val pi Fmil) = true) by (apply is0_spec; ring). congruence. }
        rewrite !planes_pushes, <- !pushes_app, <- !map_app.
        assert (X : forall p, In p (map (fun p => (p, m_val pf Fmil)) (crossings c kd pf pi)) -> hasid (fst p)).
        { intros p Hp. apply in_map_iff in Hp. destruct Hp as (q & <- & Hq). cbn [fst]. apply (crossings_hasid kd pf pi); auto. }
        pose proof (proj1 (pushes_ok _ (m_index pf) d s G X)) as R.
        unfold crossings in *. rewrite ?app_assoc in *. exact R.
Qed.

Definition allgood (d : orb) (S : nat -> log) : Prop := forall m, good c d m (S m).

Lemma good_transport : forall d d' m m' s, (forall f i, ~ (m * N <= i < m * N + N)%nat -> arr d' f i = arr d f i) ->
  (pnt d' m' = pnt d m' /\ recd d' m' = recd d m') -> m' <> m -> good c d m' s -> good c d' m' s.
Proof.
  intros d d' m m' s F [P R] NE ((HP & HA) & HI & HR). assert (PN : (0 < N)%nat) by exact NP. fold N in HP, HA, HI.
  unfold good, holds. fold N. split; [split|split].
  - congruence.
  - intros k p f v Hk Hl Hf. rewrite F; [eauto|].
    pose proof (Nat.mod_upper_bound k N ltac:(lia)). nia.
  - rewrite F by nia. exact HI.
  - intros K. rewrite R. auto.
Qed.

Lemma update1_all : forall kd d S p, ((0 < m_id (fst p))%Z -> (0 < m_id (snd p))%Z) -> allgood d S ->
  allgood (update1 kd d p) (log1 c kd S p).
Proof.
  intros kd d S [pf pi] HI A m. cbn [fst snd] in HI.
  destruct (update1_ok kd d pf pi (S (m_index pf)) HI (A _)) as (G & F & O).
  unfold log1, upd. cbn [fst snd]. destruct (Nat.eqb_spec m (m_index pf)) as [->|NE]; auto.
  eapply good_transport; eauto.
Qed.

Lemma update_all : forall kd l d S, (forall p, In p l -> (0 < m_id (fst p))%Z -> (0 < m_id (snd p))%Z) -> allgood d S ->
  allgood (update c kd d l) (fold_left (log1 c kd) l S).
Proof.
  intros kd l. induction l as [|p l IH]; intros d S H A; [exact A|].
  unfold update. cbn [fold_left]. apply (IH (update1 kd d p)).
  - intros q Hq. apply H. now right.
  - apply update1_all; auto. apply H. now left.
Qed.

Lemma init_good : allgood orb_init log0.
Proof.
  intros m. split; [split|split]; cbn.
  - rewrite Nat.mod_0_l; auto. lia.
  - intros k p f v Hk. destruct k; discriminate.
  - tauto.
  - congruence.
Qed.

Lemma run_all : forall steps d S,
  (forall s p, In s steps -> In p (snd s) -> (0 < m_id (fst p))%Z -> (0 < m_id (snd p))%Z) -> allgood d S ->
  allgood (run c steps d) (logrun c steps S).
Proof.
  induction steps as [|s t IH]; intros d S H A; [exact A|].
  cbn [run logrun fold_left]. apply IH.
  - intros s' p Hs. apply H. now right.
  - apply update_all; auto. intros p. apply H. now left.
Qed.
End Ring.

Lemma orb_run : forall c steps, (0 < npnt c)%nat ->
  (forall s p, In s steps -> In p (snd s) -> (0 < m_id (fst p))%Z -> (0 < m_id (snd p))%Z) ->
  forall m, holds c (run c steps orb_init) m (fst (logrun c steps log0 m)).
Proof. intros c steps H I m. exact (proj1 (run_all c H steps orb_init log0 I (init_good c H) m)). Qed.

(** one update only touches its own marker's section *)
Lemma run_inside : forall c steps d, (0 < npnt c)%nat ->
  (forall s p, In s steps -> In p (snd s) -> (m_index (fst p) < nmrk c)%nat) ->
  (forall m, (pnt d m < npnt c)%nat) ->
  (forall f i, (nmrk c * npnt c <= i)%nat -> arr (run c steps d) f i = arr d f i) /\
  (forall m, (pnt (run c steps d) m < npnt c)%nat).
Proof.
  intros c steps. 
  assert (P1 : forall m d p r, (0 < npnt c)%nat -> (m < nmrk c)%nat -> (forall m, (pnt d m < npnt c)%nat) ->
    forall ip, (ip < npnt c)%nat ->
    let st := push c m (d, ip) p r in
    (forall f i, (nmrk c * npnt c <= i)%nat -> arr (fst st) f i = arr d f i) /\ (forall m, (pnt (fst st) m < npnt c)%nat) /\ (snd st < npnt c)%nat).
  { intros m d p r H0 Hm HP ip Hip. cbv zeta. unfold push. cbn [fst snd arr pnt]. split; [|split].
    - intros f i Hi. unfold write. destruct (Nat.eqb_spec i (m * npnt c + ip)); auto. exfalso. nia.
    - intros m'. unfold upd. destruct (Nat.eqb_spec m' m); auto. destruct (Nat.eqb_spec (S ip) (npnt c)); lia.
    - destruct (Nat.eqb_spec (S ip) (npnt c)); lia. }
  assert (P2 : forall l m, (0 < npnt c)%nat -> (m < nmrk c)%nat -> forall d ip, (forall m, (pnt d m < npnt c)%nat) -> (ip < npnt c)%nat ->
    let st := pushes c m (d, ip) l in
    (forall f i, (nmrk c * npnt c <= i)%nat -> arr (fst st) f i = arr d f i) /\ (forall m, (pnt (fst st) m < npnt c)%nat) /\ (snd st < npnt c)%nat).
  { induction l as [|p l IH]; intros m H0 Hm d ip HP Hip; [cbn; auto|].
    cbn [pushes fold_left]. destruct (P1 m d (fst p) (snd p) H0 Hm HP ip Hip) as (A & B & C).
    destruct (push c m (d, ip) (fst p) (snd p)) as [d1 i1]. cbn [fst snd] in *.
    destruct (IH m H0 Hm d1 i1 B C) as (D & E & F). split; [|auto]. intros f i Hi. unfold pushes in D. rewrite D, A; auto. }
  assert (P3 : forall kd p, (0 < npnt c)%nat -> (m_index (fst p) < nmrk c)%nat -> forall d, (forall m, (pnt d m < npnt c)%nat) ->
    (forall f i, (nmrk c * npnt c <= i)%nat -> arr (update1 c kd d p) f i = arr d f i) /\ (forall m, (pnt (update1 c kd d p) m < npnt c)%nat)).
  { intros kd [pf pi] H0 Hm d HP. cbn [fst] in Hm. unfold update1. cbn [fst snd]. destruct (interval_mode c).
    - unfold upd_interval. destruct (0 <? m_id pf)%Z; auto.
      destruct (is0 _).
      + destruct (P1 (m_index pf) d (pt_state kd pi) (m_val pi Fmil) H0 Hm HP _ (HP (m_index pf))) as (A & B & C).
        destruct (push c (m_index pf) (d, pnt d (m_index pf)) (pt_state kd pi) (m_val pi Fmil)) as [d1 i1]. cbn [fst snd] in *.
        destruct (_ || _)%bool; [|auto].
        destruct (P1 (m_index pf) d1 (pt_state kd pf) (m_val pf Fmil) H0 Hm B i1 C) as (D & E & F). split; auto. intros. rewrite D, A; auto.
      + cbn [fst]. destruct (_ || _)%bool; [|auto].
        destruct (P1 (m_index pf) d (pt_state kd pf) (m_val pf Fmil) H0 Hm HP _ (HP (m_index pf))) as (A & B & C). auto.
    - unfold upd_poincare. destruct (_ && _)%bool; auto. rewrite !planes_pushes, <- !pushes_app, <- !map_app.
      match goal with |- context [pushes c ?m ?st ?l] => destruct (P2 l m H0 Hm d (pnt d m) HP (HP m)) as (A & B & C) end. auto. }
  assert (P4 : forall kd l, (0 < npnt c)%nat -> (forall p, In p l -> (m_index (fst p) < nmrk c)%nat) -> forall d, (forall m, (pnt d m < npnt c)%nat) ->
    (forall f i, (nmrk c * npnt c <= i)%nat -> arr (update c kd d l) f i = arr d f i) /\ (forall m, (pnt (update c kd d l) m < npnt c)%nat)).
  { intros kd l. induction l as [|p l IH]; intros H0 Hl d HP; [cbn; auto|].
    destruct (P3 kd p H0 (Hl p (or_introl eq_refl)) d HP) as [A B].
    destruct (IH H0 (fun q Hq => Hl q (or_intror Hq)) (update1 c kd d p) B) as [D E].
    unfold update in *. cbn [fold_left]. fold (update1 c kd d p). split; [intros; rewrite D, A; auto | auto]. }
  induction steps as [|s t IH]; intros d H0 Hs HP; [cbn; auto|].
  destruct (P4 (fst s) (snd s) H0 (fun p Hp => Hs s p (or_introl eq_refl) Hp) d HP) as [A B].
  destruct (IH (update c (fst s) d (snd s)) H0 (fun s' p Hs' Hp => Hs s' p (or_intror Hs') Hp) B) as [D E].
  cbn [run fold_left]. split; [intros; unfold run in D; rewrite D, A; auto | auto].
Qed.

(** ** allocation *)
Definition fits (m : rmode) (k : kind) : bool :=
  match m, k with RFO, GC | RGC, FO | RML, FO | RML, GC => false | _, _ => true end.
Lemma alloc_ok : forall m kd, fits m kd = true ->
  (forall p f, pt_state kd p f <> None -> allocated m false f = true) /\
  (forall pf pi k d j o s f, pt_cross kd pf pi k d j o s f <> None -> allocated m true f = true).
Proof.
  intros m kd H. split.
  - intros p f. destruct m, kd, f; cbn in *; congruence.
  - intros pf pi k d j o s f. destruct m, kd, f; cbn in *; congruence.
Qed.
Lemma alloc_only : forall m kd, fits m kd = false ->
  exists f, (forall p, pt_state kd p f <> None) /\ allocated m false f = false.
Proof.
  intros m kd H. destruct m, kd; try discriminate H;
    [exists Fppar | exists Fpr | exists Fw | exists Fw]; (split; [intros p; discriminate | reflexivity]).
Qed.

(** ** plane crossings *)
Definition plane (a : R) (n : Z) : R := a + 2 * PI * IZR n.

Lemma floor_diff : forall x y, x < y -> (floorR x <> floorR y <-> exists n, x < IZR n <= y).
Proof.
  intros x y H. pose proof (floor_spec x) as [A B]. pose proof (floor_spec y) as [C D]. unfold floorR in *. split.
  - intros N. exists (Int_part y). split; [|lra].
    assert (IZR (Int_part x) < IZR (Int_part y + 1)) by (rewrite plus_IZR; lra). apply lt_IZR in H0.
    assert (Int_part x <> Int_part y) by congruence. assert (Int_part x + 1 <= Int_part y)%Z by lia.
    apply IZR_le in H2. rewrite plus_IZR in H2. lra.
  - intros (n & L & U) E. rewrite E in *.
    assert (IZR n < IZR (Int_part y + 1)) by (rewrite plus_IZR; lra). apply lt_IZR in H0.
    assert (IZR (Int_part y) < IZR n) by lra. apply lt_IZR in H1. lia.
Qed.

Lemma sc_lt : forall x a n, (x - a) / (2 * PI) < IZR n <-> x < plane a n.
Proof.
  intros x a n. pose proof PI_RGT_0 as P. unfold plane.
  assert (E : (x - a) / (2 * PI) * (2 * PI) = x - a) by (field; lra). split; intros H; nra.
Qed.
Lemma sc_le : forall x a n, IZR n <= (x - a) / (2 * PI) <-> plane a n <= x.
Proof.
  intros x a n. split; intros H.
  - destruct (Rle_dec (plane a n) x); auto. exfalso. assert (x < plane a n) by lra. apply sc_lt in H0. lra.
  - destruct (Rle_dec (IZR n) ((x - a) / (2 * PI))); auto. exfalso. assert ((x - a) / (2 * PI) < IZR n) by lra. apply sc_lt in H0. lra.
Qed.
Lemma sc_mono : forall x y a, x < y <-> (x - a) / (2 * PI) < (y - a) / (2 * PI).
Proof.
  intros x y a. pose proof PI_RGT_0 as P.
  assert (E : (x - a) / (2 * PI) * (2 * PI) = x - a) by (field; lra).
  assert (F : (y - a) / (2 * PI) * (2 * PI) = y - a) by (field; lra). split; intros H; nra.
Qed.

(** the quantity computed as angular distance *)
Definition adist (iang ang0 : R) : R :=
  let a := fmod iang (2 * PI) in
  let a := if Rlt_dec a 0 then 2 * PI + a else a in
  let a := Rabs (ang0 - a) in
  if Rlt_dec PI a then 2 * PI - a else a.

Lemma adist_spec : forall i a, 0 <= a < 2 * PI ->
  0 <= adist i a <= PI /\ exists n, adist i a = Rabs (plane a n - i).
Proof.
  intros i a Ha. pose proof PI_RGT_0 as P. unfold adist.
  pose proof (fmod_range i (2 * PI) ltac:(lra)) as FR. destruct (fmod_congr i (2 * PI)) as [q Q].
  destruct (Rlt_dec (fmod i (2 * PI)) 0); [lra|]. set (m := fmod i (2 * PI)) in *. clearbody m.
  assert (Ei : i = m + 2 * PI * IZR q) by lra.
  destruct (Rlt_dec PI (Rabs (a - m))) as [L|L].
  - destruct (Rle_dec 0 (a - m)).
    + rewrite Rabs_right in * by lra. split; [lra|]. exists (q - 1)%Z. unfold plane. rewrite minus_IZR, Ei.
      rewrite Rabs_left; lra.
    + rewrite Rabs_left in * by lra. split; [lra|]. exists (q + 1)%Z. unfold plane. rewrite plus_IZR, Ei.
      rewrite Rabs_right; lra.
  - split; [split; [apply Rabs_pos | lra]|]. exists q. unfold plane. rewrite Ei. f_equal. ring.
Qed.

Lemma plane_gap : forall a n m, n <> m -> 2 * PI <= Rabs (plane a n - plane a m).
Proof.
  intros a n m H. pose proof PI_RGT_0 as P. unfold plane.
  replace (a + 2 * PI * IZR n - (a + 2 * PI * IZR m)) with (2 * PI * (IZR (n - m))) by (rewrite minus_IZR; ring).
  rewrite Rabs_mult, (Rabs_right (2 * PI)) by lra. rewrite <- abs_IZR.
  assert (1 <= IZR (Z.abs (n - m))) by (apply IZR_le; lia). nra.
Qed.

Lemma adist_near : forall i a n, 0 <= a < 2 * PI -> Rabs (plane a n - i) <= PI -> adist i a = Rabs (plane a n - i).
Proof.
  intros i a n Ha H. destruct (adist_spec i a Ha) as [B (m & E)]. rewrite E in *.
  destruct (Z.eq_dec n m) as [->|NE]; auto. pose proof (plane_gap a n m NE) as G.
  pose proof (Rabs_triang (plane a n - i) (i - plane a m)) as T.
  replace (plane a n - i + (i - plane a m)) with (plane a n - plane a m) in T by ring.
  rewrite (Rabs_minus_sym i) in T. lra.
Qed.
Lemma adist_zero : forall i a, 0 <= a < 2 * PI -> (adist i a = 0 <-> exists n, i = plane a n).
Proof.
  intros i a Ha. pose proof PI_RGT_0 as P. split.
  - intros H. destruct (adist_spec i a Ha) as [_ (n & E)]. exists n. rewrite H in E. symmetry in E.
    destruct (Req_dec (plane a n - i) 0); [lra|]. exfalso. apply (Rabs_no_R0 _ H0). auto.
  - intros (n & ->). rewrite (adist_near _ a n); auto; replace (plane a n - plane a n) with 0 by ring; rewrite Rabs_R0; lra.
Qed.
Lemma adist_far : forall i a n, 0 <= a < 2 * PI -> PI < Rabs (plane a n - i) < 2 * PI -> adist i a = 2 * PI - Rabs (plane a n - i).
Proof.
  intros i a n Ha H. pose proof PI_RGT_0 as P. destruct (Rle_dec 0 (plane a n - i)) as [L|L].
  - rewrite Rabs_right in * by lra. rewrite (adist_near i a (n - 1)).
    + unfold plane in *. rewrite minus_IZR. rewrite Rabs_left; lra.
    + auto.
    + unfold plane in *. rewrite minus_IZR. rewrite Rabs_left; lra.
  - rewrite Rabs_left in * by lra. rewrite (adist_near i a (n + 1)).
    + unfold plane in *. rewrite plus_IZR. rewrite Rabs_right; lra.
    + auto.
    + unfold plane in *. rewrite plus_IZR. rewrite Rabs_right; lra.
Qed.

Lemma check_plane_eq : forall f i a, check_plane f i a =
  if Req_EM_T (floorR ((f - a) / (2 * PI))) (floorR ((i - a) / (2 * PI))) then 0 else Rabs (adist i a / (f - i)).
Proof. reflexivity. Qed.

Lemma floors_cross : forall f i a, floorR ((f - a) / (2 * PI)) <> floorR ((i - a) / (2 * PI)) <->
  (exists n, i < plane a n <= f) \/ (exists n, f < plane a n <= i).
Proof.
  intros f i a. destruct (Rtotal_order i f) as [L|[->|L]].
  - apply (sc_mono _ _ a) in L as L'. pose proof (floor_diff _ _ L') as D. split.
    + intros H. left. destruct (proj1 D (not_eq_sym H)) as (n & A & B). exists n. split; [now apply sc_lt | now apply sc_le].
    + intros [(n & A & B)|(n & A & B)]; [|lra]. apply not_eq_sym. apply D. exists n. split; [now apply sc_lt | now apply sc_le].
  - split; [congruence|]. intros [(n & A & B)|(n & A & B)]; lra.
  - apply (sc_mono _ _ a) in L as L'. pose proof (floor_diff _ _ L') as D. split.
    + intros H. right. destruct (proj1 D H) as (n & A & B). exists n. split; [now apply sc_lt | now apply sc_le].
    + intros [(n & A & B)|(n & A & B)]; [lra|]. apply D. exists n. split; [now apply sc_lt | now apply sc_le].
Qed.

Lemma div_zero : forall x y, y <> 0 -> (Rabs (x / y) = 0 <-> x = 0).
Proof.
  intros x y H. split; intros E.
  - destruct (Req_dec x 0); auto. exfalso. apply (Rabs_no_R0 (x / y)); auto.
    unfold Rdiv. apply Rmult_integral_contrapositive_currified; auto. now apply Rinv_neq_0_compat.
  - subst. unfold Rdiv. rewrite Rmult_0_l. apply Rabs_R0.
Qed.

Lemma check_detect : forall f i a, 0 <= a < 2 * PI -> Rabs (f - i) < 2 * PI ->
  (check_plane f i a <> 0 <-> (exists n, i < plane a n <= f) \/ (exists n, f < plane a n < i)).
Proof.
  intros f i a Ha Hs. pose proof PI_RGT_0 as P. rewrite check_plane_eq. pose proof (floors_cross f i a) as FC.
  destruct (Req_EM_T _ _) as [E|E].
  - split; [congruence|]. intros [(n & L & U)|(n & L & U)]; exfalso; apply FC; auto; [left | right]; exists n; lra.
  - apply FC in E. assert (D : f - i <> 0) by (destruct E as [(n & ? & ?)|(n & ? & ?)]; lra).
    rewrite (div_zero _ _ D), (adist_zero i a Ha). split.
    + intros NZ. destruct E as [?|(n & L & U)]; [auto|]. right. exists n. split; auto.
      destruct U as [U|U]; auto. exfalso. apply NZ. exists n. auto.
    + intros C (m & M). destruct C as [(n & L & U)|(n & L & U)].
      * assert (n <> m) by (intros ->; lra). pose proof (plane_gap a n m H) as G. rewrite <- M in G.
        rewrite Rabs_right in G by lra. rewrite Rabs_right in Hs by lra. lra.
      * assert (n <> m) by (intros ->; lra). pose proof (plane_gap a n m H) as G. rewrite <- M in G.
        rewrite Rabs_left in G by lra. rewrite Rabs_left in Hs by lra. lra.
Qed.

Lemma check_locate : forall f i a, 0 <= a < 2 * PI -> Rabs (f - i) <= PI -> check_plane f i a <> 0 ->
  0 < check_plane f i a <= 1 /\ exists n, i + check_plane f i a * (f - i) = plane a n.
Proof.
  intros f i a Ha Hs H. pose proof PI_RGT_0 as P. pose proof H as H'. apply (check_detect f i a Ha) in H'; [|lra].
  rewrite check_plane_eq in *. destruct (Req_EM_T _ _) as [Q|Q]; [congruence|]. clear H.
  destruct H' as [(n & L & U)|(n & L & U)].
  - rewrite Rabs_right in Hs by lra.
    rewrite (adist_near i a n Ha) by (rewrite Rabs_right; lra). rewrite (Rabs_right (plane a n - i)) by lra.
    assert (D : 0 < (plane a n - i) / (f - i)) by (apply Rdiv_lt_0_compat; lra). rewrite Rabs_right by lra.
    assert (E : (plane a n - i) / (f - i) * (f - i) = plane a n - i) by (field; lra).
    split; [split; auto; nra|]. exists n. lra.
  - rewrite Rabs_left in Hs by lra.
    rewrite (adist_near i a n Ha) by (rewrite Rabs_left; lra). rewrite (Rabs_left (plane a n - i)) by lra.
    assert (D : 0 < (- (plane a n - i)) / (- (f - i))) by (apply Rdiv_lt_0_compat; lra).
    assert (E0 : - (plane a n - i) / (f - i) = - (- (plane a n - i) / - (f - i))) by (field; lra).
    rewrite E0, Rabs_Ropp, Rabs_right by lra.
    assert (E : - (plane a n - i) / - (f - i) * (f - i) = plane a n - i) by (field; lra).
    split; [split; auto; nra|]. exists n. lra.
Qed.

Lemma check_far : forall f i a n, 0 <= a < 2 * PI -> Rabs (f - i) < 2 * PI ->
  (i < plane a n <= f \/ f < plane a n < i) -> PI < Rabs (plane a n - i) ->
  check_plane f i a = (2 * PI - Rabs (plane a n - i)) / Rabs (f - i) /\
  (i + check_plane f i a * (f - i) <> plane a n).
Proof.
  intros f i a n Ha Hs C D. pose proof PI_RGT_0 as P.
  assert (LT : Rabs (plane a n - i) < 2 * PI).
  { destruct C as [C|C].
    - rewrite Rabs_right by lra. rewrite Rabs_right in Hs by lra. lra.
    - rewrite Rabs_left by lra. rewrite Rabs_left in Hs by lra. lra. }
  assert (NE : f - i <> 0) by (destruct C; lra).
  assert (E : check_plane f i a = (2 * PI - Rabs (plane a n - i)) / Rabs (f - i)).
  { rewrite check_plane_eq. destruct (Req_EM_T _ _) as [Q|Q].
    - exfalso. assert (X : floorR ((f - a) / (2 * PI)) <> floorR ((i - a) / (2 * PI))); [|contradiction].
      apply floors_cross. destruct C as [C|C]; [left | right]; exists n; lra.
    - rewrite (adist_far i a n Ha) by lra. unfold Rdiv. rewrite Rabs_mult, Rabs_inv. rewrite (Rabs_right (2 * PI - _)) by lra. reflexivity. }
  split; auto. rewrite E. intros K.
  destruct C as [C|C].
  - rewrite !Rabs_right in * by lra. replace ((2 * PI - (plane a n - i)) / (f - i) * (f - i)) with (2 * PI - (plane a n - i)) in K by (field; lra). lra.
  - rewrite (Rabs_left (f - i)), (Rabs_left (plane a n - i)) in * by lra.
    replace ((2 * PI - - (plane a n - i)) / - (f - i) * (f - i)) with (- (2 * PI - - (plane a n - i))) in K by (field; lra). lra.
Qed.

(** a backward marker stopping exactly on the plane is never recorded *)
Lemma check_missed : forall i p f a n, 0 <= a < 2 * PI -> p = plane a n -> p < i < p + 2 * PI -> p - 2 * PI < f < p ->
  check_plane p i a = 0 /\ check_plane f p a = 0.
Proof.
  intros i p f a n Ha -> Hi Hf. pose proof PI_RGT_0 as P. split.
  - destruct (Req_dec (check_plane (plane a n) i a) 0) as [|H]; auto. exfalso.
    apply check_detect in H; auto; [|rewrite Rabs_left; lra].
    destruct H as [(m & ? & ?)|(m & L & U)]; [lra|].
    assert (m <> n) by (intros ->; lra). pose proof (plane_gap a m n H). rewrite Rabs_right in H0; lra.
  - destruct (Req_dec (check_plane f (plane a n) a) 0) as [|H]; auto. exfalso.
    apply check_detect in H; auto; [|rewrite Rabs_left; lra].
    destruct H as [(m & ? & ?)|(m & L & U)]; [lra|].
    assert (m <> n) by (intros ->; lra). pose proof (plane_gap a m n H). rewrite Rabs_left in H0; lra.
Qed.

(** counting along a forward path *)
Fixpoint detections (a : R) (x : R) (l : list R) : Z :=
  match l with [] => 0%Z | y :: t => ((if is0 (check_plane y x a) then 0 else 1) + detections a y t)%Z end.
Fixpoint forward (x : R) (l : list R) : Prop :=
  match l with [] => True | y :: t => x <= y < x + 2 * PI /\ forward y t end.
(** number of the last plane at or below x *)
Definition nplane (a x : R) : Z := Int_part ((x - a) / (2 * PI)).

Lemma detect_forward : forall a x l, 0 <= a < 2 * PI -> forward x l ->
  detections a x l = (nplane a (last l x) - nplane a x)%Z.
Proof.
  intros a x l Ha. pose proof PI_RGT_0 as P. revert x. induction l as [|y t IH]; intros x F.
  - cbn. lia.
  - destruct F as [H F]. cbn [detections]. rewrite (IH y F).
    assert (EL : last (y :: t) x = last t y).
    { clear. revert y. induction t as [|z t IHt]; intros y; auto. change (last (z :: t) x = last (z :: t) y). apply last_indep. discriminate. }
    rewrite EL.
    assert (S : (if is0 (check_plane y x a) then 0 else 1)%Z = (nplane a y - nplane a x)%Z); [|lia].
    assert (AB : Rabs (y - x) < 2 * PI) by (rewrite Rabs_right; lra).
    pose proof (check_detect y x a Ha AB) as D.
    unfold nplane. set (u := (x - a) / (2 * PI)). set (v := (y - a) / (2 * PI)).
    pose proof (floor_spec u) as [A1 A2]. pose proof (floor_spec v) as [B1 B2]. unfold floorR in *.
    assert (UV : u <= v < u + 1).
    { unfold u, v. assert (E1 : (x - a) / (2 * PI) * (2 * PI) = x - a) by (field; lra).
      assert (E2 : (y - a) / (2 * PI) * (2 * PI) = y - a) by (field; lra). split; nra. }
    assert (IZR (Int_part u) < IZR (Int_part v + 1)) by (rewrite plus_IZR; lra).
    assert (IZR (Int_part v) < IZR (Int_part u + 2)) by (rewrite plus_IZR; lra).
    apply lt_IZR in H0, H1.
    destruct (is0 (check_plane y x a)) eqn:E.
    + apply is0_spec in E. destruct (Z.eq_dec (Int_part u) (Int_part v)); [lia|]. exfalso.
      assert (check_plane y x a <> 0); [|contradiction]. apply D. left. exists (Int_part v).
      split; [apply sc_lt | apply sc_le]; fold u v; [|lra].
      assert (Int_part v = Int_part u + 1)%Z by lia. rewrite H2, plus_IZR. lra.
    + assert (check_plane y x a <> 0) by (intros K; apply is0_spec in K; congruence).
      apply D in H2. destruct H2 as [(n & L & U)|(n & L & U)]; [|lra].
      apply sc_lt in L. apply sc_le in U. fold u in L. fold v in U.
      assert (IZR (Int_part u) < IZR n) by lra. apply lt_IZR in H2.
      assert (IZR n < IZR (Int_part v + 1)) by (rewrite plus_IZR; lra). apply lt_IZR in H3. lia.
Qed.

(** ** radial crossings *)
Lemma radial_detect : forall f i r0, check_radial f i r0 <> 0 <-> (f <= r0 < i \/ i < r0 < f).
Proof.
  intros f i r0. unfold check_radial.
  destruct ((leb f r0 && ltb r0 i) || (leb i r0 && ltb r0 f))%bool eqn:E.
  - apply orb_true_iff in E. rewrite !andb_true_iff, !leb_spec, !ltb_spec in E.
    rewrite div_zero by (destruct E; lra). split; intros H; [destruct E; [left|right]; lra | destruct H; lra].
  - apply orb_false_iff in E. destruct E as [E1 E2]. split; [congruence|]. intros [H|H]; exfalso.
    + assert (leb f r0 && ltb r0 i = true)%bool by (apply andb_true_iff; rewrite leb_spec, ltb_spec; lra). congruence.
    + assert (leb i r0 && ltb r0 f = true)%bool by (apply andb_true_iff; rewrite leb_spec, ltb_spec; lra). congruence.
Qed.
Lemma radial_locate : forall f i r0, check_radial f i r0 <> 0 ->
  0 < check_radial f i r0 <= 1 /\ i + check_radial f i r0 * (f - i) = r0.
Proof.
  intros f i r0 H. pose proof H as D. apply radial_detect in D. unfold check_radial in *.
  destruct (_ || _)%bool; [|congruence].
  destruct D as [D|D].
  - replace ((i - r0) / (f - i)) with (- ((i - r0) / (i - f))) by (field; lra). rewrite Rabs_Ropp.
    assert (0 < (i - r0) / (i - f)) by (apply Rdiv_lt_0_compat; lra). rewrite Rabs_right by lra.
    assert ((i - r0) / (i - f) * (i - f) = i - r0) by (field; lra). split; [split; nra | nra].
  - replace ((i - r0) / (f - i)) with (- ((r0 - i) / (f - i))) by (field; lra). rewrite Rabs_Ropp.
    assert (0 < (r0 - i) / (f - i)) by (apply Rdiv_lt_0_compat; lra). rewrite Rabs_right by lra.
    assert ((r0 - i) / (f - i) * (f - i) = r0 - i) by (field; lra). split; [split; nra | nra].
Qed.

(** recorded crossing points *)
Lemma cross_value : forall kd pf pi k j o s f, coord kd f = true -> f <> Fq ->
  pt_cross kd pf pi k (1 - k) j o s f = Some (m_val pi f + k * (m_val pf f - m_val pi f)).
Proof.
  intros kd pf pi k j o s f H NQ. destruct f; cbn in *; try discriminate; try congruence; rewrite ?H; f_equal; ring.
Qed.
(** the radial crossing point of a particle is mirrored in the step *)
Lemma fo_radial_value : forall pf pi r0 j, let k := check_radial (m_val pf Frho) (m_val pi Frho) r0 in k <> 0 ->
  pt_cross FO pf pi (1 - k) k j (Some (direction (m_val pf Frho) (m_val pi Frho))) false Frho =
  Some (m_val pi Frho + m_val pf Frho - r0).
Proof.
  intros pf pi r0 j k H. destruct (radial_locate _ _ _ H) as [_ E]. fold k in E. cbn. f_equal. lra.
Qed.
